(** C101: calling generate_units_config again. *)
From Verif Require Import Prelude UnionFind_Model UnionFind_Props ChannelGraph_Model ChannelGraph_Props ChannelGraph2_Props ChannelGraph3_Props ChannelGraph4_Props ChannelGraph5_Props.
From Coq Require Import Sorting.Sorted Relations.
Local Open Scope nat_scope.

(** ** Specification *)

(** Channel [e] is one of those whose cache is reset. *)
Definition recorded (s : fstate) (e : nat) : Prop :=
  exists i, i < length (f_nodes s) /\ (In e (t_in (trip_of s i)) \/ In e (t_out (trip_of s i))).
(** The full claim: a second call gives the same units. *)
Definition C101_claim : Prop :=
  forall hash g W numin names s st units,
    well_formed g -> counts g W -> length names = length g -> forward g numin = Ok s -> few_channels g W s ->
    generate_units_config hash names s (g_start s) = Ok (st, units) ->
    exists st', generate_units_config hash names s st = Ok (st', units).

(** ** Proof *)
Lemma reset_spec : forall trs st e,
  g_uf (reset_cache trs st) = g_uf st /\
  (g_hash (reset_cache trs st) e = if existsb (fun tr => existsb (Nat.eqb e) (t_in tr) || existsb (Nat.eqb e) (t_out tr)) trs then None else g_hash st e) /\
  (g_min (reset_cache trs st) e = if existsb (fun tr => existsb (Nat.eqb e) (t_in tr) || existsb (Nat.eqb e) (t_out tr)) trs then None else g_min st e).
Proof.
  unfold reset_cache. induction trs as [|tr trs IH]; intros st e; cbn [fold_left existsb]; [auto|].
  destruct (IH (reset_node st tr) e) as (A & B & C). split; [rewrite A; reflexivity|]. rewrite B, C. cbn [reset_node g_hash g_min]. unfold clear.
  destruct (existsb (Nat.eqb e) (t_in tr)), (existsb (Nat.eqb e) (t_out tr)), (existsb _ trs); cbn; auto.
Qed.
Lemma recorded_b s e : existsb (fun tr => existsb (Nat.eqb e) (t_in tr) || existsb (Nat.eqb e) (t_out tr)) (f_nodes s) = true <-> recorded s e.
Proof.
  rewrite existsb_exists. split.
  - intros (tr & Hin & H). apply In_nth_error in Hin as [i Hi]. exists i. split; [apply nth_error_Some; congruence|].
    unfold trip_of. rewrite (nth_error_nth _ _ _ Hi). apply Bool.orb_true_iff in H as [H|H]; apply existsb_In in H; auto.
  - intros (i & Hi & H). exists (trip_of s i). split; [apply nth_In; exact Hi|]. apply Bool.orb_true_iff. destruct H as [H|H]; apply existsb_In in H; auto.
Qed.
Lemma reset_recorded s st e :
  (recorded s e -> g_hash (reset_cache (f_nodes s) st) e = None /\ g_min (reset_cache (f_nodes s) st) e = None) /\
  (~ recorded s e -> g_hash (reset_cache (f_nodes s) st) e = g_hash st e /\ g_min (reset_cache (f_nodes s) st) e = g_min st e).
Proof.
  destruct (reset_spec (f_nodes s) st e) as (_ & B & C). rewrite B, C. destruct (existsb _ (f_nodes s)) eqn:E.
  - apply recorded_b in E. split; [auto|]. intros H. contradiction.
  - split; [intros H; apply recorded_b in H; congruence|auto].
Qed.

(** *** The second call on a graph with an end node *)
Section Stale.
Variable hash : list nat -> Z.
Variable base : list nat.
Variable u0 : uf.
Hypothesis HI : Inv u0.
Variable a x : nat.
Hypothesis Hax : eqv u0 a x.
(** The channel [a] has no hash, the channel [x] tied to it has one. *)
Definition J (st : gstate) : Prop := Inv (g_uf st) /\ uf_n (g_uf st) = uf_n u0 /\ (forall p q, eqv (g_uf st) p q <-> eqv u0 p q) /\
  g_hash st a = None /\ g_hash st x <> None.
Lemma owing_J st e : J st -> e < uf_n u0 -> exists u' l, owing_elem_set (g_uf st) e = Ok (u', l) /\ Inv u' /\ uf_n u' = uf_n u0 /\
  (forall p q, eqv u' p q <-> eqv u0 p q) /\ forall z, In z l <-> eqv u0 e z.
Proof.
  intros (GI1 & GN & GE & _) He. rewrite <- GN in He. destruct (set_ok (g_uf st) e GI1 He) as (u' & l & E & I' & N' & R' & M).
  exists u', l. split; [exact E|]. split; [exact I'|]. split; [congruence|]. split.
  - intros p q. rewrite <- GE. unfold eqv. split; intros (r & H1 & H2); exists r; split; apply R'; assumption.
  - intros z. rewrite M. apply GE.
Qed.
Lemma hash_J st e : J st -> e < uf_n u0 ->
  (e <> a /\ exists st' h, elem_set_hash hash base st e = Ok (st', h) /\ J st') \/ elem_set_hash hash base st e = Raise AssertionError.
Proof.
  intros HJ He. unfold elem_set_hash. destruct (g_hash st e) as [h|] eqn:Eh.
  - left. split; [intros ->; destruct HJ as (_ & _ & _ & H & _); congruence|]. exists st, h. auto.
  - destruct (owing_J st e HJ He) as (u' & l & E & I' & N' & E' & M). rewrite E. cbn [bind fst snd].
    destruct HJ as (J1 & J2 & J3 & J4 & J5). destruct (eqv_equiv _ HI) as (R1 & R2 & R3).
    destruct (all_none (g_hash st) l) eqn:AN; cbn [assert_ bind]; [|right; reflexivity]. left.
    unfold all_none in AN. rewrite forallb_forall in AN.
    assert (Hx : ~ In x l). { intros Hx. specialize (AN x Hx). destruct (g_hash st x); [discriminate|congruence]. }
    assert (Ha : ~ In a l). { intros Ha. apply Hx, M. eapply R3; [apply M; exact Ha|exact Hax]. }
    split; [intros ->; apply Ha, M, R1|]. eexists _, _. split; [reflexivity|].
    split; [exact I'|]. split; [exact N'|]. split; [exact E'|]. cbn [g_hash]. unfold set_all.
    split; [destruct (existsb (Nat.eqb a) l) eqn:Ex; [apply existsb_In in Ex; contradiction|exact J4]|].
    destruct (existsb (Nat.eqb x) l) eqn:Ex; [apply existsb_In in Ex; contradiction|exact J5].
Qed.
Lemma min_J st e : J st -> e < uf_n u0 ->
  (exists st' h, min_elem_set_index base st e = Ok (st', h) /\ J st') \/ min_elem_set_index base st e = Raise AssertionError.
Proof.
  intros HJ He. unfold min_elem_set_index. destruct (g_min st e) as [h|] eqn:Eh; [left; exists st, h; auto|].
  destruct (owing_J st e HJ He) as (u' & l & E & I' & N' & E' & M). rewrite E. cbn [bind fst snd].
  destruct (all_none (g_min st) l) eqn:AN; cbn [assert_ bind]; [|right; reflexivity]. left. eexists _, _. split; [reflexivity|].
  destruct HJ as (J1 & J2 & J3 & J4 & J5). split; [exact I'|]. split; [exact N'|]. split; [exact E'|]. auto.
Qed.
Lemma index_J : forall t st, J st -> (forall e, In e t -> e < uf_n u0) ->
  (~ In a t /\ exists st' hs, hash_with_index hash base st t = Ok (st', hs) /\ J st' /\ length hs = length t) \/ hash_with_index hash base st t = Raise AssertionError.
Proof.
  induction t as [|e t IH]; intros st HJ Ht; [left; split; [intros []|]; exists st, []; auto|]. cbn [hash_with_index].
  destruct (hash_J st e HJ (Ht e (or_introl eq_refl))) as [(Ne & s1 & h & E1 & J1)|E1]; rewrite E1; cbn [bind fst snd]; [|auto].
  destruct (min_J s1 e J1 (Ht e (or_introl eq_refl))) as [(s2 & m & E2 & J2)|E2]; rewrite E2; cbn [bind fst snd]; [|auto].
  destruct (IH s2 J2) as [(Na & s3 & hs & E3 & J3 & L3)|E3]; [intros z Hz; apply Ht; right; exact Hz| |]; rewrite E3; cbn [bind fst snd]; [|auto].
  left. split; [intros [->|H]; auto|]. eexists _, _. split; [reflexivity|]. split; [exact J3|]. cbn. congruence.
Qed.
Lemma tensor_J nm io t st d : J st -> t <> [] -> (forall e, In e t -> e < uf_n u0) ->
  (~ In a t /\ exists st' d', process_tensor hash base nm io t (st, d) = Ok (st', d') /\ J st') \/ process_tensor hash base nm io t (st, d) = Raise AssertionError.
Proof.
  intros HJ Hne Ht. unfold process_tensor, hash_ranges. cbn [fst snd].
  destruct (index_J t st HJ Ht) as [(Na & s1 & hs & E1 & J1 & L1)|E1]; rewrite E1; cbn [bind fst snd]; [|auto].
  destruct hs as [|h0 hs]; [destruct t; [congruence|discriminate]|]. cbn [elems_hash_ranges bind fst snd]. left. split; [exact Na|]. eexists _, _. split; [reflexivity|exact J1].
Qed.
Lemma nodes_J : forall nts st d, J st ->
  (forall nm tr, In (nm, tr) nts -> t_in tr <> [] /\ t_out tr <> [] /\ (forall e, In e (t_in tr) -> e < uf_n u0) /\ (forall e, In e (t_out tr) -> e < uf_n u0)) ->
  (exists nm tr, In (nm, tr) nts /\ In a (t_in tr)) -> foldM (process_node hash base) nts (st, d) = Raise AssertionError.
Proof.
  induction nts as [|[nm tr] nts IH]; intros st d HJ Hn (nm0 & tr0 & Hin & Ha); [destruct Hin|]. cbn [foldM]. unfold process_node at 1. cbn [fst snd].
  destruct (Hn nm tr (or_introl eq_refl)) as (H1 & H2 & H3 & H4).
  destruct (tensor_J nm true (t_out tr) st d HJ H2 H4) as [(_ & s1 & d1 & E1 & J1)|E1]; rewrite E1; cbn [bind]; [|reflexivity].
  destruct (tensor_J nm false (t_in tr) s1 d1 J1 H1 H3) as [(Na & s2 & d2 & E2 & J2)|E2]; rewrite E2; cbn [bind]; [|reflexivity].
  destruct Hin as [E|Hin]; [injection E as <- <-; contradiction|].
  apply IH; [exact J2|intros n' t' H'; apply (Hn n' t'); right; exact H'|exists nm0, tr0; auto].
Qed.
End Stale.

(** *** The first call leaves a hash on every tied channel *)
Section First.
Variable hash : list nat -> Z.
Definition kept (st st' : gstate) : Prop := forall x, g_hash st x <> None -> g_hash st' x <> None.
Lemma hash_kept base st e st' h : elem_set_hash hash base st e = Ok (st', h) -> kept st st'.
Proof.
  unfold elem_set_hash. destruct (g_hash st e); [intros E; apply Ok_inj in E; injection E as <- _; intros x; auto|].
  destruct (owing_elem_set (g_uf st) e) as [[u l]|]; cbn [bind fst snd]; [|discriminate]. destruct (all_none _ _); cbn [assert_ bind]; [|discriminate].
  intros E. apply Ok_inj in E. injection E as <- _. intros x Hx. cbn [g_hash]. unfold set_all. destruct (existsb _ _); [discriminate|exact Hx].
Qed.
Lemma min_kept base st e st' h : min_elem_set_index base st e = Ok (st', h) -> kept st st'.
Proof.
  unfold min_elem_set_index. destruct (g_min st e); [intros E; apply Ok_inj in E; injection E as <- _; intros x; auto|].
  destruct (owing_elem_set (g_uf st) e) as [[u l]|]; cbn [bind fst snd]; [|discriminate]. destruct (all_none _ _); cbn [assert_ bind]; [|discriminate].
  intros E. apply Ok_inj in E. injection E as <- _. intros x Hx. exact Hx.
Qed.
Lemma index_kept base : forall t st st' hs, hash_with_index hash base st t = Ok (st', hs) -> kept st st'.
Proof.
  induction t as [|e t IH]; intros st st' hs; cbn [hash_with_index]; [intros E; apply Ok_inj in E; injection E as <- _; intros x; auto|].
  destruct (elem_set_hash hash base st e) as [[s1 h]|] eqn:E1; cbn [bind fst snd]; [|discriminate].
  destruct (min_elem_set_index base s1 e) as [[s2 m]|] eqn:E2; cbn [bind fst snd]; [|discriminate].
  destruct (hash_with_index hash base s2 t) as [[s3 r]|] eqn:E3; cbn [bind fst snd]; [|discriminate].
  intros E. apply Ok_inj in E. injection E as <- _. intros x Hx. eapply IH; [exact E3|]. eapply min_kept; [exact E2|]. eapply hash_kept; [exact E1|exact Hx].
Qed.
Lemma tensor_kept base nm io t st d st' d' : process_tensor hash base nm io t (st, d) = Ok (st', d') -> kept st st'.
Proof.
  unfold process_tensor, hash_ranges. cbn [fst snd]. destruct (hash_with_index hash base st t) as [[s1 hs]|] eqn:E1; cbn [bind fst snd]; [|discriminate].
  destruct (elems_hash_ranges hs); cbn [bind fst snd]; [|discriminate]. intros E. apply Ok_inj in E. injection E as <- _. eapply index_kept. exact E1.
Qed.
Lemma nodes_kept base : forall nts st d st' d', foldM (process_node hash base) nts (st, d) = Ok (st', d') -> kept st st'.
Proof.
  induction nts as [|[nm tr] nts IH]; intros st d st' d'; cbn [foldM]; [intros E; apply Ok_inj in E; injection E as <- _; intros x; auto|].
  unfold process_node at 1. cbn [fst snd]. destruct (process_tensor hash base nm true (t_out tr) (st, d)) as [[s1 d1]|] eqn:E1; cbn [bind]; [|discriminate].
  destruct (process_tensor hash base nm false (t_in tr) (s1, d1)) as [[s2 d2]|] eqn:E2; cbn [bind]; [|discriminate].
  intros E x Hx. eapply IH; [exact E|]. eapply tensor_kept; [exact E2|]. eapply tensor_kept; [exact E1|exact Hx].
Qed.
Variable s : fstate.
Hypothesis HI : Inv (f_uf s).
Hypothesis HB : BI s.
Hypothesis small : (Z.of_nat (uf_n (f_uf s)) <= 2 ^ 32)%Z.
Lemma hash_set st e st' h : GI hash s st -> e < uf_n (f_uf s) -> elem_set_hash hash (f_base s) st e = Ok (st', h) -> g_hash st' e <> None.
Proof.
  intros G He. unfold elem_set_hash. destruct (g_hash st e) eqn:Eh; [intros E; apply Ok_inj in E; injection E as <- _; congruence|].
  destruct (owing_ok hash s st e G He) as (u' & l & E & _ & _ & _ & M). rewrite E. cbn [bind fst snd]. destruct (all_none _ _); cbn [assert_ bind]; [|discriminate].
  intros E'. apply Ok_inj in E'. injection E' as <- _. cbn [g_hash]. unfold set_all.
  assert (Hin : In e l) by (apply M; exact (proj1 (eqv_equiv _ HI) e)). apply existsb_In in Hin. rewrite Hin. discriminate.
Qed.
Lemma index_set : forall t st st' hs, GI hash s st -> (forall e, In e t -> e < uf_n (f_uf s)) -> hash_with_index hash (f_base s) st t = Ok (st', hs) ->
  forall e, In e t -> g_hash st' e <> None.
Proof.
  induction t as [|e0 t IH]; intros st st' hs G Ht E e He; [destruct He|]. cbn [hash_with_index] in E.
  destruct (hash_step hash s HI HB st e0 G (Ht e0 (or_introl eq_refl))) as (s1 & h & E1 & G1 & _). rewrite E1 in E. cbn [bind fst snd] in E.
  destruct (min_step hash s HI s1 e0 G1 (Ht e0 (or_introl eq_refl))) as (s2 & m & E2 & G2 & _). rewrite E2 in E. cbn [bind fst snd] in E.
  destruct (hash_with_index hash (f_base s) s2 t) as [[s3 r]|] eqn:E3; cbn [bind fst snd] in E; [|discriminate]. apply Ok_inj in E. injection E as <- _.
  destruct He as [<-|He].
  - apply (index_kept _ _ _ _ _ E3). apply (min_kept _ _ _ _ _ E2). eapply hash_set; [exact G|apply Ht; left; reflexivity|exact E1].
  - eapply IH; [exact G2|intros z Hz; apply Ht; right; exact Hz|exact E3|exact He].
Qed.
Lemma tensor_set nm io t st d st' d' : GI hash s st -> (forall e, In e t -> e < uf_n (f_uf s)) -> process_tensor hash (f_base s) nm io t (st, d) = Ok (st', d') ->
  forall e, In e t -> g_hash st' e <> None.
Proof.
  intros G Ht. unfold process_tensor, hash_ranges. cbn [fst snd]. destruct (hash_with_index hash (f_base s) st t) as [[s1 hs]|] eqn:E1; cbn [bind fst snd]; [|discriminate].
  destruct (elems_hash_ranges hs); cbn [bind fst snd]; [|discriminate]. intros E. apply Ok_inj in E. injection E as <- _. eapply index_set; eauto.
Qed.
Lemma nodes_set : forall nts st d st' d', GI hash s st -> dict_ok d -> (forall nm tr, In (nm, tr) nts -> both_ok s tr) ->
  foldM (process_node hash (f_base s)) nts (st, d) = Ok (st', d') ->
  GI hash s st' /\ forall nm tr e, In (nm, tr) nts -> In e (t_in tr) \/ In e (t_out tr) -> g_hash st' e <> None.
Proof.
  induction nts as [|[nm tr] nts IH]; intros st d st' d' G Hd Hn; cbn [foldM]; [intros E; apply Ok_inj in E; injection E as <- _; split; [exact G|intros ? ? ? []]|].
  unfold process_node at 1. cbn [fst snd]. pose proof (Hn nm tr (or_introl eq_refl)) as (H1 & H2 & H3 & H4).
  destruct (tensor_step hash s HI HB small st d nm true (t_out tr) G Hd H2 H4) as (s1 & d1 & r1 & E1 & G1 & D1 & _). rewrite E1. cbn [bind].
  destruct (tensor_step hash s HI HB small s1 d1 nm false (t_in tr) G1 D1 H1 H3) as (s2 & d2 & r2 & E2 & G2 & D2 & _). rewrite E2. cbn [bind].
  intros E. destruct (IH s2 d2 st' d' G2 D2) as [G3 H5]; [intros; apply (Hn nm0); right; assumption|exact E|]. split; [exact G3|].
  intros nm' tr' e [Ein|Hin] He; [injection Ein as <- <-|eapply H5; eauto].
  apply (nodes_kept _ _ _ _ _ _ E). destruct He as [He|He].
  - exact (tensor_set _ _ _ _ _ _ _ G1 H3 E2 e He).
  - apply (tensor_kept _ _ _ _ _ _ _ _ E2). exact (tensor_set _ _ _ _ _ _ _ G H4 E1 e He).
Qed.
End First.

(** *** The end node leaves channels that no node records *)
Lemma root_n : forall fuel u x u' r, root fuel u x = Ok (u', r) -> uf_n u' = uf_n u.
Proof.
  induction fuel as [|fuel IH]; intros u x u' r E; cbn [root] in E; destruct (uf_parent u x) as [y|]; try discriminate E; try (apply Ok_inj in E; injection E as <- _; reflexivity).
  destruct (root fuel u y) as [[u1 r1]|] eqn:E1; cbn [bind] in E; [|discriminate].
  destruct (unset_parent u1 x) as [u2|] eqn:E2; cbn [bind] in E; [|discriminate].
  destruct (match uf_parent u2 x with None => true | Some _ => false end); cbn [assert_ bind] in E; [|discriminate].
  destruct (root fuel u2 r1) as [[u3 r2]|] eqn:E3; cbn [bind] in E; [|discriminate].
  destruct (negb (Nat.eqb r2 x)); cbn [assert_ bind] in E; [|discriminate]. apply Ok_inj in E. injection E as <- _. cbn [uf_n].
  apply IH in E1. apply IH in E3. unfold unset_parent in E2. destruct (uf_parent u1 x); [|discriminate]. destruct (existsb _ _); [|discriminate].
  apply Ok_inj in E2. subst u2. cbn [uf_n] in E3. congruence.
Qed.
Lemma union_two_n u a b u' : union_two u a b = Ok u' -> uf_n u' = uf_n u.
Proof.
  unfold union_two. destruct (root (uf_n u) u a) as [[u1 r1]|] eqn:E1; cbn [bind]; [|discriminate]. destruct (root (uf_n u) u1 b) as [[u2 r2]|] eqn:E2; cbn [bind]; [|discriminate].
  apply root_n in E1. apply root_n in E2. destruct (Nat.eqb r1 r2); [intros E; apply Ok_inj in E; subst; congruence|]. unfold set_parent.
  destruct (match uf_parent u2 r2 with None => true | Some _ => false end); cbn [assert_ bind]; [|discriminate].
  destruct (root (uf_n u) u2 r1) as [[u3 r3]|] eqn:E3; cbn [bind]; [|discriminate]. apply root_n in E3. destruct (negb _); cbn [assert_ bind]; [|discriminate].
  intros E. apply Ok_inj in E. subst u'. cbn [uf_n]. congruence.
Qed.
Lemma union_pairs_n : forall l u u', union_pairs u l = Ok u' -> uf_n u' = uf_n u.
Proof.
  induction l as [|[a b] l IH]; intros u u' E; cbn [union_pairs] in E; [apply Ok_inj in E; congruence|].
  destruct (union_two u a b) as [u1|] eqn:E1; cbn [bind] in E; [|discriminate]. apply union_two_n in E1. apply IH in E. congruence.
Qed.
Lemma f_union_n s a b s' : f_union s a b = Ok s' -> uf_n (f_uf s') = uf_n (f_uf s).
Proof.
  unfold f_union, tensor_union. destruct (Nat.eqb _ _); cbn [assert_ bind]; [|discriminate]. destruct (union_pairs _ _) as [u|] eqn:E; cbn [bind]; [|discriminate].
  intros E'. apply Ok_inj in E'. subst s'. apply union_pairs_n in E. exact E.
Qed.
Lemma foldM_n {B} (f : fstate -> B -> outcome fstate) : (forall s b s', f s b = Ok s' -> uf_n (f_uf s') = uf_n (f_uf s)) ->
  forall l s s', foldM f l s = Ok s' -> uf_n (f_uf s') = uf_n (f_uf s).
Proof.
  intros H. induction l as [|b l IH]; intros s s' E; cbn [foldM] in E; [apply Ok_inj in E; congruence|].
  destruct (f s b) as [s1|] eqn:E1; cbn [bind] in E; [|discriminate]. apply H in E1. apply IH in E. congruence.
Qed.
Lemma group_fresh_n s t k s' : group_union_fresh s t k = Ok s' -> uf_n (f_uf s) <= uf_n (f_uf s').
Proof.
  unfold group_union_fresh. destruct (Nat.eqb k 0); [discriminate|]. cbn [fresh]. unfold group_union. destruct (Nat.eqb _ _); cbn [assert_ bind]; [|discriminate].
  intros E. apply foldM_n in E; [|intros s0 b s1; apply f_union_n]. cbn [f_uf fst new_tensor uf_n] in E. rewrite E. apply Nat.le_add_r.
Qed.
(** The tensors a node records hold new channels or channels of the tensors it was given. *)
Definition from (s : fstate) (ts : list (list nat)) (l : list nat) : Prop := forall e, In e l -> uf_n (f_uf s) <= e \/ exists t, In t ts /\ In e t.
Definition all_from (s : fstate) (ts : list (list nat)) (tr : trip) : Prop := from s ts (t_in tr) /\ from s ts (t_out tr) /\ from s ts (t_ret tr).
Lemma from_given s ts t : In t ts -> from s ts t. Proof. intros H e He. right. exists t. auto. Qed.
Lemma from_seq s ts n k : uf_n (f_uf s) <= n -> from s ts (seq n k). Proof. intros H e He. apply in_seq in He. left. lia. Qed.
Lemma cf_new s k io ts s' tr : channel_forward s k io ts = Ok (s', tr) -> all_from s ts tr.
Proof.
  assert (PU : forall s' tr, pass_union s io ts = Ok (s', tr) -> all_from s ts tr).
  { intros s1 tr1. unfold pass_union. destruct ts as [|t r]; cbn [hd_tensor bind]; [discriminate|]. destruct io; cbn [bind]; [|discriminate].
    destruct (Nat.eqb _ _); cbn [assert_ bind]; [|discriminate]. intros E. apply Ok_inj in E. injection E as _ <-.
    split; [|split]; apply from_given; left; reflexivity. }
  assert (MX : forall c s' tr, mix s c ts = Ok (s', tr) -> all_from s ts tr).
  { intros c s1 tr1. unfold mix. destruct ts as [|t [|? ?]]; try discriminate. cbn [fresh]. intros E. apply Ok_inj in E. injection E as _ <-.
    split; [apply from_given; left; reflexivity|]. split; apply from_seq; lia. }
  destruct k as [cin cout groups|cin cout|c|c groups| | | | |r|c|]; cbn [channel_forward].
  - destruct (conv_type_of cin cout groups); [apply MX|apply PU|]. destruct ts as [|t [|? ?]]; try discriminate.
    destruct (group_union_fresh s t groups) as [s1|] eqn:E1; cbn [bind fresh]; [|discriminate].
    match goal with |- context [group_union_fresh ?a ?b ?c] => destruct (group_union_fresh a b c) as [s3|] eqn:E3 end; cbn [bind]; [|discriminate].
    intros E. apply Ok_inj in E. injection E as _ <-. apply group_fresh_n in E1.
    split; [apply from_given; left; reflexivity|]. split; apply from_seq; exact E1.
  - apply MX.
  - apply PU.
  - destruct (pass_union s io ts) as [[s1 tr1]|] eqn:E1; cbn [bind]; [|discriminate]. pose proof (PU _ _ eq_refl) as E2. destruct (Nat.eqb groups 0); [discriminate|]. cbn [fresh].
    match goal with |- context [group_union ?a ?b ?c ?d] => destruct (group_union a b c d) as [s3|] end; cbn [bind]; [|discriminate].
    intros E. apply Ok_inj in E. injection E as _ <-. exact E2.
  - destruct ts as [|t [|? ?]]; try discriminate. cbn [fresh]. intros E. apply Ok_inj in E. injection E as _ <-.
    split; [apply (from_seq s _ (uf_n (f_uf s)) 1); lia|]. split; [apply (from_seq s _ (uf_n (f_uf s) + 1) 1); lia|apply from_given; left; reflexivity].
  - apply PU.
  - destruct ts as [|t r]; [discriminate|]. destruct (foldM _ r s) as [s1|]; cbn [bind]; [|discriminate]. intros E. apply Ok_inj in E. injection E as _ <-.
    split; [|split]; apply from_given; left; reflexivity.
  - intros E. apply Ok_inj in E. injection E as _ <-. assert (F : from s ts (concat ts)) by (intros e He; apply in_concat in He as (t & Ht & He); right; exists t; auto).
    split; [|split]; exact F.
  - destruct ts as [|t [|? ?]]; try discriminate. destruct io as [io|]; cbn [bind]; [|discriminate].
    destruct (Nat.leb _ _); cbn [assert_ bind]; [|discriminate]. destruct (Nat.eqb (fst io) 0); [discriminate|]. destruct (Nat.eqb _ _); cbn [assert_ bind]; [|discriminate].
    unfold f_expand, tensor_expand. cbn [new_tensor]. destruct (union_pairs _ _); cbn [bind fst snd]; [|discriminate]. intros E. apply Ok_inj in E. injection E as _ <-.
    split; [apply from_given; left; reflexivity|]. split; apply from_seq; lia.
  - cbn [fresh]. intros E. apply Ok_inj in E. injection E as _ <-. split; [|split]; apply from_seq; lia.
  - cbn [fresh]. match goal with |- context [foldM ?f ts ?s0] => destruct (foldM f ts s0) as [s2|] end; cbn [bind]; [|discriminate].
    intros E. apply Ok_inj in E. injection E as _ <-. split; [|split]; apply (from_seq s _ (uf_n (f_uf s)) 1); lia.
Qed.
Definition allD : chan -> chan -> Prop := fun _ _ => True.
Lemma allP s lab : Inv (f_uf s) -> P allD lab s. Proof. intros H. split; [exact H|]. intros a b _ _ _. apply rst_step. exact I. Qed.
Lemma cf_later s k io ts s' tr : Inv (f_uf s) -> (forall t, In t ts -> valid s t) -> channel_forward s k io ts = Ok (s', tr) ->
  Inv (f_uf s') /\ later s s' /\ tvalid s' tr.
Proof.
  intros HI V E. set (L := fun (i : nat) sd => length (tens tr sd)). set (nd := {| c_name := 0; c_kind := k; c_prev := []; c_mod := None |}).
  destruct (cf_spec allD L 0 nd (fun _ _ _ => I) (fun _ => (0, SIn, 0)) s ts s' tr io (allP s _ HI) V) as (lab' & [HI' _] & HL & _ & HT & _).
  - unfold in_ok, nd; cbn [c_kind]. destruct k; unfold labelled; intros; try exact I; apply rst_step; exact I.
  - exact E.
  - split; [|split]; reflexivity.
  - split; [exact HI'|]. split; [exact HL|]. split; [apply (HT SIn)|split; [apply (HT SOut)|apply (HT SRet)]].
Qed.

Definition tracked (s : fstate) (e : nat) : Prop :=
  exists i, i < length (f_nodes s) /\ (In e (t_in (trip_of s i)) \/ In e (t_out (trip_of s i)) \/ In e (t_ret (trip_of s i))).
Definition TV (s : fstate) : Prop := Inv (f_uf s) /\ forall i, i < length (f_nodes s) -> tvalid s (trip_of s i).
Definition onward (s s' : fstate) : Prop :=
  uf_n (f_uf s) <= uf_n (f_uf s') /\ (forall a b, eqv (f_uf s) a b -> eqv (f_uf s') a b) /\ forall x, x < uf_n (f_uf s) -> ~ tracked s x -> ~ tracked s' x.
Lemma onward_trans a b c : onward a b -> onward b c -> onward a c.
Proof. intros (A1 & A2 & A3) (B1 & B2 & B3). split; [lia|]. split; [auto|]. intros x Hx Hn. apply B3; [lia|auto]. Qed.
Lemma add_tracked s1 tr s x : f_nodes s1 = f_nodes s -> tracked (add_trip s1 tr) x -> tracked s x \/ In x (t_in tr) \/ In x (t_out tr) \/ In x (t_ret tr).
Proof.
  intros F (i & Hi & H). cbn in Hi. rewrite app_length in Hi. cbn in Hi. destruct (Nat.eq_dec i (length (f_nodes s1))) as [->|Hne].
  - rewrite trip_of_last in H. right. tauto.
  - rewrite trip_of_add in H by lia. rewrite (trip_of_nodes s s1 _ F) in H. left. exists i. split; [rewrite <- F; lia|exact H].
Qed.
Lemma TV_add s s1 tr : TV s -> Inv (f_uf s1) -> uf_n (f_uf s) <= uf_n (f_uf s1) -> f_nodes s1 = f_nodes s -> tvalid s1 tr -> TV (add_trip s1 tr).
Proof.
  intros [_ HT] HI HN F TR. split; [exact HI|]. intros i Hi. cbn in Hi. rewrite app_length in Hi. cbn in Hi. destruct (Nat.eq_dec i (length (f_nodes s1))) as [->|Hne].
  - rewrite trip_of_last. exact TR.
  - rewrite trip_of_add by lia. rewrite (trip_of_nodes s s1 _ F). rewrite F in Hi, Hne. destruct (HT i ltac:(lia)) as (V1 & V2 & V3).
    split; [|split]; intros e He; [specialize (V1 e He)|specialize (V2 e He)|specialize (V3 e He)]; cbn; lia.
Qed.
Lemma node_onward numin tab s nd s' : TV s -> forward_node numin tab s nd = Ok s' -> TV s' /\ onward s s'.
Proof.
  intros HT E. unfold forward_node in E.
  assert (G : forall s0 ts s1 tr, Inv (f_uf s0) -> uf_n (f_uf s) <= uf_n (f_uf s0) -> (forall a b, eqv (f_uf s) a b -> eqv (f_uf s0) a b) -> f_nodes s0 = f_nodes s ->
     (forall t, In t ts -> valid s0 t) -> (forall t e, In t ts -> In e t -> uf_n (f_uf s) <= e \/ tracked s e) ->
     channel_forward s0 (c_kind nd) (channels_of tab nd) ts = Ok (s1, tr) -> TV (add_trip s1 tr) /\ onward s (add_trip s1 tr)).
  { intros s0 ts s1 tr I0 N0 M0 F0 V0 K0 E1. destruct (cf_later _ _ _ _ _ _ I0 V0 E1) as (I1 & (N1 & F1 & M1) & T1). pose proof (cf_new _ _ _ _ _ _ E1) as (A1 & A2 & A3).
    assert (F : f_nodes s1 = f_nodes s) by congruence. split; [apply (TV_add s); [exact HT|exact I1|lia|exact F|exact T1]|].
    split; [cbn; lia|]. split; [cbn; auto|]. intros x Hx Hn Hr. apply (add_tracked s1 tr s x F) in Hr as [Hr|Hr]; [contradiction|].
    assert (HA : uf_n (f_uf s0) <= x \/ exists t, In t ts /\ In x t) by (destruct Hr as [Hr|[Hr|Hr]]; auto).
    destruct HA as [HA|(t & Ht & He)]; [lia|]. destruct (K0 t x Ht He) as [H|H]; [lia|contradiction]. }
  destruct (c_prev nd) as [|p ps].
  - destruct (fresh s numin) as [s0 t] eqn:Ef. destruct (channel_forward s0 _ _ [t]) as [[s1 tr]|] eqn:E1; [|discriminate]. apply Ok_inj in E. subst s'.
    destruct HT as [HI HT']. destruct (fresh_fine s numin HI) as ((I0 & (N0 & _) & F0) & V0 & _). pose proof Ef as Ef'. rewrite Ef' in I0, N0, F0, V0. cbn [fst snd] in *.
    eapply (G s0 [t]); [exact I0|exact N0| |exact F0|intros t' [<-|[]]; exact V0| |exact E1].
    + intros a b H. destruct (fresh_spec allD (fun _ => (0, SIn, 0)) s numin (fun _ => (0, SIn, 0)) (allP s _ HI)) as (_ & (_ & _ & M0) & _). rewrite Ef' in M0. apply M0. exact H.
    + intros t' e [<-|[]] He. injection Ef as _ <-. apply in_seq in He. left. lia.
  - destruct (mapM (ret_of s) (p :: ps)) as [ts|] eqn:Em; cbn [bind] in E; [|discriminate]. destruct (channel_forward s _ _ ts) as [[s1 tr]|] eqn:E1; [|discriminate]. apply Ok_inj in E. subst s'.
    pose proof (rets_spec s _ _ Em) as HR.
    assert (HQ : forall t, In t ts -> exists q, q < length (f_nodes s) /\ t = t_ret (trip_of s q)) by (intros t Ht; destruct (Forall2_In_r _ _ _ _ HR Ht) as (q & _ & Hq & ->); eauto).
    eapply (G s ts); [apply HT|lia|auto|reflexivity| | |exact E1].
    + intros t Ht. destruct (HQ t Ht) as (q & Hq & ->). apply (proj2 HT q Hq).
    + intros t e Ht He. destruct (HQ t Ht) as (q & Hq & ->). right. exists q. auto.
Qed.
Lemma nodes_onward numin tab : forall l s s', TV s -> foldM (forward_node numin tab) l s = Ok s' -> TV s' /\ onward s s'.
Proof.
  induction l as [|nd l IH]; intros s s' HT E; cbn [foldM] in E; [apply Ok_inj in E; subst; split; [exact HT|]; split; [lia|]; split; auto|].
  destruct (forward_node numin tab s nd) as [s1|] eqn:E1; cbn [bind] in E; [|discriminate]. destruct (node_onward _ _ _ _ _ HT E1) as [T1 O1].
  destruct (IH s1 s' T1 E) as [T2 O2]. split; [exact T2|eapply onward_trans; eauto].
Qed.
Lemma union_onward s a b s' : TV s -> valid s a -> valid s b -> f_union s a b = Ok s' -> TV s' /\ onward s s' /\ f_nodes s' = f_nodes s.
Proof.
  intros [HI HT] Va Vb E. destruct (union_spec allD (fun _ => (0, SIn, 0)) s a b s' (allP s _ HI) Va Vb) as ([HI' _] & (N & F & M) & _); [intros; apply rst_step; exact I|exact E|].
  split; [|split; [|exact F]].
  - split; [exact HI'|]. intros i Hi. rewrite F in Hi. rewrite (trip_of_nodes s s' _ F). destruct (HT i Hi) as (V1 & V2 & V3).
    split; [|split]; intros e He; [specialize (V1 e He)|specialize (V2 e He)|specialize (V3 e He)]; lia.
  - split; [exact N|]. split; [exact M|]. intros x Hx Hn (i & Hi & H). apply Hn. exists i. rewrite F in Hi. rewrite (trip_of_nodes s s' _ F) in H. auto.
Qed.
Lemma merge_onward g s s' : TV s -> length (f_nodes s) = length g -> merge_same_module g s = Ok s' -> TV s' /\ onward s s' /\ f_nodes s' = f_nodes s.
Proof.
  intros HT HL E. unfold merge_same_module in E.
  assert (R : forall s, TV s -> TV s /\ onward s s /\ f_nodes s = f_nodes s) by (intros s0 H0; split; [exact H0|]; split; [|reflexivity]; split; [lia|split; auto]).
  assert (FM : forall B (f : fstate -> B -> outcome fstate) (ok : B -> Prop),
    (forall s b s', TV s -> length (f_nodes s) = length g -> ok b -> f s b = Ok s' -> TV s' /\ onward s s' /\ f_nodes s' = f_nodes s) ->
    forall l s s', TV s -> length (f_nodes s) = length g -> (forall b, In b l -> ok b) -> foldM f l s = Ok s' -> TV s' /\ onward s s' /\ f_nodes s' = f_nodes s).
  { intros B f ok H. induction l as [|b l IH]; intros s0 s2 T0 L0 Hok E0; cbn [foldM] in E0; [apply Ok_inj in E0; subst; apply R; exact T0|].
    destruct (f s0 b) as [s1|] eqn:E1; cbn [bind] in E0; [|discriminate]. destruct (H _ _ _ T0 L0 (Hok b (or_introl eq_refl)) E1) as (T1 & O1 & F1).
    destruct (IH s1 s2 T1 (eq_trans (f_equal _ F1) L0) (fun b Hb => Hok b (or_intror Hb)) E0) as (T2 & O2 & F2).
    split; [exact T2|]. split; [eapply onward_trans; eauto|congruence]. }
  refine (FM nat (merge_module g) (fun _ => True) _ _ s s' HT HL (fun _ _ => I) E). clear -R FM. intros s m s' HT HL _ E.
  unfold merge_module in E. destruct (nodes_of g m) as [|i r] eqn:En; [apply Ok_inj in E; subst; apply R; exact HT|].
  assert (Hin : forall j, In j (i :: r) -> j < length g) by (intros j Hj; rewrite <- En in Hj; unfold nodes_of in Hj; apply filter_In in Hj as [H1 _]; apply in_seq in H1; lia).
  refine (FM nat (fun s j => merge_two s i j) (fun j => j < length g) _ r s s' HT HL (fun j Hj => Hin j (or_intror Hj)) E).
  specialize (Hin i (or_introl eq_refl)). clear -Hin. intros s j s' HT HL Hj E. unfold merge_two in E. destruct (f_union s _ _) as [s1|] eqn:E1; cbn [bind] in E; [|discriminate].
  destruct (proj2 HT i ltac:(lia)) as (A1 & A2 & _). destruct (proj2 HT j ltac:(lia)) as (B1 & B2 & _).
  destruct (union_onward _ _ _ _ HT A1 B1 E1) as (T1 & O1 & F1). destruct O1 as (N1 & M1 & K1).
  destruct (union_onward s1 (t_out (trip_of s i)) (t_out (trip_of s j)) s' T1) as (T2 & O2 & F2); [intros e He; specialize (A2 e He); lia|intros e He; specialize (B2 e He); lia|exact E|].
  split; [exact T2|]. split; [eapply onward_trans; [split; [exact N1|split; [exact M1|exact K1]]|exact O2]|congruence].
Qed.
(** The end node itself. *)
Lemma end_hidden numin tab s nd s' p ps : TV s -> c_kind nd = KEnd -> c_prev nd = p :: ps -> t_ret (trip_of s p) <> [] -> forward_node numin tab s nd = Ok s' ->
  exists a x, t_in (trip_of s' (length (f_nodes s))) = [a] /\ length (f_nodes s') = S (length (f_nodes s)) /\ x < uf_n (f_uf s') /\ eqv (f_uf s') a x /\ ~ tracked s' x.
Proof.
  intros [HI HT] Ek Ep Hne E. unfold forward_node in E. rewrite Ep, Ek in E. destruct (mapM (ret_of s) (p :: ps)) as [ts|] eqn:Em; cbn [bind] in E; [|discriminate].
  pose proof (rets_spec s _ _ Em) as HR. destruct ts as [|t r]; [inversion HR|]. assert (Hp : p < length (f_nodes s) /\ t = t_ret (trip_of s p)) by (inversion HR; assumption).
  assert (Vts : forall t', In t' (t :: r) -> valid s t') by (intros t' Ht; destruct (Forall2_In_r _ _ _ _ HR Ht) as (q & _ & Hq & ->); apply (HT q Hq)).
  cbn [channel_forward fresh] in E. set (n := uf_n (f_uf s)) in *.
  set (s0 := {| f_uf := fst (new_tensor (f_uf s) 1); f_base := f_base s ++ repeat n 1; f_nodes := f_nodes s |}) in *. cbn [new_tensor snd seq] in E. fold n in E.
  assert (I0 : Inv (f_uf s0)) by apply (inv_new (f_uf s) 1 HI). assert (N0 : uf_n (f_uf s0) = S n) by (cbn; fold n; lia).
  assert (V0 : valid s0 [n]) by (intros e [<-|[]]; lia).
  assert (Vt0 : forall t', In t' (t :: r) -> valid s0 t') by (intros t' Ht' e He; specialize (Vts t' Ht' e He); fold n in Vts; lia).
  destruct (foldM _ (t :: r) s0) as [s2|] eqn:E2; cbn [bind] in E; [|discriminate]. apply Ok_inj in E. subst s'.
  assert (F2 : f_nodes s2 = f_nodes s).
  { change (f_nodes s) with (f_nodes s0). revert E2. apply foldM_nodes. intros sa tt sb Es. destruct (f_expand sa _ _) as [[sc o]|] eqn:Ex; cbn [bind fst snd] in Es; [|discriminate].
    apply union_nodes in Es. apply expand_nodes in Ex. congruence. }
  cbn [foldM] in E2. destruct (f_expand s0 [n] (length t)) as [[s1 o]|] eqn:E1; cbn [bind fst snd] in E2; [|discriminate].
  set (lab := fun _ : nat => ((0, SIn, 0) : chan)).
  assert (Eo : o = seq (S n) (length t * 1)). { unfold f_expand, tensor_expand in E1. cbn [new_tensor] in E1. destruct (union_pairs _ _); cbn [bind fst snd] in E1; [|discriminate]. apply Ok_inj in E1. injection E1 as _ <-. rewrite <- N0. reflexivity. }
  destruct (expand_spec allD lab s0 [n] (length t) s1 o (fun _ => (0, SIn, 0)) (allP s0 lab I0) V0) as (P1 & (N1 & _ & M1) & _ & V1 & L1 & _ & H1); [intros; apply rst_step; exact I|exact E1|].
  destruct t as [|t0 t]; [destruct Hp as [_ Hp]; congruence|].
  assert (X1 : eqv (f_uf s1) n (S n)). { apply (H1 0 0 n (S n)); [reflexivity|cbn; lia|]. rewrite Eo. reflexivity. }
  destruct (f_union s1 (t0 :: t) o) as [s1'|] eqn:E3; cbn [bind] in E2; [|discriminate].
  destruct (union_spec allD _ s1 (t0 :: t) o s1' P1) as (P3 & (N3 & _ & M3) & _); [intros e He; specialize (Vt0 _ (or_introl eq_refl) e He); lia|exact V1|intros; apply rst_step; exact I|exact E3|].
  destruct (step_end allD 0 r lab s1' s2 n (allP s1' _ (proj1 P3))) as (lab4 & P4 & (N4 & _ & M4) & _).
  - intros e He. specialize (V0 e He). lia.
  - intros t' Ht' e He. specialize (Vt0 t' (or_intror Ht') e He). lia.
  - reflexivity.
  - intros. apply rst_step. exact I.
  - exact E2.
  - assert (B1 : S n < uf_n (f_uf s1)) by (apply V1; rewrite Eo; left; reflexivity).
    exists n, (S n). rewrite <- F2, trip_of_last. split; [reflexivity|]. split; [cbn; rewrite app_length; cbn; lia|]. split; [cbn; lia|]. split; [cbn; auto|].
    intros Hr. apply (add_tracked s2 _ s (S n) F2) in Hr as [(i & Hi & H)|H].
    + destruct (HT i Hi) as (W1 & W2 & W3). fold n in W1, W2, W3. destruct H as [H|[H|H]]; [specialize (W1 _ H)|specialize (W2 _ H)|specialize (W3 _ H)]; fold n in W1, W2, W3; lia.
    + cbn in H. lia.
Qed.

Lemma end_class g W numin s : well_formed g -> counts g W -> forward g numin = Ok s -> (exists nd, In nd g /\ c_kind nd = KEnd) ->
  exists q a x, q < length g /\ t_in (trip_of s q) = [a] /\ eqv (f_uf s) a x /\ ~ recorded s x.
Proof.
  intros wf HW HF (nd & Hin & Hk). apply in_split in Hin as (g1 & g2 & Eg). unfold forward, forward_nodes in HF.
  destruct (foldM _ g f_init) as [sf|] eqn:E0; cbn [bind] in HF; [|discriminate].
  assert (T0 : TV f_init) by (split; [exact inv_empty|cbn; lia]).
  destruct (nodes_onward _ _ _ _ _ T0 E0) as [Tf _]. destruct (forward_nodes_prefix _ _ _ _ _ E0) as (rf & Rf & Lf). cbn in Rf.
  assert (LF : length (f_nodes sf) = length g) by (rewrite Rf; exact Lf).
  destruct (merge_onward g sf s Tf LF HF) as (Ts & Os & Fs).
  destruct (nodes_ok g W wf HW numin g1 f_init) as (s1 & E1 & G1 & L1 & _).
  { split; [exact inv_empty|cbn; lia]. }
  { intros k nd' Hk'. cbn [f_init f_nodes length Nat.add]. rewrite Eg, nth_error_app1; [exact Hk'|]. apply nth_error_Some. congruence. }
  destruct (nodes_onward _ _ _ _ _ T0 E1) as [T1 _]. cbn in L1.
  assert (Eq : nth_error g (length g1) = Some nd) by (rewrite Eg, nth_error_app2, Nat.sub_diag by lia; reflexivity).
  assert (E2 : foldM (forward_node numin (channel_table g)) (nd :: g2) s1 = Ok sf).
  { rewrite Eg in E0 at 2. revert E0 E1. generalize (f_init). generalize (channel_table g). clear. induction g1 as [|x g1 IH]; intros tab s0 E0 E1; cbn [foldM app] in *.
    - apply Ok_inj in E1. subst. exact E0.
    - destruct (forward_node numin tab s0 x); cbn [bind] in *; [eauto|discriminate]. }
  cbn [foldM] in E2. destruct (forward_node numin (channel_table g) s1 nd) as [s2|] eqn:E3; cbn [bind] in E2; [|discriminate].
  destruct (node_onward _ _ _ _ _ T1 E3) as [T2 _].
  pose proof (wf_arity g wf nd (nth_error_In _ _ Eq)) as HA. unfold arity_ok in HA. rewrite Hk in HA. destruct (c_prev nd) as [|p ps] eqn:Ep; [congruence|].
  assert (Hp : p < length g1) by (apply (wf_topo g wf (length g1) nd p Eq); rewrite Ep; left; reflexivity).
  assert (Hr : t_ret (trip_of s1 p) <> []).
  { destruct (nth_error g p) as [np|] eqn:Enp; [|apply nth_error_None in Enp; rewrite Eg, app_length in Enp; lia].
    destruct G1 as [_ G1]. destruct (G1 p np) as [_ HL]; [lia|exact Enp|]. destruct (counts_pos g W wf HW p) as [P1 P2]; [rewrite Eg, app_length; lia|].
    pose proof (wf_end g wf (length g1) nd p np Eq) as NE. rewrite Ep in NE. specialize (NE (or_introl eq_refl) Enp).
    unfold tlen in HL. intros E4. rewrite E4 in HL. cbn in HL. destruct (c_kind np); try congruence; lia. }
  destruct (end_hidden _ _ _ _ _ p ps T1 Hk Ep Hr E3) as (a & x & Ha & LN & Hx & Hax & Hnt).
  destruct (nodes_onward _ _ _ _ _ T2 E2) as [_ (N3 & M3 & K3)]. destruct Os as (N4 & M4 & K4).
  destruct (forward_nodes_prefix _ _ _ _ _ E2) as (r2 & R2 & _).
  exists (length g1), a, x. split; [rewrite Eg, app_length; cbn; lia|]. split.
  { rewrite (trip_of_nodes sf s _ Fs). unfold trip_of. rewrite R2, app_nth1 by lia. rewrite L1 in Ha. exact Ha. }
  split; [auto|]. assert (Hnt' : ~ tracked s x) by (apply K4; [lia|]; apply K3; [exact Hx|exact Hnt]).
  intros (i & Hi & H). apply Hnt'. exists i. split; [exact Hi|tauto].
Qed.

Lemma combine_same {A B} (l : list A) (l' : list B) : length l = length l' -> forall x y, In (x, y) (combine l l') -> exists i, i < length l' /\ nth_error l' i = Some y.
Proof.
  revert l'. induction l as [|a l IH]; intros [|b l'] E x y H; cbn in *; try discriminate; try contradiction. destruct H as [H|H].
  - injection H as <- <-. exists 0. split; [lia|reflexivity].
  - destruct (IH l' ltac:(lia) x y H) as (i & Hi & E'). exists (S i). split; [lia|exact E'].
Qed.
Lemma combine_back {A B} (l : list A) (l' : list B) : length l = length l' -> forall i y, nth_error l' i = Some y -> exists x, In (x, y) (combine l l').
Proof.
  revert l'. induction l as [|a l IH]; intros [|b l'] E i y H; cbn in *; try discriminate; [destruct i; discriminate|]. destruct i as [|i]; cbn in H.
  - injection H as <-. exists a. auto.
  - destruct (IH l' ltac:(lia) i y H) as (x & Hx). exists x. auto.
Qed.
Lemma both_all g W numin s (names : list nat) : well_formed g -> counts g W -> forward g numin = Ok s -> length names = length g ->
  Inv (f_uf s) /\ BI s /\ length (f_nodes s) = length g /\ forall nm tr, In (nm, tr) (combine names (f_nodes s)) -> both_ok s tr.
Proof.
  intros wf HW HF Hlen. destruct (forward_good g W numin wf HW) as (s0 & E0 & [HI HT] & HB & HN). rewrite E0 in HF. apply Ok_inj in HF. subst s0.
  split; [exact HI|]. split; [exact HB|]. split; [exact HN|]. intros nm tr Hin. apply combine_same in Hin as (i & Hi & Ei); [|congruence].
  assert (Et : tr = trip_of s i) by (unfold trip_of; rewrite (nth_error_nth _ _ _ Ei); reflexivity). subst tr.
  destruct (nth_error g i) as [nd|] eqn:E; [|apply nth_error_None in E; lia]. destruct (HT i nd Hi E) as [(V1 & V2 & _) HL].
  destruct (counts_pos g W wf HW i) as [P1 P2]; [lia|].
  assert (0 < length (t_in (trip_of s i)) /\ 0 < length (t_out (trip_of s i))) by (unfold tlen in HL; destruct (c_kind nd); lia).
  split; [|split; [|split; assumption]]; intros E2; rewrite E2 in H; cbn in H; lia.
Qed.
Lemma first_call hash g W numin names s st units : well_formed g -> counts g W -> length names = length g -> forward g numin = Ok s -> few_channels g W s ->
  generate_units_config hash names s (g_start s) = Ok (st, units) ->
  GI hash s st /\ (forall e, recorded s e -> g_hash st e <> None).
Proof.
  intros wf HW Hlen HF [small _] E. destruct (both_all g W numin s names wf HW HF Hlen) as (HI & HB & HN & Hboth).
  unfold generate_units_config in E. destruct (foldM _ _ _) as [[st' d]|] eqn:Ef; cbn [bind fst snd] in E; [|discriminate]. apply Ok_inj in E. injection E as <- _.
  assert (DE : dict_ok []) by (split; [constructor|intros h u []]).
  destruct (nodes_set hash s HI HB small _ _ _ _ _ (reset_start hash s HI) DE Hboth Ef) as [G H].
  split; [exact G|]. intros e (i & Hi & He). destruct (combine_back names (f_nodes s) ltac:(congruence) i (trip_of s i)) as (nm & Hin); [apply nth_error_nth'; exact Hi|].
  eapply H; eauto.
Qed.

(** On every graph with an end node the second call raises: the tensors an end node makes for
    its inputs are recorded by no node, so their hashes survive the reset. *)
Theorem C101_second_call_raises :
  forall hash g W numin names s st units,
    well_formed g -> counts g W -> length names = length g -> forward g numin = Ok s -> few_channels g W s ->
    (exists nd, In nd g /\ c_kind nd = KEnd) ->
    generate_units_config hash names s (g_start s) = Ok (st, units) ->
    generate_units_config hash names s st = Raise AssertionError.
Proof.
  intros hash g W numin names s st units wf HW Hlen HF Hf He E.
  destruct (end_class g W numin s wf HW HF He) as (q & a & x & Hq & Ha & Hax & Hx).
  destruct (both_all g W numin s names wf HW HF Hlen) as (HI & HB & HN & Hboth).
  destruct (first_call hash g W numin names s st units wf HW Hlen HF Hf E) as [(GI1 & GN & GE & GH & _) HS].
  assert (Hra : recorded s a) by (exists q; split; [lia|left; rewrite Ha; left; reflexivity]).
  unfold generate_units_config. rewrite (nodes_J hash (f_base s) (f_uf s) HI a x Hax _ _ []).
  - reflexivity.
  - destruct (reset_spec (f_nodes s) st a) as (Eu & _). unfold J. rewrite Eu. split; [exact GI1|]. split; [exact GN|]. split; [exact GE|]. split; [apply (proj1 (reset_recorded s st a) Hra)|].
    rewrite (proj1 (proj2 (reset_recorded s st x) Hx)). destruct (g_hash st a) as [h|] eqn:Eh; [|exfalso; exact (HS a Hra Eh)].
    destruct (GH a h Eh) as (_ & _ & H). rewrite (H x Hax). discriminate.
  - intros nm tr Hin. apply Hboth in Hin as (B1 & B2 & B3 & B4). split; [exact B1|]. split; [exact B2|]. split; [exact B3|exact B4].
  - destruct (combine_back names (f_nodes s) ltac:(congruence) q (trip_of s q)) as (nm & Hin); [apply nth_error_nth'; lia|].
    exists nm, (trip_of s q). split; [exact Hin|]. rewrite Ha. left. reflexivity.
Qed.
Print Assumptions C101_second_call_raises.

Lemma ex_groups_few s : forward ex_groups 3 = Ok s -> few_channels ex_groups ex_groups_W s.
Proof.
  intros E. assert (H : (do f <- forward ex_groups 3; Ok (uf_n (f_uf f))) = Ok 19) by (vm_compute; reflexivity). rewrite E in H. cbn [bind] in H. apply Ok_inj in H.
  split; [rewrite H; cbn; lia|]. intros i Hi. cbn in Hi. assert (C : i = 0 \/ i = 1 \/ i = 2 \/ i = 3) by lia. destruct C as [->|[->|[->| ->]]]; cbn; lia.
Qed.
Theorem C101_again_refuted : ~ C101_claim.
Proof.
  intros H. destruct (forward_good ex_groups ex_groups_W 3 ex_groups_wf ex_groups_counts) as (s & E & _). pose proof (ex_groups_few s E) as F.
  assert (HU : exists st units, generate_units_config ihash [0; 1; 2; 3] s (g_start s) = Ok (st, units)).
  { destruct (C100_units ihash ex_groups ex_groups_W 3 [0; 1; 2; 3] s ex_groups_wf ex_groups_counts eq_refl E (proj1 F) (proj2 F)) as (st & units & _ & Eu & _). eauto. }
  destruct HU as (st & units & Eu).
  destruct (H ihash ex_groups ex_groups_W 3 [0; 1; 2; 3] s st units ex_groups_wf ex_groups_counts eq_refl E F Eu) as (st' & E2).
  rewrite (C101_second_call_raises ihash ex_groups ex_groups_W 3 [0; 1; 2; 3] s st units ex_groups_wf ex_groups_counts eq_refl E F) in E2; [discriminate| |exact Eu].
  exists (nd_ KEnd [2] None 3). split; [cbn; auto|reflexivity].
Qed.
Print Assumptions C101_again_refuted.

(** *** When the reset reaches every tied channel *)
Section Again.
Variable hash : list nat -> Z.
Variable s : fstate.
Hypothesis HI : Inv (f_uf s).
Hypothesis HB : BI s.
Lemma min_unique e m m' : e < uf_n (f_uf s) -> is_min s e m -> is_min s e m' -> (Z.of_nat (uf_n (f_uf s)) <= 2 ^ 32)%Z -> m = m'.
Proof.
  intros He M M' small. pose proof (min_least hash s HI HB small e m He M) as (L1 & x & Hx & ->). pose proof (min_least hash s HI HB small e m' He M') as (L2 & y & Hy & ->).
  specialize (L1 y Hy). specialize (L2 x Hx). lia.
Qed.
Hypothesis small : (Z.of_nat (uf_n (f_uf s)) <= 2 ^ 32)%Z.
Lemma keyed_same : forall t hs hs', valid s t -> Forall2 (keyed hash s) t hs -> Forall2 (keyed hash s) t hs' -> hs = hs'.
Proof.
  induction t as [|e t IH]; intros hs hs' V H1 H2; inversion H1 as [|? [h m] ? r [K1 M1] R1]; inversion H2 as [|? [h' m'] ? r' [K2 M2] R2]; subst; [reflexivity|]. cbn [fst snd] in *.
  assert (He : e < uf_n (f_uf s)) by (apply V; left; reflexivity).
  f_equal; [|apply IH; auto; intros z Hz; apply V; right; exact Hz].
  assert (h = h') by (apply (key_unique hash s HI e e); [exact He|exact (proj1 (eqv_equiv _ HI) e)|exact K1|exact K2]).
  assert (m = m') by (apply (min_unique e); auto). congruence.
Qed.
Lemma tensor_det nm io t st1 st2 d st1' d' : GI hash s st1 -> GI hash s st2 -> valid s t -> process_tensor hash (f_base s) nm io t (st1, d) = Ok (st1', d') ->
  exists st2', process_tensor hash (f_base s) nm io t (st2, d) = Ok (st2', d') /\ GI hash s st1' /\ GI hash s st2'.
Proof.
  intros G1 G2 V. unfold process_tensor, hash_ranges. cbn [fst snd].
  destruct (index_step hash s HI HB t st1 G1 V) as (a & hs & E1 & GA & K1). destruct (index_step hash s HI HB t st2 G2 V) as (b & hs' & E2 & GB & K2).
  rewrite <- (keyed_same t hs hs' V K1 K2) in E2. rewrite E1, E2. cbn [bind fst snd]. destruct (elems_hash_ranges hs); cbn [bind fst snd]; [|discriminate].
  intros E. apply Ok_inj in E. injection E as <- <-. eauto.
Qed.
Lemma nodes_det : forall nts st1 st2 d st1' d', GI hash s st1 -> GI hash s st2 -> (forall nm tr, In (nm, tr) nts -> both_ok s tr) ->
  foldM (process_node hash (f_base s)) nts (st1, d) = Ok (st1', d') -> exists st2', foldM (process_node hash (f_base s)) nts (st2, d) = Ok (st2', d').
Proof.
  induction nts as [|[nm tr] nts IH]; intros st1 st2 d st1' d' G1 G2 Hn; cbn [foldM]; [intros E; apply Ok_inj in E; injection E as _ <-; eauto|].
  unfold process_node at 1 3. cbn [fst snd]. destruct (Hn nm tr (or_introl eq_refl)) as (_ & _ & V1 & V2).
  destruct (process_tensor hash (f_base s) nm true (t_out tr) (st1, d)) as [[a d1]|] eqn:E1; cbn [bind]; [|discriminate].
  destruct (tensor_det _ _ _ _ st2 _ _ _ G1 G2 V2 E1) as (b & E1' & GA & GB). rewrite E1'. cbn [bind].
  destruct (process_tensor hash (f_base s) nm false (t_in tr) (a, d1)) as [[a' d2]|] eqn:E2; cbn [bind]; [|discriminate].
  destruct (tensor_det _ _ _ _ b _ _ _ GA GB V1 E2) as (b' & E2' & GA' & GB'). rewrite E2'. cbn [bind].
  intros E. eapply IH; [exact GA'|exact GB'| |exact E]. intros n' t' H'. apply (Hn n' t'). right. exact H'.
Qed.
End Again.

(** If every channel tied to a recorded one is recorded, the second call gives the same units. *)
Theorem C101_again_partial :
  forall hash g W numin names s st units,
    well_formed g -> counts g W -> length names = length g -> forward g numin = Ok s -> few_channels g W s ->
    (forall e e', recorded s e -> grouped (f_uf s) e e' -> recorded s e') ->
    generate_units_config hash names s (g_start s) = Ok (st, units) ->
    exists st', generate_units_config hash names s st = Ok (st', units).
Proof.
  intros hash g W numin names s st units wf HW Hlen HF Hf Hcl E.
  destruct (both_all g W numin s names wf HW HF Hlen) as (HI & HB & HN & Hboth).
  destruct (first_call hash g W numin names s st units wf HW Hlen HF Hf E) as [(GI1 & GN & GE & GH & GM) _].
  assert (Hdec : forall e, recorded s e \/ ~ recorded s e).
  { intros e. rewrite <- recorded_b. destruct (existsb _ _); [left; reflexivity|right; discriminate]. }
  assert (Hcl' : forall e x, e < uf_n (f_uf s) -> ~ recorded s e -> eqv (f_uf s) e x -> ~ recorded s x).
  { intros e x He Hn Hex Hr. apply Hn. apply (Hcl x e Hr). assert (Hx : x < uf_n (f_uf s)) by (destruct Hr as (i & Hi & Hr);
      destruct (nth_error names i) as [nm|] eqn:En; [|apply nth_error_None in En; lia];
      destruct (combine_back names (f_nodes s) ltac:(congruence) i (trip_of s i)) as (nm' & Hin); [apply nth_error_nth'; exact Hi|];
      apply Hboth in Hin as (_ & _ & V1 & V2); destruct Hr as [Hr|Hr]; [apply V1|apply V2]; exact Hr).
    apply (grouped_eqv _ _ _ HI Hx). apply (proj1 (proj2 (eqv_equiv _ HI))). exact Hex. }
  assert (G2 : GI hash s (reset_cache (f_nodes s) st)).
  { destruct (reset_spec (f_nodes s) st 0) as (Eu & _). unfold GI. rewrite Eu. split; [exact GI1|]. split; [exact GN|]. split; [exact GE|]. split.
    - intros e h Eh. destruct (Hdec e) as [Hr|Hr]; [rewrite (proj1 (proj1 (reset_recorded s st e) Hr)) in Eh; discriminate|].
      rewrite (proj1 (proj2 (reset_recorded s st e) Hr)) in Eh. destruct (GH e h Eh) as (A & B & C). split; [exact A|]. split; [exact B|].
      intros x Hx. rewrite (proj1 (proj2 (reset_recorded s st x) (Hcl' e x A Hr Hx))). apply C. exact Hx.
    - intros e h Eh. destruct (Hdec e) as [Hr|Hr]; [rewrite (proj2 (proj1 (reset_recorded s st e) Hr)) in Eh; discriminate|].
      rewrite (proj2 (proj2 (reset_recorded s st e) Hr)) in Eh. destruct (GM e h Eh) as (A & B & C). split; [exact A|]. split; [exact B|].
      intros x Hx. rewrite (proj2 (proj2 (reset_recorded s st x) (Hcl' e x A Hr Hx))). apply C. exact Hx. }
  unfold generate_units_config in *. destruct (foldM _ _ _) as [[st1 d]|] eqn:Ef in E; cbn [bind fst snd] in E; [|discriminate]. apply Ok_inj in E. injection E as <- <-.
  destruct (nodes_det hash s HI HB (proj1 Hf) _ _ _ _ _ _ (reset_start hash s HI) G2 Hboth Ef) as (st2 & E2). rewrite E2. cbn [bind fst snd]. eauto.
Qed.
Print Assumptions C101_again_partial.

(** A convolution followed by a batch norm and a convolution, without an end node. *)
Definition ex_open : list cnode :=
  [nd_ (KInput 3) [] None 0; nd_ (KConv 3 4 1) [0] (Some 1) 1; nd_ (KBn 4) [1] (Some 2) 2; nd_ (KConv 4 2 1) [2] (Some 3) 3].
Definition ex_open_W (i : nat) : nat * nat := nth i [(3, 3); (3, 4); (4, 4); (4, 2)] (0, 0).
Lemma ex_open_wf : well_formed ex_open.
Proof.
  split.
  - intros i nd p H. each H; cbn; lia.
  - intros i nd p q H. each H; cbn; intros H; repeat (destruct H as [<-|H]; [intros [= <-]; discriminate|]); destruct H.
  - intros nd H. repeat (destruct H as [<-|H]; [cbn; eauto; try discriminate|]). destruct H.
  - intros nd H. repeat (destruct H as [<-|H]; [cbn; repeat split; try lia|]); [..|destruct H].
    + exists 3. reflexivity.
    + exists 4. reflexivity.
    + exists 4. reflexivity.
    + exists 2. reflexivity.
  - intros i j a b m H1 H2. each H1; each H2; cbn; intros E1 E2; try discriminate; try congruence; split; try reflexivity; exact I.
Qed.
Lemma ex_open_counts : counts ex_open ex_open_W.
Proof. intros i nd H. each H; cbn; try (split; [reflexivity|]); try reflexivity; try (intros p [<-|[]]; reflexivity). Qed.
Example C101_case :
  exists s st units st', forward ex_open 3 = Ok s /\ (forall e e', recorded s e -> grouped (f_uf s) e e' -> recorded s e') /\
    generate_units_config ihash [0; 1; 2; 3] s (g_start s) = Ok (st, units) /\ length units = 3 /\
    generate_units_config ihash [0; 1; 2; 3] s st = Ok (st', units).
Proof.
  destruct (forward_good ex_open ex_open_W 3 ex_open_wf ex_open_counts) as (s & E & [HI HT] & _ & HN).
  assert (HS : (do f <- forward ex_open 3; Ok (uf_n (f_uf f), f_nodes f)) = Ok (12,
     [{| t_in := [3; 4; 5]; t_out := [3; 4; 5]; t_ret := [3; 4; 5] |}; {| t_in := [3; 4; 5]; t_out := [6; 7; 8; 9]; t_ret := [6; 7; 8; 9] |};
      {| t_in := [6; 7; 8; 9]; t_out := [6; 7; 8; 9]; t_ret := [6; 7; 8; 9] |}; {| t_in := [6; 7; 8; 9]; t_out := [10; 11]; t_ret := [10; 11] |}])) by (vm_compute; reflexivity).
  assert (HG : (do f <- forward ex_open 3; Ok (map (uf_parent (f_uf f)) (seq 0 12))) = Ok (repeat None 12)) by (vm_compute; reflexivity).
  assert (HU : (do f <- forward ex_open 3; do r <- generate_units_config ihash [0; 1; 2; 3] f (g_start f); Ok (length (snd r))) = Ok 3) by (vm_compute; reflexivity).
  rewrite E in HS, HG, HU. cbn [bind] in HS, HG, HU. apply Ok_inj in HS. injection HS as H12 HS. apply Ok_inj in HG.
  assert (F : few_channels ex_open ex_open_W s).
  { split; [rewrite H12; cbn; lia|]. intros i Hi. cbn in Hi. assert (C : i = 0 \/ i = 1 \/ i = 2 \/ i = 3) by lia. destruct C as [->|[->|[->| ->]]]; cbn; lia. }
  assert (HC : forall e e', recorded s e -> grouped (f_uf s) e e' -> recorded s e').
  { intros e e' Hr Hg. assert (He : e < 12).
    { destruct Hr as (i & Hi & Hr). rewrite HS in Hi. cbn in Hi. unfold trip_of in Hr. rewrite HS in Hr. assert (C : i = 0 \/ i = 1 \/ i = 2 \/ i = 3) by lia.
      destruct C as [->|[->|[->| ->]]]; cbn in Hr; lia. }
    assert (Hn : forall x, uf_parent (f_uf s) x = None).
    { intros x. destruct (Nat.lt_ge_cases x 12) as [Hx|Hx].
      - assert (Hm : nth_error (map (uf_parent (f_uf s)) (seq 0 12)) x = Some (uf_parent (f_uf s) x)) by (apply map_nth_error; rewrite (nth_error_nth' _ 0) by (rewrite seq_length; exact Hx); rewrite seq_nth by exact Hx; reflexivity).
        rewrite HG in Hm. apply nth_error_In in Hm. apply repeat_spec in Hm. exact Hm.
      - destruct (uf_parent (f_uf s) x) eqn:Ex; [|reflexivity]. apply (inv_range _ HI) in Ex. lia. }
    rewrite <- H12 in He. apply (grouped_eqv _ _ _ HI He) in Hg. destruct Hg as (r & R1 & R2).
    assert (R : forall x, rt (uf_parent (f_uf s)) x r -> x = r) by (intros x [d Hd]; destruct Hd as [z Hz|z y w d Hz _]; [reflexivity|rewrite Hn in Hz; discriminate]).
    apply R in R1. apply R in R2. subst. exact Hr. }
  destruct (generate_units_config ihash [0; 1; 2; 3] s (g_start s)) as [[st units]|] eqn:Eu; cbn [bind fst snd] in HU; [|discriminate]. apply Ok_inj in HU.
  destruct (C101_again_partial ihash ex_open ex_open_W 3 [0; 1; 2; 3] s st units ex_open_wf ex_open_counts eq_refl E F HC Eu) as (st' & E2).
  exists s, st, units, st'. auto 7.
Qed.
