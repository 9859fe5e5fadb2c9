(** C100: the units written by generate_units_config. *)
From Verif Require Import Prelude UnionFind_Model UnionFind_Props ChannelGraph_Model ChannelGraph_Props ChannelGraph2_Props.
From Coq Require Import Sorting.Sorted.
Local Open Scope nat_scope.

(** ** Specification *)

(** Tensor [b] (named by its first element) owns a channel tied to [e]. *)
Definition owned (s : fstate) (e b : nat) : Prop := exists x, grouped (f_uf s) e x /\ base_of (f_base s) x = b.
(** The key of the unit of a channel: the hash of the set of tensors owning a channel tied to it. *)
Definition is_key (hash : list nat -> Z) (s : fstate) (e : nat) (h : Z) : Prop :=
  exists B, StronglySorted lt B /\ (forall b, In b B <-> owned s e b) /\ h = hash B.
(** The smallest position, in its own tensor, of a channel tied to [e]. *)
Definition least_pos (s : fstate) (e : nat) (m : Z) : Prop :=
  (forall x, grouped (f_uf s) e x -> (m <= index_of (f_base s) x)%Z) /\ exists x, grouped (f_uf s) e x /\ m = index_of (f_base s) x.
Definition rec_side (is_out : bool) : side := if is_out then SOut else SIn.
Definition entries (is_out : bool) (u : unit_cfg) : list cfg := if is_out then u_out u else u_in u.
Definition range_len (c : cfg) : Z := (snd (snd c) - fst (snd c))%Z.
(** The ranges [rs] cut a tensor [t] into the pieces belonging to units: they tile it, the piece
    named [h] only holds channels of key [h], and a cut is made exactly between neighbours with
    different keys or where the smallest position falls. *)
Definition cuts (hash : list nat -> Z) (s : fstate) (t : list nat) (rs : list ((Z * Z) * Z)) : Prop :=
  tiles rs 0 (Z.of_nat (length t)) /\
  (forall a b h k e, In ((a, b), h) rs -> nth_error t k = Some e -> (a <= Z.of_nat k < b)%Z -> is_key hash s e h) /\
  (forall k e e', nth_error t k = Some e -> nth_error t (S k) = Some e' ->
     ((exists b h, In ((Z.of_nat (S k), b), h) rs) <->
      (exists h h', is_key hash s e h /\ is_key hash s e' h' /\ h <> h') \/
      (exists m m', least_pos s e m /\ least_pos s e' m' /\ (m' < m)%Z))).

(** ** Proof *)
Lemma sorted_same (a b : list nat) : StronglySorted lt a -> StronglySorted lt b -> (forall x, In x a <-> In x b) -> a = b.
Proof.
  revert b. induction a as [|x a IH]; intros b Ha Hb H.
  - destruct b as [|y b]; [reflexivity|]. destruct (proj2 (H y) (or_introl eq_refl)).
  - destruct b as [|y b]; [destruct (proj1 (H x) (or_introl eq_refl))|].
    inversion Ha as [|? ? Ha1 Fa]; inversion Hb as [|? ? Hb1 Fb]; subst. rewrite Forall_forall in Fa, Fb.
    assert (x = y).
    { destruct (proj1 (H x) (or_introl eq_refl)) as [E|E]; [auto|]. destruct (proj2 (H y) (or_introl eq_refl)) as [E2|E2]; [auto|].
      specialize (Fa y E2). specialize (Fb x E). lia. }
    subst y. f_equal. apply IH; auto. intros z. split; intros Hz.
    + destruct (proj1 (H z) (or_intror Hz)) as [E|E]; [|exact E]. subst z. specialize (Fa x Hz). lia.
    + destruct (proj2 (H z) (or_intror Hz)) as [E|E]; [|exact E]. subst z. specialize (Fb x Hz). lia.
Qed.
Lemma seq_sorted : forall n a, StronglySorted lt (seq a n).
Proof. induction n as [|n IH]; intros a; cbn; constructor; [apply IH|]. apply Forall_forall. intros x Hx. apply in_seq in Hx. lia. Qed.
Lemma filter_sorted (f : nat -> bool) l : StronglySorted lt l -> StronglySorted lt (filter f l).
Proof.
  induction 1 as [|x l H IH F]; cbn; [constructor|]. destruct (f x); [constructor; [exact IH|]|exact IH].
  apply Forall_forall. intros y Hy. apply filter_In in Hy as [Hy _]. rewrite Forall_forall in F. apply F. exact Hy.
Qed.

Section Gen.
Variable hash : list nat -> Z.
Variable s : fstate.
Hypothesis HI : Inv (f_uf s).
Hypothesis HB : BI s.
Let u0 := f_uf s.
Let base := f_base s.
Let n := uf_n u0.

Lemma eqv_lt a b : a < n -> eqv u0 a b -> b < n.
Proof.
  intros Ha H. destruct (le_lt_dec n b) as [Hb|Hb]; [|exact Hb].
  apply (proj1 (proj2 (eqv_equiv _ HI))) in H. rewrite (eqv_new _ b a HI Hb H) in Hb. lia.
Qed.
Lemma owned_eqv e b : e < n -> (owned s e b <-> exists x, eqv u0 e x /\ base_of base x = b).
Proof.
  intros He. unfold owned. split; intros (x & H & E); exists x; (split; [|exact E]); apply (grouped_eqv _ e x HI He); exact H.
Qed.
Lemma owners_key e l : e < n -> (forall z, In z l <-> eqv u0 e z) -> is_key hash s e (hash (owners base l)).
Proof.
  intros He Hl. exists (owners base l). split; [apply filter_sorted, seq_sorted|]. split; [|reflexivity].
  intros b. rewrite (owned_eqv e b He). unfold owners. rewrite filter_In, in_seq, existsb_exists. destruct HB as [LB LE]. split.
  - intros (_ & x & Hx & E). apply Nat.eqb_eq in E. exists x. split; [apply Hl; exact Hx|exact E].
  - intros (x & Hx & E). pose proof (eqv_lt e x He Hx) as Hxn. specialize (LE x Hxn).
    unfold base, n, u0 in *. split; [lia|]. exists x. split; [apply Hl; exact Hx|apply Nat.eqb_eq; exact E].
Qed.
Lemma key_unique e e' h h' : e < n -> eqv u0 e e' -> is_key hash s e h -> is_key hash s e' h' -> h = h'.
Proof.
  intros He Hee (B & S1 & M1 & ->) (B' & S2 & M2 & ->). f_equal. apply sorted_same; auto. intros b. rewrite M1, M2.
  pose proof (eqv_lt e e' He Hee) as He'. rewrite !owned_eqv by assumption. destruct (eqv_equiv _ HI) as (R1 & R2 & R3).
  split; intros (x & Hx & E); exists x; (split; [|exact E]); [eapply R3; [apply R2; exact Hee|exact Hx]|eapply R3; [exact Hee|exact Hx]].
Qed.
Lemma key_eqv e e' h : e < n -> eqv u0 e e' -> is_key hash s e h -> is_key hash s e' h.
Proof.
  intros He Hee (B & S1 & M1 & ->). exists B. split; [exact S1|]. split; [|reflexivity]. intros b. rewrite M1.
  pose proof (eqv_lt e e' He Hee) as He'. rewrite !owned_eqv by assumption. destruct (eqv_equiv _ HI) as (R1 & R2 & R3).
  split; intros (x & Hx & E); exists x; (split; [|exact E]); [eapply R3; [apply R2; exact Hee|exact Hx]|eapply R3; [exact Hee|exact Hx]].
Qed.

(** The smallest position of a tied channel in its tensor. *)
Definition is_min (e : nat) (m : Z) : Prop :=
  (m <= 2 ^ 32)%Z /\ (forall x, eqv u0 e x -> (m <= index_of base x)%Z) /\
  (m = (2 ^ 32)%Z \/ exists x, eqv u0 e x /\ m = index_of base x).
Lemma fold_min : forall l (a : Z), let m := fold_left (fun m x => Z.min m (index_of base x)) l a in
  (m <= a)%Z /\ (forall x, In x l -> (m <= index_of base x)%Z) /\ (m = a \/ exists x, In x l /\ m = index_of base x).
Proof.
  induction l as [|y l IH]; intros a; cbn [fold_left]; cbv zeta; [split; [lia|]; split; [intros x []|auto]|].
  destruct (IH (Z.min a (index_of base y))) as (A & B & C). set (m := fold_left _ l _) in *. split; [lia|]. split.
  - intros x [<-|Hx]; [lia|auto].
  - destruct C as [C|(x & Hx & C)]; [|right; exists x; cbn; auto].
    destruct (Z.le_gt_cases a (index_of base y)); [left; lia|right; exists y; split; [left; reflexivity|lia]].
Qed.

Definition GI (st : gstate) : Prop :=
  Inv (g_uf st) /\ uf_n (g_uf st) = n /\ (forall a b, eqv (g_uf st) a b <-> eqv u0 a b) /\
  (forall e h, g_hash st e = Some h -> e < n /\ is_key hash s e h /\ forall x, eqv u0 e x -> g_hash st x = Some h) /\
  (forall e m, g_min st e = Some m -> e < n /\ is_min e m /\ forall x, eqv u0 e x -> g_min st x = Some m).
Lemma g_start_ok : GI (g_start s).
Proof. split; [exact HI|]. split; [reflexivity|]. split; [cbn; tauto|]. split; cbn; discriminate. Qed.
Lemma owing_ok st e : GI st -> e < n -> exists u' l, owing_elem_set (g_uf st) e = Ok (u', l) /\ Inv u' /\ uf_n u' = n /\
  (forall a b, eqv u' a b <-> eqv u0 a b) /\ forall z, In z l <-> eqv u0 e z.
Proof.
  intros (GI1 & GN & GE & _) He. rewrite <- GN in He. destruct (set_ok (g_uf st) e GI1 He) as (u' & l & E & I' & N' & R' & M).
  exists u', l. split; [exact E|]. split; [exact I'|]. split; [congruence|]. split.
  - intros a b. rewrite <- GE. unfold eqv. split; intros (r & H1 & H2); exists r; split; apply R'; assumption.
  - intros z. rewrite M. apply GE.
Qed.
Lemma set_all_spec f l v x : set_all f l v x = if existsb (Nat.eqb x) l then Some v else f x.
Proof. reflexivity. Qed.
Lemma hash_step st e : GI st -> e < n -> exists st' h, elem_set_hash hash base st e = Ok (st', h) /\ GI st' /\ is_key hash s e h.
Proof.
  intros G He. unfold elem_set_hash. destruct (g_hash st e) as [h|] eqn:Eh.
  - exists st, h. split; [reflexivity|]. split; [exact G|]. destruct G as (_ & _ & _ & GH & _). apply (GH e h Eh).
  - destruct (owing_ok st e G He) as (u' & l & E & I' & N' & E' & M). rewrite E. cbn [bind fst snd].
    destruct G as (G1 & G2 & G3 & GH & GM). destruct (eqv_equiv _ HI) as (R1 & R2 & R3). fold u0 in R1, R2, R3.
    assert (AN : all_none (g_hash st) l = true).
    { apply forallb_forall. intros x Hx. destruct (g_hash st x) as [h|] eqn:Ex; [|reflexivity].
      destruct (GH x h Ex) as (_ & _ & C). rewrite (C e) in Eh; [discriminate|]. apply R2, M, Hx. }
    rewrite AN. cbn [assert_ bind]. eexists _, _. split; [reflexivity|]. pose proof (owners_key e l He M) as HK. split; [|exact HK].
    split; [exact I'|]. split; [exact N'|]. split; [exact E'|]. split; [|exact GM]. cbn [g_hash g_uf g_min].
    intros x h Hx. rewrite set_all_spec in Hx. destruct (existsb (Nat.eqb x) l) eqn:Ex.
    + injection Hx as <-. apply existsb_In in Ex. apply M in Ex. split; [apply (eqv_lt e x He Ex)|]. split; [apply (key_eqv e x _ He Ex HK)|].
      intros y Hy. rewrite set_all_spec. assert (Hin : existsb (Nat.eqb y) l = true) by (apply existsb_In, M; eapply R3; eauto). rewrite Hin. reflexivity.
    + destruct (GH x h Hx) as (A & B & C). split; [exact A|]. split; [exact B|]. intros y Hy. rewrite set_all_spec.
      destruct (existsb (Nat.eqb y) l) eqn:Ey; [|apply C; exact Hy]. exfalso. apply existsb_In in Ey. apply M in Ey.
      assert (In x l) by (apply M; eapply R3; [exact Ey|apply R2; exact Hy]). apply existsb_In in H. congruence.
Qed.
Lemma min_step st e : GI st -> e < n -> exists st' m, min_elem_set_index base st e = Ok (st', m) /\ GI st' /\ is_min e m.
Proof.
  intros G He. unfold min_elem_set_index. destruct (g_min st e) as [m|] eqn:Em.
  - exists st, m. split; [reflexivity|]. split; [exact G|]. destruct G as (_ & _ & _ & _ & GM). apply (GM e m Em).
  - destruct (owing_ok st e G He) as (u' & l & E & I' & N' & E' & M). rewrite E. cbn [bind fst snd].
    destruct G as (G1 & G2 & G3 & GH & GM). destruct (eqv_equiv _ HI) as (R1 & R2 & R3). fold u0 in R1, R2, R3.
    assert (AN : all_none (g_min st) l = true).
    { apply forallb_forall. intros x Hx. destruct (g_min st x) as [h|] eqn:Ex; [|reflexivity].
      destruct (GM x h Ex) as (_ & _ & C). rewrite (C e) in Em; [discriminate|]. apply R2, M, Hx. }
    rewrite AN. cbn [assert_ bind]. eexists _, _. split; [reflexivity|].
    pose proof (fold_min l (2 ^ 32)) as FM. cbv zeta in FM. set (m := fold_left _ l (2 ^ 32)%Z) in *. destruct FM as (F1 & F2 & F3).
    assert (HM : forall x, eqv u0 e x -> is_min x m).
    { intros x Hx. split; [exact F1|]. split; [intros y Hy; apply F2, M; eapply R3; eauto|].
      destruct F3 as [F3|(y & Hy & F3)]; [left; exact F3|right; exists y; split; [eapply R3; [apply R2; exact Hx|apply M; exact Hy]|exact F3]]. }
    split; [|apply HM, R1].
    split; [exact I'|]. split; [exact N'|]. split; [exact E'|]. split; [exact GH|]. cbn [g_hash g_uf g_min].
    intros x h Hx. rewrite set_all_spec in Hx. destruct (existsb (Nat.eqb x) l) eqn:Ex.
    + injection Hx as <-. apply existsb_In in Ex. apply M in Ex. split; [apply (eqv_lt e x He Ex)|]. split; [apply HM; exact Ex|].
      intros y Hy. rewrite set_all_spec. assert (Hin : existsb (Nat.eqb y) l = true) by (apply existsb_In, M; eapply R3; eauto). rewrite Hin. reflexivity.
    + destruct (GM x h Hx) as (A & B & C). split; [exact A|]. split; [exact B|]. intros y Hy. rewrite set_all_spec.
      destruct (existsb (Nat.eqb y) l) eqn:Ey; [|apply C; exact Hy]. exfalso. apply existsb_In in Ey. apply M in Ey.
      assert (In x l) by (apply M; eapply R3; [exact Ey|apply R2; exact Hy]). apply existsb_In in H. congruence.
Qed.
Definition keyed (e : nat) (hm : Z * Z) : Prop := is_key hash s e (fst hm) /\ is_min e (snd hm).
Lemma index_step : forall t st, GI st -> (forall e, In e t -> e < n) ->
  exists st' hs, hash_with_index hash base st t = Ok (st', hs) /\ GI st' /\ Forall2 keyed t hs.
Proof.
  induction t as [|e t IH]; intros st G Ht; [exists st, []; split; [reflexivity|]; split; [exact G|constructor]|]. cbn [hash_with_index].
  destruct (hash_step st e G (Ht e (or_introl eq_refl))) as (s1 & h & E1 & G1 & K1). rewrite E1. cbn [bind fst snd].
  destruct (min_step s1 e G1 (Ht e (or_introl eq_refl))) as (s2 & m & E2 & G2 & K2). rewrite E2. cbn [bind fst snd].
  destruct (IH s2 G2) as (s3 & hs & E3 & G3 & K3); [intros x Hx; apply Ht; right; exact Hx|]. rewrite E3. cbn [bind fst snd].
  eexists _, _. split; [reflexivity|]. split; [exact G3|]. constructor; [split; assumption|exact K3].
Qed.

(** *** Ranges *)
Hypothesis small : (Z.of_nat n <= 2 ^ 32)%Z.
Lemma min_least e m : e < n -> is_min e m -> least_pos s e m.
Proof.
  intros He (A & B & C). destruct HB as [LB LE]. split.
  - intros x Hx. apply B. apply (grouped_eqv _ e x HI He). exact Hx.
  - destruct C as [C|(x & Hx & C)]; [|exists x; split; [apply (grouped_eqv _ e x HI He); exact Hx|exact C]].
    exfalso. specialize (B e (proj1 (eqv_equiv _ HI) e)). unfold index_of in B. rewrite C in B. unfold n, u0 in He, small. lia.
Qed.
Lemma least_unique e m m' : least_pos s e m -> least_pos s e m' -> m = m'.
Proof. intros (A & x & Hx & E) (A' & x' & Hx' & E'). specialize (A x' Hx'). specialize (A' x Hx). lia. Qed.
Lemma split_starts : forall l prev start e first k,
  (exists b v, In ((k, b), v) (split_loop l prev start e first)) <->
  k = start \/ exists i x y, nth_error (prev :: l) i = Some x /\ nth_error l i = Some y /\ k = (e + Z.of_nat i)%Z /\ (fst y <> fst x \/ (snd y < snd x)%Z).
Proof.
  induction l as [|h l IH]; intros prev start e first k; cbn [split_loop].
  - split; [intros (b & v & [E|[]]); injection E; auto|]. intros [->|(i & x & y & _ & E & _)]; [exists e, first; left; reflexivity|]. destruct i; discriminate.
  - assert (EE : (negb (Z.eqb (fst h) (fst prev)) || Z.ltb (snd h) (snd prev) = true <-> fst h <> fst prev \/ (snd h < snd prev)%Z)).
    { rewrite Bool.orb_true_iff, Bool.negb_true_iff, Z.eqb_neq, Z.ltb_lt. tauto. }
    assert (AUX : forall k, (exists i x y, nth_error (prev :: h :: l) i = Some x /\ nth_error (h :: l) i = Some y /\ k = (e + Z.of_nat i)%Z /\ (fst y <> fst x \/ (snd y < snd x)%Z)) <->
       (k = e /\ (fst h <> fst prev \/ (snd h < snd prev)%Z)) \/
       exists i x y, nth_error (h :: l) i = Some x /\ nth_error l i = Some y /\ k = (e + 1 + Z.of_nat i)%Z /\ (fst y <> fst x \/ (snd y < snd x)%Z)).
    { intros k'. split.
      - intros ([|i] & x & y & E1 & E2 & E3 & E4); cbn [nth_error] in E1, E2; [injection E1 as <-; injection E2 as <-; left; split; [lia|exact E4]|].
        right. exists i, x, y. repeat split; auto. lia.
      - intros [[-> H]|(i & x & y & E1 & E2 & E3 & E4)]; [exists 0%nat, prev, h; repeat split; auto; lia|].
        exists (S i), x, y. repeat split; auto. lia. }
    destruct (_ || _) eqn:E.
    + apply proj1 in EE. specialize (EE eq_refl). rewrite AUX. split.
      * intros (b & v & [E1|E1]); [injection E1; auto|]. right. assert (H : exists b v, In ((k, b), v) (split_loop l h e (e + 1) (fst h))) by eauto.
        apply IH in H as [->|H]; [left; auto|right; exact H].
      * intros [->|[[-> _]|H]]; [exists e, first; left; reflexivity| |].
        -- assert (H : exists b v, In ((e, b), v) (split_loop l h e (e + 1) (fst h))) by (apply IH; auto). destruct H as (b & v & H). exists b, v. right. exact H.
        -- assert (H' : exists b v, In ((k, b), v) (split_loop l h e (e + 1) (fst h))) by (apply IH; auto). destruct H' as (b & v & H'). exists b, v. right. exact H'.
    + rewrite IH, AUX. apply proj2 in EE. split; [tauto|]. intros [H|[[_ H]|H]]; auto. exfalso. apply EE in H. discriminate.
Qed.
Lemma ranges_step st t : GI st -> t <> [] -> (forall e, In e t -> e < n) ->
  exists st' rs, hash_ranges hash base st t = Ok (st', rs) /\ GI st' /\ cuts hash s t rs.
Proof.
  intros G Ht Hv. unfold hash_ranges. destruct (index_step t st G Hv) as (st' & hs & E & G' & F). rewrite E. cbn [bind fst snd].
  destruct F as [|e0 h0 t hs K0 F]; [congruence|].
  destruct (C61_ranges_tile (h0 :: hs)) as (rs & d & E2 & T2 & V2 & _); [discriminate|]. rewrite E2. cbn [bind].
  exists st', rs. split; [reflexivity|]. split; [exact G'|].
  assert (FF : Forall2 keyed (e0 :: t) (h0 :: hs)) by (constructor; assumption).
  assert (FL : forall (l : list nat) hs, Forall2 keyed l hs -> length hs = length l) by (induction 1; cbn; congruence).
  assert (FN : forall k e (l : list nat) hs, Forall2 keyed l hs -> nth_error l k = Some e -> exists hm, nth_error hs k = Some hm /\ keyed e hm).
  { clear. intros k. induction k as [|k IH]; intros e l hs [|x y l' hs' K F] He; cbn in *; try discriminate; [injection He as <-; eauto|]. eapply IH; eauto. }
  split; [|split].
  - rewrite (FL _ _ FF) in T2. exact T2.
  - intros a b h k e Hin He Hk. destruct (FN k e _ _ FF He) as (hm & E3 & [K _]). rewrite <- (V2 a b h k hm Hin E3 Hk). exact K.
  - intros k e e' He He'. destruct (FN k e _ _ FF He) as (x & Ex & [Kx Mx]). destruct (FN (S k) e' _ _ FF He') as (y & Ey & [Ky My]).
    assert (Hen : e < n) by (apply Hv; eapply nth_error_In; exact He).
    assert (Hen' : e' < n) by (apply Hv; eapply nth_error_In; exact He').
    apply Ok_inj in E2. rewrite <- E2. rewrite split_starts. cbn [nth_error] in Ey. split.
    + intros [H|(i & x' & y' & E3 & E4 & E5 & E6)]; [lia|]. assert (i = k) by lia. subst i. rewrite Ex in E3. injection E3 as <-. rewrite Ey in E4. injection E4 as <-.
      destruct E6 as [E6|E6]; [left; exists (fst x), (fst y); auto|right; exists (snd x), (snd y)].
      split; [apply min_least; assumption|]. split; [apply min_least; assumption|exact E6].
    + intros H. right. exists k, x, y. split; [exact Ex|]. split; [exact Ey|]. split; [lia|].
      destruct H as [(h & h' & A & B & C)|(m & m' & A & B & C)].
      * left. rewrite (key_unique e e _ _ Hen (proj1 (eqv_equiv _ HI) e) Kx A), (key_unique e' e' _ _ Hen' (proj1 (eqv_equiv _ HI) e') Ky B). auto.
      * right. rewrite (least_unique e _ _ (min_least e _ Hen Mx) A), (least_unique e' _ _ (min_least e' _ Hen' My) B). exact C.
Qed.
End Gen.

(** *** The dictionary *)
Definition dhas (d : list (Z * unit_cfg)) (h : Z) (io : bool) (c : cfg) : Prop := exists u, In (h, u) d /\ In c (entries io u).
Lemma cfg_eqb_ok a b : cfg_eqb a b = true <-> a = b.
Proof.
  unfold cfg_eqb. rewrite !Bool.andb_true_iff, Nat.eqb_eq, !Z.eqb_eq. destruct a as [a1 [a2 a3]], b as [b1 [b2 b3]]. cbn. split; [intros [[-> ->] ->]; reflexivity|].
  intros E. injection E; auto.
Qed.
Lemma push_in c l x : In x (push_cfg c l) <-> In x l \/ x = c.
Proof.
  unfold push_cfg. destruct (existsb _ _) eqn:E.
  - apply existsb_exists in E as (y & Hy & E). apply cfg_eqb_ok in E. subst y. split; [auto|intros [H| ->]; auto].
  - rewrite in_app_iff. cbn. split; [intros [H|[H|[]]]; auto|intros [H| ->]; auto].
Qed.
Lemma push_nodup c l : NoDup l -> NoDup (push_cfg c l).
Proof.
  intros H. unfold push_cfg. destruct (existsb _ _) eqn:E; [exact H|]. apply (NoDup_app_comm [c] l) || idtac.
  assert (Hn : ~ In c l). { intros Hc. assert (existsb (cfg_eqb c) l = true); [|congruence]. apply existsb_exists. exists c. split; [exact Hc|apply cfg_eqb_ok; reflexivity]. }
  clear E. induction l as [|x l IH]; cbn; [constructor; [intros []|constructor]|]. inversion H; subst. constructor.
  - rewrite in_app_iff. cbn. intros [H'|[<-|[]]]; [auto|]. apply Hn. left. reflexivity.
  - apply IH; auto. intros Hc. apply Hn. right. exact Hc.
Qed.
Lemma add_in io io' c u x : In x (entries io' (add_cfg io c u)) <-> In x (entries io' u) \/ (io' = io /\ x = c).
Proof.
  unfold add_cfg, entries. destruct io, io'; cbn [u_in u_out]; rewrite ?push_in; intuition discriminate.
Qed.
Definition unit_ok (u : unit_cfg) : Prop := NoDup (u_in u) /\ NoDup (u_out u) /\ exists io c, In c (entries io u).
Lemma add_ok io c u : NoDup (u_in u) -> NoDup (u_out u) -> unit_ok (add_cfg io c u).
Proof.
  intros H1 H2. split; [|split]; [destruct io; cbn; auto using push_nodup|destruct io; cbn; auto using push_nodup|].
  exists io, c. apply add_in. right. auto.
Qed.
Definition dict_ok (d : list (Z * unit_cfg)) : Prop := NoDup (map fst d) /\ forall h u, In (h, u) d -> unit_ok u.
Lemma dict_keys d h io c x : In x (map fst (dict_add d h io c)) <-> In x (map fst d) \/ x = h.
Proof.
  induction d as [|[h' u] d IH]; cbn; [intuition congruence|]. destruct (Z.eqb_spec h' h) as [->|E]; cbn; [intuition congruence|]. rewrite IH. tauto.
Qed.
Lemma dict_step d h io c : dict_ok d -> dict_ok (dict_add d h io c) /\
  forall h' io' c', dhas (dict_add d h io c) h' io' c' <-> dhas d h' io' c' \/ (h' = h /\ io' = io /\ c' = c).
Proof.
  unfold dict_ok, dhas. induction d as [|[k u] d IH]; intros [ND OK].
  - cbn [dict_add]. split; [split|].
    + constructor; [intros []|constructor].
    + intros h' u [E|[]]. injection E as <- <-. apply add_ok; constructor.
    + intros h' io' c'. split.
      * intros (u & [E|[]] & Hc). injection E as <- <-. apply add_in in Hc as [Hc|[-> ->]]; [|auto]. destruct io'; destruct Hc.
      * intros [(u & [] & _)|(-> & -> & ->)]. eexists. split; [left; reflexivity|]. apply add_in. auto.
  - cbn [dict_add map fst] in *. inversion ND as [|? ? NI ND']; subst.
    destruct (Z.eqb_spec k h) as [->|E].
    + split; [split|].
      * exact ND.
      * intros h' v [E'|E']; [injection E' as <- <-|apply (OK h' v); right; exact E'].
        destruct (OK h u (or_introl eq_refl)) as (A & B & _). apply add_ok; assumption.
      * intros h' io' c'. split.
        -- intros (v & [E'|E'] & Hc); [injection E' as <- <-|left; exists v; split; [right; exact E'|exact Hc]].
           apply add_in in Hc as [Hc|[-> ->]]; [left; exists u; split; [left; reflexivity|exact Hc]|auto].
        -- intros [(v & [E'|E'] & Hc)|(-> & -> & ->)].
           ++ injection E' as <- <-. eexists. split; [left; reflexivity|]. apply add_in. auto.
           ++ exists v. split; [right; exact E'|exact Hc].
           ++ eexists. split; [left; reflexivity|]. apply add_in. auto.
    + destruct IH as [[ND2 OK2] HH]; [split; [exact ND'|intros h' v Hv; apply (OK h' v); right; exact Hv]|].
      split; [split|].
      * cbn [map fst]. constructor; [|exact ND2]. intros Hk. apply dict_keys in Hk as [Hk| ->]; [auto|congruence].
      * intros h' v [E'|E']; [injection E' as <- <-; apply (OK k u); left; reflexivity|apply (OK2 h' v E')].
      * intros h' io' c'. specialize (HH h' io' c'). split.
        -- intros (v & [E'|E'] & Hc); [injection E' as <- <-; left; exists u; split; [left; reflexivity|exact Hc]|].
           destruct (proj1 HH) as [(v' & Hv' & Hc')|H]; [exists v; auto|left; exists v'; split; [right; exact Hv'|exact Hc']|right; exact H].
        -- intros [(v & [E'|E'] & Hc)|H]; [injection E' as <- <-; exists u; split; [left; reflexivity|exact Hc]| |].
           ++ destruct (proj2 HH) as (v' & Hv' & Hc'); [left; exists v; auto|]. exists v'. split; [right; exact Hv'|exact Hc'].
           ++ destruct (proj2 HH) as (v' & Hv' & Hc'); [right; exact H|]. exists v'. split; [right; exact Hv'|exact Hc'].
Qed.
Lemma dict_ranges nm io : forall rs d, dict_ok d -> let d' := fold_left (fun d (r : (Z * Z) * Z) => dict_add d (snd r) io (nm, fst r)) rs d in
  dict_ok d' /\ forall h io' c, dhas d' h io' c <-> dhas d h io' c \/ (io' = io /\ fst c = nm /\ In (snd c, h) rs).
Proof.
  induction rs as [|[r v] rs IH]; intros d Hd; cbn [fold_left]; cbv zeta; [split; [exact Hd|]; intros; cbn; tauto|].
  destruct (dict_step d v io (nm, r) Hd) as [Hd1 H1]. cbn [fst snd]. destruct (IH _ Hd1) as [Hd2 H2]. split; [exact Hd2|].
  intros h io' c. rewrite H2, H1. cbn [In]. destruct c as [c1 c2]. cbn [fst snd]. split.
  - intros [[H|(-> & -> & E)]|(A & B & C)]; [auto| |auto]. injection E as -> ->. right. auto.
  - intros [H|(-> & -> & [E|E])]; [auto| |auto]. injection E as -> ->. left. right. auto.
Qed.

(** *** All nodes *)
Section All.
Variable hash : list nat -> Z.
Variable s : fstate.
Hypothesis HI : Inv (f_uf s).
Hypothesis HB : BI s.
Hypothesis small : (Z.of_nat (uf_n (f_uf s)) <= 2 ^ 32)%Z.
Definition both_ok (tr : trip) : Prop := t_in tr <> [] /\ t_out tr <> [] /\ valid s (t_in tr) /\ valid s (t_out tr).
Lemma tensor_step st d nm io t : GI hash s st -> dict_ok d -> t <> [] -> valid s t ->
  exists st' d' rs, process_tensor hash (f_base s) nm io t (st, d) = Ok (st', d') /\ GI hash s st' /\ dict_ok d' /\ cuts hash s t rs /\
    forall h io' c, dhas d' h io' c <-> dhas d h io' c \/ (io' = io /\ fst c = nm /\ In (snd c, h) rs).
Proof.
  intros G Hd Ht Hv. unfold process_tensor. cbn [fst snd].
  destruct (ranges_step hash s HI HB small st t G Ht Hv) as (st' & rs & E & G' & C). rewrite E. cbn [bind fst snd].
  destruct (dict_ranges nm io rs d Hd) as [Hd' H']. eexists _, _, rs. split; [reflexivity|]. split; [exact G'|]. split; [exact Hd'|]. split; [exact C|exact H'].
Qed.
Definition side_of (tr : trip) (io : bool) : list nat := if io then t_out tr else t_in tr.
Lemma nodes_step : forall nts st d, GI hash s st -> dict_ok d -> (forall nm tr, In (nm, tr) nts -> both_ok tr) ->
  exists st' d' (R : nat -> bool -> list ((Z * Z) * Z)), foldM (process_node hash (f_base s)) nts (st, d) = Ok (st', d') /\ GI hash s st' /\ dict_ok d' /\
    (forall i nm tr io, nth_error nts i = Some (nm, tr) -> cuts hash s (side_of tr io) (R i io)) /\
    forall h io c, dhas d' h io c <-> dhas d h io c \/ exists i tr, nth_error nts i = Some (fst c, tr) /\ In (snd c, h) (R i io).
Proof.
  induction nts as [|[nm tr] nts IH]; intros st d G Hd Hn; cbn [foldM].
  - exists st, d, (fun (_ : nat) (_ : bool) => @nil ((Z * Z) * Z)). split; [reflexivity|]. split; [exact G|]. split; [exact Hd|]. split; [intros [|i] ? ? ? E; discriminate|].
    intros h io c. split; [auto|]. intros [H|(i & tr & E & _)]; [exact H|destruct i; discriminate].
  - pose proof (Hn nm tr (or_introl eq_refl)) as (H1 & H2 & H3 & H4). unfold process_node. cbn [fst snd].
    destruct (tensor_step st d nm true (t_out tr) G Hd H2 H4) as (s1 & d1 & r1 & E1 & G1 & D1 & C1 & M1). rewrite E1. cbn [bind].
    destruct (tensor_step s1 d1 nm false (t_in tr) G1 D1 H1 H3) as (s2 & d2 & r2 & E2 & G2 & D2 & C2 & M2). rewrite E2. cbn [bind].
    destruct (IH s2 d2 G2 D2) as (s3 & d3 & RR & E3 & G3 & D3 & C3 & M3); [intros; apply (Hn nm0); right; assumption|].
    exists s3, d3, (fun (i : nat) (io : bool) => match i with O => if io then r1 else r2 | S i => RR i io end).
    split; [exact E3|]. split; [exact G3|]. split; [exact D3|]. split.
    + intros [|i] nm' tr' io E; cbn in E; [injection E as <- <-; destruct io; assumption|apply (C3 i nm' tr' io E)].
    + intros h io c. rewrite M3, M2, M1. split.
      * intros [[[H|(-> & E & H)]|(-> & E & H)]|(i & tr' & E & H)]; [auto| | |right; exists (S i), tr'; auto].
        -- right. exists 0%nat, tr. rewrite E. auto.
        -- right. exists 0%nat, tr. rewrite E. auto.
      * intros [H|([|i] & tr' & E & H)]; [auto| |right; exists i, tr'; auto]. cbn in E. injection E as -> ->.
        left. destruct io; [left; right; auto|right; auto].
Qed.
End All.

Lemma fold_least : forall (l : list cfg) (a : Z), let m := fold_left (fun m (c : cfg) => Z.min m (snd (snd c) - fst (snd c))%Z) l a in
  (m <= a)%Z /\ (forall x, In x l -> (m <= range_len x)%Z) /\ (m = a \/ exists x, In x l /\ m = range_len x).
Proof.
  induction l as [|y l IH]; intros a; cbn [fold_left]; cbv zeta; [split; [lia|]; split; [intros x []|auto]|].
  destruct (IH (Z.min a (snd (snd y) - fst (snd y))%Z)) as (A & B & C). set (m := fold_left _ l _) in *. split; [lia|]. split.
  - intros x [<-|Hx]; [unfold range_len; lia|auto].
  - destruct C as [C|(x & Hx & C)]; [|right; exists x; cbn; auto].
    destruct (Z.le_gt_cases a (snd (snd y) - fst (snd y))); [left; lia|right; exists y; split; [left; reflexivity|unfold range_len; lia]].
Qed.
Lemma tiles_len : forall rs from to a b h, tiles rs from to -> In ((a, b), h) rs -> (from <= a /\ a < b /\ b <= to)%Z.
Proof.
  induction rs as [|[[x y] v] rs IH]; intros from to a b h T Hin; [destruct Hin|]. cbn [tiles] in T. destruct T as (-> & T1 & T2).
  assert (HL : forall rs from to, tiles rs from to -> (from <= to)%Z).
  { clear. induction rs as [|[[x y] v] rs IH]; cbn; intros from to T; [lia|]. destruct T as (-> & T1 & T2). apply IH in T2. lia. }
  destruct Hin as [E|Hin]; [injection E as <- <- <-; apply HL in T2; lia|]. apply (IH y to a b h T2) in Hin. lia.
Qed.
Lemma reset_start hash s : Inv (f_uf s) -> GI hash s (reset_cache (f_nodes s) (g_start s)).
Proof.
  intros HI. assert (H : forall trs st, g_uf st = f_uf s -> (forall e, g_hash st e = None) -> (forall e, g_min st e = None) ->
    let st' := reset_cache trs st in g_uf st' = f_uf s /\ (forall e, g_hash st' e = None) /\ (forall e, g_min st' e = None)).
  { unfold reset_cache. induction trs as [|tr trs IH]; intros st A B C; cbn [fold_left]; cbv zeta; [auto|].
    apply IH; [exact A| |]; intros e; cbn [reset_node g_hash g_min]; unfold clear; destruct (existsb _ _); auto; destruct (existsb _ _); auto. }
  destruct (H (f_nodes s) (g_start s)) as (A & B & C); [reflexivity|reflexivity|reflexivity|]. set (st := reset_cache _ _) in *.
  unfold GI. rewrite A. split; [exact HI|]. split; [reflexivity|]. split; [tauto|].
  split; intros e x E; [rewrite B in E|rewrite C in E]; discriminate.
Qed.

(** For every graph whose channel numbers fit and with at most 2^32 channels,
    [generate_units_config] succeeds.  The two tensors of every node are cut into pieces that tile
    them; the units are the keys of these pieces, one unit per key; a unit lists exactly its pieces,
    none twice and at least one, and [num_channels] is the length of the shortest. *)
Theorem C100_units :
  forall hash g W numin names s,
    well_formed g -> counts g W -> length names = length g ->
    forward g numin = Ok s -> (Z.of_nat (uf_n (f_uf s)) <= 2 ^ 32)%Z ->
    (forall i, i < length g -> (Z.of_nat (fst (W i)) <= 2 ^ 32)%Z /\ (Z.of_nat (snd (W i)) <= 2 ^ 32)%Z) ->
    exists st units (R : nat -> bool -> list ((Z * Z) * Z)),
      generate_units_config hash names s (g_start s) = Ok (st, units) /\
      NoDup (map fst units) /\
      (forall i io, i < length g -> cuts hash s (tens (trip_of s i) (rec_side io)) (R i io)) /\
      (forall h n u, In (h, (n, u)) units ->
         (forall io c, In c (entries io u) <->
            exists i, i < length g /\ nth_error names i = Some (fst c) /\ In (snd c, h) (R i io)) /\
         NoDup (u_in u) /\ NoDup (u_out u) /\
         (forall io c, In c (entries io u) -> (n <= range_len c)%Z) /\
         (exists io c, In c (entries io u) /\ n = range_len c)) /\
      (forall i io r h, i < length g -> In (r, h) (R i io) -> exists n u, In (h, (n, u)) units).
Proof.
  intros hash g W numin names s wf HW Hlen HF small wide.
  destruct (forward_good g W numin wf HW) as (s0 & E0 & [HI HT] & HB & HN). rewrite E0 in HF. apply Ok_inj in HF. subst s0.
  assert (Hboth : forall i, i < length g -> both_ok s (trip_of s i)).
  { intros i Hi. destruct (nth_error g i) as [nd|] eqn:E; [|apply nth_error_None in E; lia].
    destruct (HT i nd) as [(V1 & V2 & _) HL]; [lia|exact E|]. destruct (counts_pos g W wf HW i Hi) as [P1 P2].
    assert (0 < length (t_in (trip_of s i)) /\ 0 < length (t_out (trip_of s i))).
    { unfold tlen in HL. destruct (c_kind nd); lia. }
    split; [|split; [|split; assumption]]; intros E2; rewrite E2 in H; cbn in H; lia. }
  assert (Hcomb : forall i nm tr, nth_error (combine names (f_nodes s)) i = Some (nm, tr) <-> i < length g /\ nth_error names i = Some nm /\ tr = trip_of s i).
  { intros i nm tr. split.
    - intros H. assert (H12 : nth_error names i = Some nm /\ nth_error (f_nodes s) i = Some tr).
      { revert i H. generalize (f_nodes s). clear. induction names as [|x l IH]; intros [|y l'] [|i] H; cbn in *; try discriminate; [injection H as -> ->; auto|eauto]. }
      destruct H12 as [H1 H2]. split; [rewrite <- HN; apply nth_error_Some; congruence|]. split; [exact H1|].
      unfold trip_of. symmetry. apply nth_error_nth. exact H2.
    - intros (Hi & H1 & ->). assert (H2 : nth_error (f_nodes s) i = Some (trip_of s i)) by (apply nth_error_nth'; lia).
      clear Hi; revert i H1 H2. generalize (trip_of s). generalize (f_nodes s). clear. induction names as [|x l IH]; intros [|y l'] f [|i] H1 H2; cbn in *; try discriminate; [congruence|].
      apply (IH l' (fun k => f (S k)) i); auto. }
  destruct (nodes_step hash s HI HB small (combine names (f_nodes s)) (reset_cache (f_nodes s) (g_start s)) []) as (st & d & R & E & G & [ND OK] & C & M).
  { apply reset_start. exact HI. }
  { split; [constructor|]. intros h u []. }
  { intros nm tr Hin. apply In_nth_error in Hin as [i Hi]. apply Hcomb in Hi as (Hi & _ & ->). apply Hboth. exact Hi. }
  assert (EQ : forall h u u', In (h, u) d -> In (h, u') d -> u = u').
  { clear -ND. induction d as [|[k v] d IH]; intros h u u' H1 H2; [destruct H1|]. cbn in ND. inversion ND as [|? ? NI ND']; subst. destruct H1 as [H1|H1], H2 as [H2|H2].
    - congruence.
    - injection H1 as <- <-. destruct NI. apply (in_map fst) in H2. exact H2.
    - injection H2 as <- <-. destruct NI. apply (in_map fst) in H1. exact H1.
    - eauto. }
  assert (CI : forall i io, i < length g -> cuts hash s (tens (trip_of s i) (rec_side io)) (R i io)).
  { intros i io Hi. destruct (nth_error names i) as [nm|] eqn:En; [|apply nth_error_None in En; lia].
    specialize (C i nm (trip_of s i) io). replace (tens (trip_of s i) (rec_side io)) with (side_of (trip_of s i) io) by (destruct io; reflexivity).
    apply C. apply Hcomb. auto. }
  exists st, (map (fun hu => (fst hu, (num_channels (snd hu), snd hu))) d), R.
  split; [unfold generate_units_config; rewrite E; reflexivity|]. split.
  { rewrite map_map. cbn [fst]. exact ND. }
  split; [exact CI|].
  assert (ME : forall h u io c, In (h, u) d -> (In c (entries io u) <-> exists i, i < length g /\ nth_error names i = Some (fst c) /\ In (snd c, h) (R i io))).
  { intros h u io c Hu. specialize (M h io c). split.
    - intros Hc. destruct (proj1 M) as [(u' & [] & _)|(i & tr & Hi & Hin)]; [exists u; auto|]. apply Hcomb in Hi as (Hi & Hn & _). exists i. auto.
    - intros (i & Hi & Hn & Hin). destruct (proj2 M) as (u' & Hu' & Hc'); [right; exists i, (trip_of s i); split; [apply Hcomb; auto|exact Hin]|].
      rewrite (EQ h u u' Hu Hu'). exact Hc'. }
  split.
  - intros h n u Hin. apply in_map_iff in Hin as ([h' u'] & Ei & Hu). cbn [fst snd] in Ei. injection Ei as -> <- ->.
    destruct (OK h u Hu) as (N1 & N2 & io0 & c0 & Hc0). split; [intros io c; apply ME; exact Hu|]. split; [exact N1|]. split; [exact N2|].
    pose proof (fold_least (u_in u ++ u_out u) (2 ^ 32)) as F. cbv zeta in F. change (fold_left _ (u_in u ++ u_out u) (2 ^ 32)%Z) with (num_channels u) in F. destruct F as (F1 & F2 & F3).
    assert (HE : forall io c, In c (entries io u) -> In c (u_in u ++ u_out u)) by (intros [] c Hc; apply in_app_iff; auto).
    split; [intros io c Hc; apply F2; eapply HE; exact Hc|].
    assert (HL : (range_len c0 <= 2 ^ 32)%Z).
    { destruct (proj1 (ME h u io0 c0 Hu) Hc0) as (i & Hi & _ & Hr). destruct c0 as [nm [a b]]. cbn [snd] in Hr.
      destruct (CI i io0 Hi) as [T _]. apply (tiles_len _ _ _ _ _ _ T) in Hr. unfold range_len. cbn [fst snd].
      assert (HW2 : (Z.of_nat (length (tens (trip_of s i) (rec_side io0))) <= 2 ^ 32)%Z); [|lia].
      destruct (nth_error g i) as [nd|] eqn:En; [|apply nth_error_None in En; lia].
      destruct (HT i nd) as [_ HL]; [lia|exact En|]. destruct (wide i Hi) as [w1 w2].
      unfold tlen in HL. destruct io0; cbn [rec_side tens]; destruct (c_kind nd); lia. }
    destruct F3 as [F3|(c & Hc & F3)]; [exists io0, c0; split; [exact Hc0|]; pose proof (F2 c0 (HE io0 c0 Hc0)); lia|].
    apply in_app_iff in Hc as [Hc|Hc]; [exists false, c|exists true, c]; auto.
  - intros i io r h Hi Hr. destruct (nth_error names i) as [nm|] eqn:En; [|apply nth_error_None in En; lia].
    destruct (proj2 (M h io (nm, r))) as (u & Hu & _); [right; exists i, (trip_of s i); split; [apply Hcomb; auto|exact Hr]|].
    exists (num_channels u), u. apply in_map_iff. exists (h, u). auto.
Qed.
Print Assumptions C100_units.
