(** Channel dependencies collected by ChannelGraph.forward. *)
From Verif Require Import Prelude UnionFind_Model UnionFind_Props ChannelGraph_Model.
From Coq Require Import Relations.Relation_Operators.

(** ** Specification: which channels depend on each other *)

(** Channel [k] of the input, of the output, or of the value returned by node [i]. *)
Inductive side : Type := SIn | SOut | SRet.
Definition chan : Type := (nat * side * nat)%type.

(** Nodes whose input channels are the channels of what they receive, one to one. *)
Definition reads_one_to_one (k : kind) : Prop :=
  match k with
  | KConv _ _ _ | KLinear _ _ | KBn _ | KGn _ _ | KPassUnion | KBind | KExpand _ => True
  | KPass | KCat | KInput _ | KEnd => False
  end.
Definition depthwise (cin cout groups : nat) : Prop := groups <> 1%nat /\ cin = cout /\ cout = groups.
(** Nodes whose output channels are their input channels, one to one. *)
Definition keeps_channels (k : kind) : Prop :=
  match k with
  | KConv i o g => depthwise i o g
  | KBn _ | KGn _ _ | KPassUnion | KBind | KCat | KInput _ | KEnd => True
  | KLinear _ _ | KExpand _ | KPass => False
  end.
(** Grouped convolutions that are not depthwise: channel [a] of one group goes with channel [a]
    of every other group. *)
Definition grouped_conv (k : kind) (groups : nat) : Prop :=
  match k with
  | KConv i o g => g = groups /\ groups <> 1%nat /\ ~ depthwise i o groups
  | _ => False
  end.

(** [L i sd] is the number of channels of node [i] on side [sd]. *)
Inductive node_dep (L : nat -> side -> nat) (i : nat) (nd : cnode) : chan -> chan -> Prop :=
| dep_read p k : reads_one_to_one (c_kind nd) -> In p (c_prev nd) -> (k < L p SRet)%nat ->
    node_dep L i nd (p, SRet, k) (i, SIn, k)
| dep_cat l1 p l2 k : c_kind nd = KCat -> c_prev nd = l1 ++ p :: l2 -> (k < L p SRet)%nat ->
    node_dep L i nd (p, SRet, k) (i, SIn, (list_sum (map (fun q => L q SRet) l1) + k)%nat)
| dep_pass p k : c_kind nd = KPass -> In p (c_prev nd) -> (k < L p SRet)%nat ->
    node_dep L i nd (p, SRet, k) (i, SRet, k)
| dep_end p k : c_kind nd = KEnd -> In p (c_prev nd) -> (k < L p SRet)%nat ->
    node_dep L i nd (p, SRet, k) (i, SIn, 0%nat)
| dep_keep k : keeps_channels (c_kind nd) -> (k < L i SIn)%nat ->
    node_dep L i nd (i, SIn, k) (i, SOut, k)
| dep_expand r k j : c_kind nd = KExpand r -> (k < L i SIn)%nat -> (j < r)%nat ->
    node_dep L i nd (i, SIn, k) (i, SOut, (k * r + j)%nat)
| dep_group groups sd a b : grouped_conv (c_kind nd) groups -> sd <> SRet ->
    (a < L i sd)%nat -> (b < L i sd)%nat ->
    (a mod (L i sd / groups) = b mod (L i sd / groups))%nat ->
    node_dep L i nd (i, sd, a) (i, sd, b)
| dep_norm c groups a b : c_kind nd = KGn c groups ->
    (a < L i SIn)%nat -> (b < L i SIn)%nat ->
    (a mod (L i SIn / groups) = b mod (L i SIn / groups))%nat ->
    node_dep L i nd (i, SIn, a) (i, SIn, b)
| dep_return k : c_kind nd <> KPass -> (k < L i SOut)%nat ->
    node_dep L i nd (i, SOut, k) (i, SRet, k).

Inductive dep (g : list cnode) (L : nat -> side -> nat) : chan -> chan -> Prop :=
| dep_node i nd x y : nth_error g i = Some nd -> node_dep L i nd x y -> dep g L x y
| dep_shared i j m sd k : mod_of g i = Some m -> mod_of g j = Some m -> sd <> SRet ->
    (k < L i sd)%nat -> dep g L (i, sd, k) (j, sd, k).

(** What the run produced: the tensors of a node and the element standing for a channel. *)
Definition tens (tr : trip) (sd : side) : list nat :=
  match sd with SIn => t_in tr | SOut => t_out tr | SRet => t_ret tr end.
Definition width (s : fstate) (i : nat) (sd : side) : nat := length (tens (trip_of s i) sd).
Definition elem_of (s : fstate) (c : chan) (e : nat) : Prop :=
  nth_error (tens (trip_of s (fst (fst c))) (snd (fst c))) (snd c) = Some e.

(** Nodes that look at their first input only have at most one. *)
Definition single_inputs (g : list cnode) : Prop :=
  forall nd, In nd g ->
    match c_kind nd with
    | KConv _ _ _ | KBn _ | KGn _ _ | KPassUnion => (length (c_prev nd) <= 1)%nat
    | _ => True
    end.

(** ** Proof *)
Section Sound.
Variable D : chan -> chan -> Prop.
Notation C := (clos_refl_sym_trans chan D).
Local Open Scope nat_scope.

Definition P (lab : nat -> chan) (s : fstate) : Prop :=
  Inv (f_uf s) /\ forall a b, a < uf_n (f_uf s) -> b < uf_n (f_uf s) ->
    eqv (f_uf s) a b -> C (lab a) (lab b).
(** [s'] comes after [s]: nothing is forgotten. *)
Definition later (s s' : fstate) : Prop :=
  uf_n (f_uf s) <= uf_n (f_uf s') /\ f_nodes s' = f_nodes s /\
  forall a b, eqv (f_uf s) a b -> eqv (f_uf s') a b.
Definition valid (s : fstate) (t : list nat) : Prop := forall e, In e t -> e < uf_n (f_uf s).
Definition agree (s : fstate) (lab lab' : nat -> chan) : Prop :=
  forall e, e < uf_n (f_uf s) -> lab' e = lab e.

Lemma later_refl s : later s s.
Proof. repeat split; auto. Qed.
Lemma later_trans a b c : later a b -> later b c -> later a c.
Proof. intros (H1 & H2 & H3) (G1 & G2 & G3). repeat split; [lia|congruence|auto]. Qed.
Lemma valid_later s s' t : later s s' -> valid s t -> valid s' t.
Proof. intros (H & _) V e He. specialize (V e He). lia. Qed.
Lemma agree_refl s lab : agree s lab lab.
Proof. intros e _. reflexivity. Qed.
Lemma agree_trans s s' l1 l2 l3 : later s s' -> agree s l1 l2 -> agree s' l2 l3 -> agree s l1 l3.
Proof. intros (H & _) A1 A2 e He. rewrite A2 by lia. apply A1. exact He. Qed.
Lemma eqv_refl_ lab s a : P lab s -> eqv (f_uf s) a a.
Proof. intros [HI _]. apply (proj1 (eqv_equiv _ HI)). Qed.
Lemma eqv_sym_ lab s a b : P lab s -> eqv (f_uf s) a b -> eqv (f_uf s) b a.
Proof. intros [HI _]. apply (proj1 (proj2 (eqv_equiv _ HI))). Qed.
Lemma eqv_trans_ lab s a b c : P lab s -> eqv (f_uf s) a b -> eqv (f_uf s) b c -> eqv (f_uf s) a c.
Proof. intros [HI _]. apply (proj2 (proj2 (eqv_equiv _ HI))). Qed.

Lemma clos_inside (R : nat -> nat -> Prop) (Q : nat -> Prop) x y :
  (forall a b, R a b -> a = b \/ (Q a /\ Q b)) -> clos_refl_sym_trans nat R x y -> x = y \/ (Q x /\ Q y).
Proof.
  intros H Hc. induction Hc as [a b Hab| |a b _ IH|a b c _ IH1 _ IH2]; [auto|auto| |].
  - destruct IH as [->|[]]; auto.
  - destruct IH1 as [->|[]], IH2 as [<-|[]]; auto.
Qed.

Lemma pairs_spec lab : forall l s s', P lab s ->
  (forall a b, In (a, b) l -> a < uf_n (f_uf s) /\ b < uf_n (f_uf s) /\ C (lab a) (lab b)) ->
  union_pairs (f_uf s) l = Ok s' ->
  P lab (with_uf s s') /\ later s (with_uf s s') /\ uf_n s' = uf_n (f_uf s) /\
  forall a b, In (a, b) l -> eqv s' a b.
Proof.
  induction l as [|[a b] l IH]; intros s s' HP H E; cbn in E.
  - apply Ok_inj in E. subst. split; [exact HP|]. split; [repeat split; auto|]. split; [reflexivity|]. intros ? ? [].
  - destruct (H a b (or_introl eq_refl)) as (Ha & Hb & HC).
    destruct (union_two (f_uf s) a b) as [s1|] eqn:E1; cbn in E; [|discriminate].
    destruct HP as [HI HS].
    destruct (union_ok _ a b HI Ha Hb) as (s1' & ra & rb & E1' & I1 & N1 & _).
    rewrite E1 in E1'. apply Ok_inj in E1'. subst s1'.
    pose proof (union_eqv _ a b s1 HI Ha Hb E1) as HE.
    assert (HP1 : P lab (with_uf s s1)).
    { split; [exact I1|]. cbn. intros x y Hx Hy Hxy. apply HE in Hxy.
      assert (HG : forall x y, clos_refl_sym_trans nat (fun u v => eqv (f_uf s) u v \/ u = a /\ v = b) x y ->
                 x = y \/ (x < uf_n (f_uf s) /\ y < uf_n (f_uf s))).
      { intros u v. apply (clos_inside _ (fun z => z < uf_n (f_uf s))). intros p q [Hpq|[-> ->]]; [|auto].
        destruct (le_lt_dec (uf_n (f_uf s)) p) as [Hp|Hp]; [left; apply (eqv_new _ p q HI Hp Hpq)|].
        destruct (le_lt_dec (uf_n (f_uf s)) q) as [Hq|Hq]; [|auto].
        left. symmetry. apply (eqv_new _ q p HI Hq).
        apply (proj1 (proj2 (eqv_equiv _ HI))). exact Hpq. }
      clear Hx Hy. induction Hxy as [u v [Huv|[-> ->]]|u|u v _ IHc|u v w _ IH1 _ IH2].
      - destruct (HG u v) as [->|[]]; [apply rst_step; auto|apply rst_refl|apply HS; assumption].
      - exact HC.
      - apply rst_refl.
      - apply rst_sym. exact IHc.
      - eapply rst_trans; eassumption. }
    destruct (IH (with_uf s s1) s' HP1) as (P2 & L2 & N2 & A2).
    { intros u v Huv. cbn. rewrite N1. apply H. right. exact Huv. }
    { exact E. }
    assert (L1 : later s (with_uf s s1)).
    { split; [cbn; lia|]. split; [reflexivity|]. cbn. intros u v Huv. apply HE. apply rst_step. auto. }
    split; [exact P2|]. split; [|split].
    + destruct L2 as (X1 & X2 & X3). cbn in *. destruct L1 as (Y1 & Y2 & Y3). cbn in *.
      repeat split; cbn; [lia|]. auto.
    + cbn in N2. lia.
    + intros u v [Huv|Huv]; [|apply A2; exact Huv]. injection Huv as <- <-.
      destruct L2 as (_ & _ & X3). apply X3. cbn. apply HE. apply rst_step. auto.
Qed.

Lemma nth_error_combine {A B} (l : list A) (l' : list B) k a b :
  nth_error l k = Some a -> nth_error l' k = Some b -> In (a, b) (combine l l').
Proof.
  revert l' k. induction l as [|x l IH]; intros [|y l'] [|k]; cbn; try discriminate.
  - intros [= ->] [= ->]. auto.
  - intros H1 H2. right. eapply IH; eauto.
Qed.
Lemma combine_nth_error {A B} (l : list A) (l' : list B) a b :
  In (a, b) (combine l l') -> exists k, nth_error l k = Some a /\ nth_error l' k = Some b.
Proof.
  revert l'. induction l as [|x l IH]; intros [|y l']; cbn; try contradiction.
  intros [[= -> ->]|H]; [exists 0; auto|]. destruct (IH _ H) as (k & H1 & H2). exists (S k). auto.
Qed.

Lemma union_spec lab s a b s' : P lab s -> valid s a -> valid s b ->
  (forall k x y, nth_error a k = Some x -> nth_error b k = Some y -> C (lab x) (lab y)) ->
  f_union s a b = Ok s' ->
  P lab s' /\ later s s' /\ uf_n (f_uf s') = uf_n (f_uf s) /\ length a = length b /\
  forall k x y, nth_error a k = Some x -> nth_error b k = Some y -> eqv (f_uf s') x y.
Proof.
  intros HP Va Vb HC E. unfold f_union, tensor_union in E.
  destruct (Nat.eqb_spec (length a) (length b)) as [Hl|Hl]; cbn in E; [|discriminate].
  destruct (union_pairs (f_uf s) (combine a b)) as [u|] eqn:Eu; cbn in E; [|discriminate].
  apply Ok_inj in E. subst s'.
  destruct (pairs_spec lab (combine a b) s u HP) as (P1 & L1 & N1 & A1); [|exact Eu|].
  { intros x y Hxy. destruct (combine_in_both _ _ _ _ Hxy) as [Hx Hy].
    destruct (combine_nth_error _ _ _ _ Hxy) as (k & H1 & H2). repeat split; [apply Va|apply Vb|]; eauto. }
  split; [exact P1|]. split; [exact L1|]. split; [exact N1|]. split; [exact Hl|].
  intros k x y H1 H2. apply A1. eapply nth_error_combine; eauto.
Qed.

Definition ext (lab : nat -> chan) (n : nat) (new : nat -> chan) : nat -> chan :=
  fun e => if Nat.ltb e n then lab e else new (e - n).
Lemma ext_old lab n new e : e < n -> ext lab n new e = lab e.
Proof. intros H. unfold ext. apply Nat.ltb_lt in H. rewrite H. reflexivity. Qed.
Lemma ext_new lab n new j : ext lab n new (n + j) = new j.
Proof.
  unfold ext. assert (H : Nat.ltb (n + j) n = false) by (apply Nat.ltb_ge; lia). rewrite H. f_equal. lia.
Qed.
Lemma nth_error_seq n k j e : nth_error (seq n k) j = Some e -> e = n + j /\ j < k.
Proof.
  intros H. assert (j < k) by (rewrite <- (seq_length k n); apply nth_error_Some; congruence).
  split; [|assumption]. apply nth_error_nth with (d := 0) in H. rewrite seq_nth in H by assumption. auto.
Qed.

Lemma fresh_spec lab s k new : P lab s ->
  let s' := fst (fresh s k) in let t := snd (fresh s k) in
  let lab' := ext lab (uf_n (f_uf s)) new in
  P lab' s' /\ later s s' /\ agree s lab lab' /\ valid s' t /\ length t = k /\
  (forall j e, nth_error t j = Some e -> lab' e = new j).
Proof.
  intros [HI HS]. cbn. split; [split|].
  - apply (inv_new (f_uf s) k HI).
  - cbn. intros a b Ha Hb Hab. change (eqv (f_uf s) a b) in Hab.
    destruct (le_lt_dec (uf_n (f_uf s)) a) as [Ga|Ga].
    { rewrite (eqv_new _ a b HI Ga Hab). apply rst_refl. }
    destruct (le_lt_dec (uf_n (f_uf s)) b) as [Gb|Gb].
    { apply (proj1 (proj2 (eqv_equiv _ HI))) in Hab. rewrite (eqv_new _ b a HI Gb Hab). apply rst_refl. }
    rewrite !ext_old by assumption. apply HS; assumption.
  - split; [repeat split; cbn; auto; lia|]. split; [intros e He; apply ext_old; exact He|].
    split; [intros e He; apply in_seq in He; cbn; lia|]. split; [apply seq_length|].
    intros j e H. apply nth_error_seq in H as [-> _]. apply ext_new.
Qed.

Lemma expand_pairs_in t r new a b :
  In (a, b) (flat_map (fun i => map (fun j => (nth i t 0, nth (i * r + j) new 0)) (seq 0 r)) (seq 0 (length t))) <->
  exists i j, i < length t /\ j < r /\ a = nth i t 0 /\ b = nth (i * r + j) new 0.
Proof.
  rewrite in_flat_map. split.
  - intros (i & Hi & H). apply in_map_iff in H as (j & [= <- <-] & Hj). apply in_seq in Hi, Hj.
    exists i, j. repeat split; lia.
  - intros (i & j & Hi & Hj & -> & ->). exists i. split; [apply in_seq; lia|].
    apply in_map_iff. exists j. split; [reflexivity|apply in_seq; lia].
Qed.

Lemma expand_spec lab s t r s' o new : P lab s -> valid s t ->
  (forall k j x, nth_error t k = Some x -> j < r -> C (lab x) (new (k * r + j))) ->
  f_expand s t r = Ok (s', o) ->
  let lab' := ext lab (uf_n (f_uf s)) new in
  P lab' s' /\ later s s' /\ agree s lab lab' /\ valid s' o /\ length o = r * length t /\
  (forall j e, nth_error o j = Some e -> lab' e = new j) /\
  (forall k j x y, nth_error t k = Some x -> j < r -> nth_error o (k * r + j) = Some y -> eqv (f_uf s') x y).
Proof.
  intros HP Vt HC E lab'. unfold f_expand, tensor_expand in E.
  destruct (fresh_spec lab s (r * length t) new HP) as (P1 & L1 & A1 & V1 & Len1 & N1). fold lab' in P1, A1, N1.
  cbn in E. set (nw := seq (uf_n (f_uf s)) (r * length t)) in *.
  set (u1 := {| uf_n := uf_n (f_uf s) + r * length t; uf_parent := uf_parent (f_uf s); uf_subs := uf_subs (f_uf s) |}) in *.
  set (ps := flat_map _ _) in E.
  destruct (union_pairs u1 ps) as [u2|] eqn:Eu; cbn in E; [|discriminate].
  apply Ok_inj in E. injection E as <- <-.
  assert (Hnth : forall i j, i < length t -> j < r -> nth_error nw (i * r + j) = Some (nth (i * r + j) nw 0)).
  { intros i j Hi Hj. apply nth_error_nth'. unfold nw. rewrite seq_length. nia. }
  destruct (pairs_spec lab' ps (fst (fresh s (r * length t))) u2 P1) as (P2 & L2 & N2 & A2); [|exact Eu|].
  { intros a b Hab. apply expand_pairs_in in Hab as (i & j & Hi & Hj & -> & ->).
    assert (Hx : nth_error t i = Some (nth i t 0)) by (apply nth_error_nth'; exact Hi).
    pose proof (Vt _ (nth_error_In _ _ Hx)) as Hx'.
    split; [cbn; lia|]. split; [apply V1; eapply nth_error_In; apply Hnth; assumption|].
    rewrite A1 by exact Hx'. rewrite (N1 (i * r + j)); [|apply Hnth; assumption].
    apply HC; assumption. }
  cbn in N2. split; [|split; [|split; [|split; [|split; [|split]]]]].
  - exact P2.
  - destruct L1 as (a1 & a2 & a3), L2 as (b1 & b2 & b3). cbn in *. repeat split; cbn; [lia|auto].
  - exact A1.
  - intros e He. apply V1 in He. cbn in *. lia.
  - exact Len1.
  - exact N1.
  - intros k j x y Hx Hj Hy. cbn. apply A2. apply expand_pairs_in.
    assert (Hk : k < length t) by (apply nth_error_Some; congruence).
    exists k, j. repeat split; [exact Hk|exact Hj|symmetry; apply nth_error_nth; exact Hx|
      symmetry; apply nth_error_nth; exact Hy].
Qed.

Lemma nth_error_slice {A} (t : list A) m c j : j < c -> nth_error (firstn c (skipn m t)) j = nth_error t (m + j).
Proof.
  intros Hj. revert t. induction m as [|m IH]; intros t; cbn.
  - revert c j Hj. induction t as [|x t IHt]; intros [|c] [|j] Hj; cbn; try reflexivity; try lia. apply IHt. lia.
  - destruct t as [|x t]; [destruct c; destruct j; reflexivity|]. apply IH.
Qed.

Lemma group_spec lab s t groups gt s' : P lab s -> valid s t -> valid s gt -> groups <> 0 ->
  (forall i j x y, nth_error t (i * length gt + j) = Some x -> nth_error gt j = Some y -> C (lab x) (lab y)) ->
  group_union s t groups gt = Ok s' ->
  P lab s' /\ later s s' /\ length gt = length t / groups /\
  (forall a b x y, nth_error t a = Some x -> nth_error t b = Some y ->
     a mod (length t / groups) = b mod (length t / groups) -> eqv (f_uf s') x y).
Proof.
  intros HP Vt Vg Hg HC E. unfold group_union in E.
  destruct (Nat.eqb_spec (groups * length gt) (length t)) as [Hl|Hl]; cbn in E; [|discriminate].
  assert (Hc : length t / groups = length gt) by (rewrite <- Hl, Nat.mul_comm; apply Nat.div_mul; exact Hg).
  rewrite Hc in *. set (c := length gt) in *.
  assert (HF : forall l s0 s1, P lab s0 -> later s s0 ->
     foldM (fun s i => f_union s (firstn ((i + 1) * c - i * c) (skipn (i * c) t)) gt) l s0 = Ok s1 ->
     P lab s1 /\ later s0 s1 /\
     forall i j x y, In i l -> nth_error t (i * c + j) = Some x -> nth_error gt j = Some y -> eqv (f_uf s1) x y).
  { induction l as [|i l IH]; intros s0 s1 P0 L0 E0; cbn [foldM] in E0.
    - apply Ok_inj in E0. subst. split; [exact P0|]. split; [apply later_refl|]. intros ? ? ? ? [].
    - destruct (f_union s0 _ gt) as [s2|] eqn:E2; cbn [bind] in E0; [|discriminate].
      replace ((i + 1) * c - i * c) with c in E2 by lia.
      destruct (union_spec lab s0 (firstn c (skipn (i * c) t)) gt s2 P0) as (P2 & L2 & _ & _ & A2); [| | |exact E2|].
      { intros e He. apply (valid_later _ _ _ L0 Vt). apply In_nth_error in He as [q Hq].
        assert (Hqc : q < c) by (destruct (le_lt_dec c q) as [G|G]; [|exact G];
          assert (nth_error (firstn c (skipn (i * c) t)) q = None) by (apply nth_error_None; rewrite firstn_length; lia); congruence).
        rewrite nth_error_slice in Hq by exact Hqc. eapply nth_error_In; eauto. }
      { apply (valid_later _ _ _ L0 Vg). }
      { intros k x y Hx Hy. assert (k < c) by (apply nth_error_Some; congruence).
        rewrite nth_error_slice in Hx by assumption. eapply HC; eauto. }
      destruct (IH s2 s1 P2 (later_trans _ _ _ L0 L2) E0) as (P3 & L3 & A3).
      split; [exact P3|]. split; [eapply later_trans; eauto|].
      intros i' j x y [<-|Hi] Hx Hy; [|eapply A3; eauto].
      destruct L3 as (_ & _ & M3). apply M3. apply (A2 j); [|exact Hy].
      assert (j < c) by (apply nth_error_Some; congruence). rewrite nth_error_slice by assumption. exact Hx. }
  destruct (HF (seq 0 groups) s s' HP (later_refl s) E) as (P1 & L1 & A1).
  split; [exact P1|]. split; [exact L1|]. split; [reflexivity|].
  assert (HA : forall a x, nth_error t a = Some x -> exists y, nth_error gt (a mod c) = Some y /\ eqv (f_uf s') x y).
  { intros a x Hx. assert (Ha : a < length t) by (apply nth_error_Some; congruence).
    assert (Hc0 : c <> 0) by (intros Hz; rewrite Hz in Hl; lia).
    pose proof (Nat.mod_upper_bound a c Hc0) as Hm. pose proof (Nat.div_mod a c Hc0) as Hd.
    exists (nth (a mod c) gt 0). assert (Hy : nth_error gt (a mod c) = Some (nth (a mod c) gt 0)) by (apply nth_error_nth'; exact Hm).
    split; [exact Hy|]. apply (A1 (a / c) (a mod c)); [|rewrite <- Hx; f_equal; lia|exact Hy].
    apply in_seq. split; [apply Nat.le_0_l|]. cbn. apply Nat.div_lt_upper_bound; [exact Hc0|]. rewrite (Nat.mul_comm c). lia. }
  intros a b x y Hx Hy Hab. destruct (HA a x Hx) as (u & Hu & Exu). destruct (HA b y Hy) as (v & Hv & Eyv).
  rewrite Hab in Hu. assert (u = v) by congruence. subst v.
  eapply (eqv_trans_ lab); [exact P1|exact Exu|]. apply (eqv_sym_ lab); assumption.
Qed.

(** *** One node *)
Variable L : nat -> side -> nat.
Variable i : nat.
Variable nd : cnode.
Hypothesis HD : forall x y, node_dep L i nd x y -> D x y.

Definition labelled (lab : nat -> chan) (t : list nat) (sd : side) : Prop :=
  forall k e, nth_error t k = Some e -> C (lab e) (i, sd, k).
(** What is known about the labels of the tensors handed to the node. *)
Definition in_ok (lab : nat -> chan) (ts : list (list nat)) : Prop :=
  match c_kind nd with
  | KCat => labelled lab (concat ts) SIn
  | KPass => forall t, In t ts -> labelled lab t SRet
  | KEnd => forall t k e, In t ts -> nth_error t k = Some e -> C (lab e) (i, SIn, 0)
  | KInput _ => True
  | _ => forall t, In t ts -> labelled lab t SIn
  end.
(** How the node's tensors relate to the tensors handed to it. *)
Definition out_ok (s : fstate) (ts : list (list nat)) (tr : trip) : Prop :=
  match c_kind nd with
  | KCat => t_in tr = concat ts
  | KPass => ts = [t_ret tr]
  | KEnd => forall t k e e', In t ts -> nth_error t k = Some e -> nth_error (t_in tr) 0 = Some e' -> eqv (f_uf s) e e'
  | KInput _ => True
  | KConv _ _ _ | KBn _ | KGn _ _ | KPassUnion => exists r, ts = t_in tr :: r
  | KBind | KLinear _ _ | KExpand _ => forall t k e e', In t ts -> nth_error t k = Some e -> nth_error (t_in tr) k = Some e' -> eqv (f_uf s) e e'
  end.
Definition own_len (tr : trip) : Prop :=
  L i SIn = length (t_in tr) /\ L i SOut = length (t_out tr) /\ L i SRet = length (t_ret tr).
(** Dependencies inside the node. *)
Definition inner_ok (s : fstate) (tr : trip) : Prop :=
  forall sa a sb b x y, node_dep L i nd (i, sa, a) (i, sb, b) ->
    (forall p, In p (c_prev nd) -> p <> i) ->
    nth_error (tens tr sa) a = Some x -> nth_error (tens tr sb) b = Some y -> eqv (f_uf s) x y.
Definition trip_ok (lab : nat -> chan) (s : fstate) (tr : trip) : Prop :=
  forall sd, valid s (tens tr sd) /\ labelled lab (tens tr sd) sd.

Lemma labelled_agree lab lab' s t sd : agree s lab lab' -> valid s t -> labelled lab t sd -> labelled lab' t sd.
Proof. intros A V H k e He. rewrite A; [apply H; exact He|]. apply V. eapply nth_error_In; eauto. Qed.

Lemma same_trip lab s t : P lab s -> valid s t -> labelled lab t SIn -> keeps_channels (c_kind nd) -> c_kind nd <> KPass ->
  own_len {| t_in := t; t_out := t; t_ret := t |} -> trip_ok lab s {| t_in := t; t_out := t; t_ret := t |}.
Proof.
  intros HP Vt Hl Hk Hnp (L1 & L2 & L3). cbn in *. intros sd. split; [destruct sd; exact Vt|].
  intros k e He. assert (Hkl : k < length t) by (destruct sd; apply nth_error_Some; cbn in He; congruence).
  assert (H1 : C (lab e) (i, SIn, k)) by (apply Hl; destruct sd; exact He).
  assert (H2 : C (i, SIn, k) (i, SOut, k)) by (apply rst_step, HD, dep_keep; [exact Hk|lia]).
  assert (H3 : C (i, SOut, k) (i, SRet, k)) by (apply rst_step, HD, dep_return; [exact Hnp|lia]).
  destruct sd; [exact H1|eapply rst_trans; eauto|]. eapply rst_trans; [exact H1|]. eapply rst_trans; eauto.
Qed.
Lemma mix_trip lab s t o : P lab s -> valid s t -> labelled lab t SIn -> valid s o -> labelled lab o SOut ->
  c_kind nd <> KPass -> own_len {| t_in := t; t_out := o; t_ret := o |} -> trip_ok lab s {| t_in := t; t_out := o; t_ret := o |}.
Proof.
  intros HP Vt Hl Vo Ho Hnp (L1 & L2 & L3). cbn in *. intros [ | | ]; (split; [assumption|]); [exact Hl|exact Ho|].
  intros k e He. cbn in He. assert (Hkl : k < length o) by (apply nth_error_Some; congruence).
  eapply rst_trans; [apply Ho; exact He|]. apply rst_step, HD, dep_return; [exact Hnp|lia].
Qed.

Lemma inner_intro s tr : own_len tr ->
  (forall k x y, keeps_channels (c_kind nd) -> nth_error (t_in tr) k = Some x -> nth_error (t_out tr) k = Some y -> eqv (f_uf s) x y) ->
  (forall r k j x y, c_kind nd = KExpand r -> j < r -> nth_error (t_in tr) k = Some x -> nth_error (t_out tr) (k * r + j) = Some y -> eqv (f_uf s) x y) ->
  (forall groups sd a b x y, grouped_conv (c_kind nd) groups -> sd <> SRet -> nth_error (tens tr sd) a = Some x -> nth_error (tens tr sd) b = Some y ->
     a mod (length (tens tr sd) / groups) = b mod (length (tens tr sd) / groups) -> eqv (f_uf s) x y) ->
  (forall c groups a b x y, c_kind nd = KGn c groups -> nth_error (t_in tr) a = Some x -> nth_error (t_in tr) b = Some y ->
     a mod (length (t_in tr) / groups) = b mod (length (t_in tr) / groups) -> eqv (f_uf s) x y) ->
  (forall k x y, c_kind nd <> KPass -> nth_error (t_out tr) k = Some x -> nth_error (t_ret tr) k = Some y -> eqv (f_uf s) x y) ->
  inner_ok s tr.
Proof.
  intros (L1 & L2 & L3) H1 H2 H3 H4 H5 sa a sb b x y Hd Hp Hx Hy. inversion Hd; subst.
  - exfalso. eapply Hp; eauto.
  - exfalso. match goal with H : c_prev nd = _ |- _ => apply (Hp i); [rewrite H; apply in_or_app; right; left; reflexivity|reflexivity] end.
  - exfalso. eapply Hp; eauto.
  - exfalso. eapply Hp; eauto.
  - eapply H1; eauto.
  - eapply H2; eauto.
  - eapply H3; eauto. destruct sb; cbn [tens] in *; [rewrite <- L1|rewrite <- L2|congruence]; assumption.
  - eapply H4; eauto. rewrite <- L1. assumption.
  - eapply H5; eauto.
Qed.

Definition Step (lab : nat -> chan) (s : fstate) (ts : list (list nat)) (s' : fstate) (tr : trip) : Prop :=
  exists lab', P lab' s' /\ later s s' /\ agree s lab lab' /\ trip_ok lab' s' tr /\
    out_ok s' ts tr /\ inner_ok s' tr.

Lemma step_pass_union lab s ts s' tr io : P lab s -> (forall t, In t ts -> valid s t) ->
  (forall t, In t ts -> labelled lab t SIn) ->
  keeps_channels (c_kind nd) ->
  match c_kind nd with KConv _ _ _ | KBn _ | KPassUnion => True | _ => False end ->
  pass_union s io ts = Ok (s', tr) -> own_len tr -> Step lab s ts s' tr.
Proof.
  intros HP V Hin Hk Hkd E HL. unfold pass_union in E. destruct ts as [|t r]; cbn in E; [discriminate|].
  destruct io as [io|]; cbn in E; [|discriminate].
  destruct (Nat.eqb (fst io) (snd io)); cbn in E; [|discriminate].
  apply Ok_inj in E. injection E as <- <-.
  assert (Vt : valid s t) by (apply V; left; reflexivity).
  exists lab. split; [exact HP|]. split; [apply later_refl|]. split; [apply agree_refl|]. split; [|split].
  - apply same_trip; auto. { apply Hin. left. reflexivity. } { intros Ek. rewrite Ek in Hkd. exact Hkd. }
  - unfold out_ok. destruct (c_kind nd); try contradiction; cbn; eauto.
  - apply inner_intro; [exact HL| | | | |].
    + intros k x y _ Hx Hy. cbn in *. assert (x = y) by congruence. subst y. apply (eqv_refl_ lab). exact HP.
    + intros r0 k j x y Ek. rewrite Ek in Hkd. contradiction.
    + intros groups sd a b x y Hg. exfalso. destruct (c_kind nd) eqn:Ek; try contradiction. cbn in Hg, Hk. destruct Hg as (-> & _ & Hg). contradiction.
    + intros c groups a b x y Ek. rewrite Ek in Hkd. contradiction.
    + intros k x y _ Hx Hy. cbn in *. assert (x = y) by congruence. subst y. apply (eqv_refl_ lab). exact HP.
Qed.

Lemma step_mix lab s ts s' tr cout : P lab s -> (forall t, In t ts -> valid s t) ->
  (forall t, In t ts -> labelled lab t SIn) ->
  match c_kind nd with KConv _ _ g => g = 1 | KLinear _ _ => True | _ => False end ->
  mix s cout ts = Ok (s', tr) -> own_len tr -> Step lab s ts s' tr.
Proof.
  intros HP V Hin Hkd E HL. unfold mix in E. destruct ts as [|t [|? ?]]; cbn in E; try discriminate.
  apply Ok_inj in E. injection E as <- <-.
  assert (Vt : valid s t) by (apply V; left; reflexivity).
  pose proof (Hin t (or_introl eq_refl)) as Ht.
  destruct (fresh_spec lab s cout (fun j => (i, SOut, j)) HP) as (P1 & L1 & A1 & V1 & Len1 & N1).
  set (lab' := ext lab (uf_n (f_uf s)) _) in *.
  set (s1 := fst (fresh s cout)) in *. set (o := snd (fresh s cout)) in *.
  change (Step lab s [t] s1 {| t_in := t; t_out := o; t_ret := o |}).
  exists lab'. split; [exact P1|]. split; [exact L1|]. split; [exact A1|]. split; [|split].
  - apply mix_trip; auto.
    + eapply valid_later; eauto.
    + eapply labelled_agree; eauto.
    + intros k e He. rewrite (N1 k e He). apply rst_refl.
    + intros Ek. rewrite Ek in Hkd. exact Hkd.
  - unfold out_ok. destruct (c_kind nd); try contradiction; cbn [t_in]; eauto.
    intros t' k e e' [<-|[]] He He'. assert (e = e') by congruence. subst e'. apply (eqv_refl_ lab'). exact P1.
  - apply inner_intro; [exact HL| | | | |].
    + intros k x y Hk. exfalso. destruct (c_kind nd); try contradiction. cbn in Hk. destruct Hk as [H _]. congruence.
    + intros r0 k j x y Ek. rewrite Ek in Hkd. contradiction.
    + intros groups sd a b x y Hg. exfalso. destruct (c_kind nd) eqn:Ek; try contradiction. cbn in Hg. destruct Hg as (-> & H & _). contradiction.
    + intros c groups a b x y Ek. rewrite Ek in Hkd. contradiction.
    + intros k x y _ Hx Hy. cbn in Hx, Hy. assert (x = y) by congruence. subst y. apply (eqv_refl_ lab'). exact P1.
Qed.

Lemma step_bind lab t : forall r s s', P lab s -> valid s t -> (forall t', In t' r -> valid s t') ->
  labelled lab t SIn -> (forall t', In t' r -> labelled lab t' SIn) ->
  foldM (fun s t' => f_union s t t') r s = Ok s' ->
  P lab s' /\ later s s' /\
  forall t' k e e', In t' r -> nth_error t' k = Some e -> nth_error t k = Some e' -> eqv (f_uf s') e e'.
Proof.
  induction r as [|t1 r IH]; intros s s' HP Vt Vr Ht Hr E; cbn in E.
  - apply Ok_inj in E. subst. split; [exact HP|]. split; [apply later_refl|]. intros ? ? ? ? [].
  - destruct (f_union s t t1) as [s1|] eqn:E1; cbn in E; [|discriminate].
    destruct (union_spec lab s t t1 s1 HP Vt) as (P1 & L1 & _ & _ & A1); [apply Vr; left; reflexivity| |exact E1|].
    { intros k x y Hx Hy. eapply rst_trans; [apply Ht; exact Hx|]. apply rst_sym. apply (Hr t1 (or_introl eq_refl)). exact Hy. }
    destruct (IH s1 s' P1) as (P2 & L2 & A2); auto.
    { eapply valid_later; eauto. }
    { intros t' H'. eapply valid_later; [exact L1|]. apply Vr. right. exact H'. }
    { intros t' H'. apply Hr. right. exact H'. }
    split; [exact P2|]. split; [eapply later_trans; eauto|].
    intros t' k e e' [<-|H'] He He'; [|eapply A2; eauto].
    destruct L2 as (_ & _ & M2). apply M2. apply (eqv_sym_ lab); [exact P1|]. eapply A1; eauto.
Qed.

Lemma step_end : forall ts lab s s' e, P lab s -> valid s [e] -> (forall t, In t ts -> valid s t) ->
  lab e = (i, SIn, 0) -> (forall t k x, In t ts -> nth_error t k = Some x -> C (lab x) (i, SIn, 0)) ->
  foldM (fun s t => do se <- f_expand s [e] (length t); f_union (fst se) t (snd se)) ts s = Ok s' ->
  exists lab', P lab' s' /\ later s s' /\ agree s lab lab' /\
  forall t k x, In t ts -> nth_error t k = Some x -> eqv (f_uf s') x e.
Proof.
  induction ts as [|t ts IH]; intros lab s s' e HP Ve Vts He Hts E; cbn [foldM] in E.
  - apply Ok_inj in E. subst. exists lab. split; [exact HP|]. split; [apply later_refl|]. split; [apply agree_refl|]. intros ? ? ? [].
  - destruct (f_expand s [e] (length t)) as [[s1 o]|] eqn:E1; cbn [bind] in E; [|discriminate].
    cbn [fst snd] in E.
    destruct (f_union s1 t o) as [s2|] eqn:E2; cbn [bind] in E; [|discriminate].
    destruct (expand_spec lab s [e] (length t) s1 o (fun _ => (i, SIn, 0)) HP Ve) as (P1 & L1 & A1 & V1 & Len1 & N1 & X1); [|exact E1|].
    { intros [|[|k]] j x Hx _; cbn in Hx; try discriminate. injection Hx as <-. rewrite He. apply rst_refl. }
    set (lab1 := ext lab _ _) in *.
    assert (Vt : valid s t) by (apply Vts; left; reflexivity).
    destruct (union_spec lab1 s1 t o s2 P1) as (P2 & L2 & _ & Len2 & A2).
    { eapply valid_later; eauto. } { exact V1. }
    { intros k x y Hx Hy. rewrite (N1 k y Hy). rewrite A1 by (apply Vt; eapply nth_error_In; eauto).
      eapply Hts; [left; reflexivity|exact Hx]. }
    { exact E2. }
    pose proof (later_trans _ _ _ L1 L2) as L12.
    destruct (IH lab1 s2 s' e P2) as (lab' & P3 & L3 & A3 & X3).
    { eapply valid_later; eauto. }
    { intros t' H'. eapply valid_later; [exact L12|]. apply Vts. right. exact H'. }
    { rewrite A1; [exact He|]. apply Ve. left. reflexivity. }
    { intros t' k x H' Hx. rewrite A1; [eapply Hts; [right; exact H'|exact Hx]|].
      eapply Vts; [right; exact H'|]. eapply nth_error_In; eauto. }
    { exact E. }
    exists lab'. split; [exact P3|]. split; [eapply later_trans; eauto|]. split; [eapply agree_trans; [exact L12|exact A1|exact A3]|].
    intros t' k x [<-|H'] Hx; [|eapply X3; eauto].
    destruct L3 as (_ & _ & M3). apply M3.
    assert (Hk : k < length t) by (apply nth_error_Some; congruence).
    assert (Ho : nth_error o k = Some (nth k o 0)) by (apply nth_error_nth'; lia).
    eapply (eqv_trans_ lab1); [exact P2|eapply A2; eauto|].
    apply (eqv_sym_ lab1); [exact P2|]. destruct L2 as (_ & _ & M2). apply M2.
    apply (X1 0 k e); [reflexivity|exact Hk|exact Ho].
Qed.

Lemma step_gw lab s t s' tr cin cout groups : c_kind nd = KConv cin cout groups ->
  groups <> 1 -> ~ depthwise cin cout groups -> P lab s -> valid s t -> labelled lab t SIn ->
  (do s1 <- group_union_fresh s t groups;
   let '(s2, o) := fresh s1 cout in
   do s3 <- group_union_fresh s2 o groups;
   Ok (s3, {| t_in := t; t_out := o; t_ret := o |})) = Ok (s', tr) -> own_len tr -> Step lab s [t] s' tr.
Proof.
  intros Ek Hg1 Hdw HP Vt Ht E HL. unfold group_union_fresh in E.
  destruct (Nat.eqb_spec groups 0) as [|Hg0]; [discriminate|].
  destruct (group_union (fst (fresh s (length t / groups))) t groups (snd (fresh s (length t / groups)))) as [s1|] eqn:E1;
    cbn [bind fresh fst snd] in E, E1; rewrite E1 in E; cbn [bind] in E; [|discriminate].
  set (o := snd (new_tensor (f_uf s1) cout)) in *.
  set (s2 := fst (fresh s1 cout)) in *.
  change ({| f_uf := fst (new_tensor (f_uf s1) cout); f_base := f_base s1 ++ repeat (uf_n (f_uf s1)) cout; f_nodes := f_nodes s1 |}) with s2 in E.
  destruct (group_union (fst (fresh s2 (length o / groups))) o groups (snd (fresh s2 (length o / groups)))) as [s3|] eqn:E3;
    cbn [bind fresh fst snd] in E, E3; rewrite E3 in E; cbn [bind] in E; [|discriminate].
  apply Ok_inj in E. injection E as <- <-. destruct HL as (HL1 & HL2 & HL3). cbn [t_in t_out t_ret] in HL1, HL2, HL3.
  assert (Gk : grouped_conv (c_kind nd) groups) by (rewrite Ek; cbn; auto).
  (* the input side *)
  destruct (fresh_spec lab s (length t / groups) (fun j => (i, SIn, j)) HP) as (P0 & L0 & A0 & V0 & Len0 & N0).
  set (lab0 := ext lab _ _) in *. set (gt := snd (fresh s (length t / groups))) in *.
  destruct (group_spec lab0 (fst (fresh s (length t / groups))) t groups gt s1 P0) as (P1 & L1 & C1 & X1);
    [eapply valid_later; eauto|exact V0|exact Hg0| |exact E1|].
  { intros q j x y Hx Hy. rewrite A0 by (apply Vt; eapply nth_error_In; eauto). rewrite (N0 j y Hy).
    assert (Hj : j < length gt) by (apply nth_error_Some; congruence).
    assert (Hq : q * length gt + j < length t) by (apply nth_error_Some; congruence).
    eapply rst_trans; [apply Ht; exact Hx|]. apply rst_step, HD. apply (dep_group L i nd groups SIn); [exact Gk|discriminate|lia|lia|].
    rewrite HL1, <- Len0. rewrite (Nat.add_comm (q * _)). rewrite Nat.mod_add by lia. reflexivity. }
  (* the output side *)
  destruct (fresh_spec lab0 s1 cout (fun j => (i, SOut, j)) P1) as (P2 & L2 & A2 & V2 & Len2 & N2).
  set (lab2 := ext lab0 _ _) in *. change (fst (fresh s1 cout)) with s2 in P2, L2, V2. change (snd (fresh s1 cout)) with o in V2, Len2, N2.
  destruct (fresh_spec lab2 s2 (length o / groups) (fun j => (i, SOut, j)) P2) as (P3 & L3 & A3 & V3 & Len3 & N3).
  set (lab3 := ext lab2 _ _) in *. set (go := snd (fresh s2 (length o / groups))) in *.
  assert (Ho3 : forall k e, nth_error o k = Some e -> lab3 e = (i, SOut, k)).
  { intros k e He. rewrite A3 by (apply V2; eapply nth_error_In; eauto). apply N2. exact He. }
  destruct (group_spec lab3 (fst (fresh s2 (length o / groups))) o groups go s3 P3) as (P4 & L4 & C4 & X4);
    [eapply valid_later; [exact L3|exact V2]|exact V3|exact Hg0| |exact E3|].
  { intros q j x y Hx Hy. rewrite (N3 j y Hy), (Ho3 _ _ Hx).
    assert (Hj : j < length go) by (apply nth_error_Some; congruence).
    assert (Hq : q * length go + j < length o) by (apply nth_error_Some; congruence).
    apply rst_step, HD. apply (dep_group L i nd groups SOut); [exact Gk|discriminate|lia|lia|].
    rewrite HL2, <- Len3. rewrite (Nat.add_comm (q * _)). rewrite Nat.mod_add by lia. reflexivity. }
  pose proof (later_trans _ _ _ L0 L1) as L01. pose proof (later_trans _ _ _ L2 (later_trans _ _ _ L3 L4)) as L24.
  pose proof (later_trans _ _ _ L01 L24) as L04.
  assert (A04 : agree s lab lab3).
  { eapply agree_trans; [exact L01| |].
    - exact A0.
    - eapply agree_trans; [exact L2|exact A2|exact A3]. }
  exists lab3. split; [exact P4|]. split; [exact L04|]. split; [exact A04|]. split; [|split].
  - apply mix_trip; [exact P4|eapply valid_later; eauto| | | | |repeat split; assumption].
    + eapply labelled_agree; eauto.
    + eapply valid_later; [|exact V2]. eapply later_trans; eauto.
    + intros k e He. rewrite (Ho3 k e He). apply rst_refl.
    + rewrite Ek. discriminate.
  - unfold out_ok. rewrite Ek. cbn. eauto.
  - apply inner_intro; [repeat split; assumption| | | | |].
    + intros k x y Hk. rewrite Ek in Hk. contradiction.
    + intros r0 k j x y H. rewrite Ek in H. discriminate.
    + intros groups' sd a b x y Hg' Hsd Hx Hy Hm. rewrite Ek in Hg'. destruct Hg' as (<- & _).
      destruct sd; cbn [tens t_in t_out] in *; [|eapply X4; eauto|congruence].
      destruct L24 as (_ & _ & M). apply M. eapply X1; eauto.
    + intros c groups' a b x y H. rewrite Ek in H. discriminate.
    + intros k x y _ Hx Hy. cbn in *. assert (x = y) by congruence. subst y. apply (eqv_refl_ lab3). exact P4.
Qed.

Lemma cf_spec lab s ts s' tr io : P lab s -> (forall t, In t ts -> valid s t) -> in_ok lab ts ->
  channel_forward s (c_kind nd) io ts = Ok (s', tr) -> own_len tr -> Step lab s ts s' tr.
Proof.
  intros HP V Hin E HL. unfold in_ok in Hin. destruct (c_kind nd) as [cin cout groups|cin cout|c|c groups| | | | |r|c|] eqn:Ek;
    cbn [channel_forward] in E.
  - unfold conv_type_of in E. destruct (Nat.eqb_spec groups 1) as [->|Hg].
    { eapply step_mix; eauto. rewrite Ek. reflexivity. }
    destruct (Nat.eqb_spec cin cout) as [->|Hc]; cbn [andb] in E.
    + destruct (Nat.eqb_spec cout groups) as [->|Hc].
      * eapply step_pass_union; eauto; rewrite Ek; cbn; [repeat split; auto|exact I].
      * destruct ts as [|t [|? ?]]; try discriminate. eapply step_gw; eauto; [intros (_ & _ & H); contradiction|apply V; left; reflexivity|apply Hin; left; reflexivity].
    + destruct ts as [|t [|? ?]]; try discriminate. eapply step_gw; eauto; [intros (_ & H & _); contradiction|apply V; left; reflexivity|apply Hin; left; reflexivity].
  - eapply step_mix; eauto. rewrite Ek. exact I.
  - eapply step_pass_union; eauto; rewrite Ek; exact I.
  - (* GroupNorm *)
    destruct (pass_union s io ts) as [[s1 tr1]|] eqn:Ep; cbn [bind] in E; [|discriminate].
    unfold pass_union in Ep. destruct ts as [|t r]; cbn in Ep; [discriminate|].
    destruct io as [io|]; cbn in Ep; [|discriminate].
    destruct (Nat.eqb (fst io) (snd io)); cbn in Ep; [|discriminate].
    apply Ok_inj in Ep. injection Ep as <- <-. cbn [t_ret] in E.
    destruct (Nat.eqb_spec groups 0) as [|Hg0]; [discriminate|].
    set (gt := snd (fresh s (c / groups))) in *.
    destruct (group_union (fst (fresh s (c / groups))) t groups gt) as [s3|] eqn:E3;
      cbn [bind fresh fst snd] in E, E3; fold gt in E, E3; cbn [fresh snd] in gt; unfold gt in E, E3; rewrite E3 in E; cbn [bind] in E; [|discriminate].
    apply Ok_inj in E. injection E as <- <-.
    assert (Vt : valid s t) by (apply V; left; reflexivity).
    pose proof (Hin t (or_introl eq_refl)) as Ht.
    pose proof HL as (HL1 & HL2 & HL3). cbn [t_in t_out t_ret] in HL1, HL2, HL3.
    destruct (fresh_spec lab s (c / groups) (fun j => (i, SIn, j)) HP) as (P0 & L0 & A0 & V0 & Len0 & N0).
    set (lab0 := ext lab _ _) in *. change (snd (fresh s (c / groups))) with gt in *.
    assert (Hc : groups * length gt = length t).
    { unfold group_union in E3. destruct (Nat.eqb_spec (groups * length (snd (new_tensor (f_uf s) (c / groups)))) (length t)) as [H|H]; [exact H|discriminate]. }
    assert (Hdiv : length t / groups = length gt) by (rewrite <- Hc, Nat.mul_comm; apply Nat.div_mul; exact Hg0).
    destruct (group_spec lab0 (fst (fresh s (c / groups))) t groups gt s3 P0) as (P1 & L1 & C1 & X1);
      [eapply valid_later; eauto|exact V0|exact Hg0| |exact E3|].
    { intros q j x y Hx Hy. rewrite A0 by (apply Vt; eapply nth_error_In; eauto). rewrite (N0 j y Hy).
      assert (Hj : j < length gt) by (apply nth_error_Some; congruence).
      assert (Hq : q * length gt + j < length t) by (apply nth_error_Some; congruence).
      eapply rst_trans; [apply Ht; exact Hx|]. apply rst_step, HD. apply (dep_norm L i nd c groups); [exact Ek|lia|lia|].
      rewrite HL1, Hdiv. rewrite (Nat.add_comm (q * _)). rewrite Nat.mod_add by lia. reflexivity. }
    pose proof (later_trans _ _ _ L0 L1) as L01.
    exists lab0. split; [exact P1|]. split; [exact L01|]. split; [exact A0|]. split; [|split].
    + apply same_trip; auto; [eapply valid_later; eauto|eapply labelled_agree; eauto|rewrite Ek; exact I|rewrite Ek; discriminate].
    + unfold out_ok. rewrite Ek. cbn. eauto.
    + apply inner_intro; [exact HL| | | | |].
      * intros k x y _ Hx Hy. cbn in *. assert (x = y) by congruence. subst y. apply (eqv_refl_ lab0). exact P1.
      * intros r0 k j x y H. rewrite Ek in H. discriminate.
      * intros groups' sd a b x y H. rewrite Ek in H. contradiction.
      * intros c' groups' a b x y H. rewrite Ek in H. injection H as <- <-. cbn [t_in]. apply X1.
      * intros k x y _ Hx Hy. cbn in *. assert (x = y) by congruence. subst y. apply (eqv_refl_ lab0). exact P1.
  - (* Pass *)
    destruct ts as [|t [|? ?]]; try discriminate.
    assert (Vt : valid s t) by (apply V; left; reflexivity).
    pose proof (Hin t (or_introl eq_refl)) as Ht.
    destruct (fresh_spec lab s 1 (fun j => (i, SIn, j)) HP) as (P1 & L1 & A1 & V1 & Len1 & N1).
    set (lab1 := ext lab _ _) in *. set (s1 := fst (fresh s 1)) in *. set (a := snd (fresh s 1)) in *.
    destruct (fresh_spec lab1 s1 1 (fun j => (i, SOut, j)) P1) as (P2 & L2 & A2 & V2 & Len2 & N2).
    set (lab2 := ext lab1 _ _) in *. set (s2 := fst (fresh s1 1)) in *. set (b := snd (fresh s1 1)) in *.
    change (Ok (s2, {| t_in := a; t_out := b; t_ret := t |}) = Ok (s', tr)) in E.
    apply Ok_inj in E. injection E as <- <-.
    pose proof (later_trans _ _ _ L1 L2) as L12.
    assert (A12 : agree s lab lab2) by exact (agree_trans _ _ _ _ _ L1 A1 A2).
    exists lab2. split; [exact P2|]. split; [exact L12|]. split; [exact A12|]. split; [|split].
    + intros [ | | ]; cbn [tens t_in t_out t_ret].
      * split; [apply (valid_later _ _ _ L2 V1)|]. intros k e He. rewrite A2 by (apply V1; eapply nth_error_In; eauto). rewrite (N1 k e He). apply rst_refl.
      * split; [exact V2|]. intros k e He. rewrite (N2 k e He). apply rst_refl.
      * split; [eapply valid_later; eauto|]. eapply labelled_agree; eauto.
    + unfold out_ok. rewrite Ek. reflexivity.
    + apply inner_intro; [exact HL| | | | |].
      * intros k x y H. rewrite Ek in H. contradiction.
      * intros r0 k j x y H. rewrite Ek in H. discriminate.
      * intros groups' sd a0 b0 x y H. rewrite Ek in H. contradiction.
      * intros c' groups' a0 b0 x y H. rewrite Ek in H. discriminate.
      * intros k x y H. rewrite Ek in H. congruence.
  - eapply step_pass_union; eauto; rewrite Ek; exact I.
  - (* Bind *)
    destruct ts as [|t r]; [discriminate|].
    destruct (foldM _ r s) as [s1|] eqn:E1; cbn [bind] in E; [|discriminate].
    apply Ok_inj in E. injection E as <- <-.
    assert (Vt : valid s t) by (apply V; left; reflexivity).
    destruct (step_bind lab t r s s1 HP Vt) as (P1 & L1 & X1); [intros t' H'; apply V; right; exact H'|apply Hin; left; reflexivity|intros t' H'; apply Hin; right; exact H'|exact E1|].
    exists lab. split; [exact P1|]. split; [exact L1|]. split; [apply agree_refl|]. split; [|split].
    + apply same_trip; auto; [eapply valid_later; eauto|apply Hin; left; reflexivity|rewrite Ek; exact I|rewrite Ek; discriminate].
    + unfold out_ok. rewrite Ek. cbn [t_in]. intros t' k e e' [<-|H'] He He'.
      * assert (e = e') by congruence. subst e'. apply (eqv_refl_ lab). exact P1.
      * eapply X1; eauto.
    + apply inner_intro; [exact HL| | | | |].
      * intros k x y _ Hx Hy. cbn in *. assert (x = y) by congruence. subst y. apply (eqv_refl_ lab). exact P1.
      * intros r0 k j x y H. rewrite Ek in H. discriminate.
      * intros groups' sd a0 b0 x y H. rewrite Ek in H. contradiction.
      * intros c' groups' a0 b0 x y H. rewrite Ek in H. discriminate.
      * intros k x y _ Hx Hy. cbn in *. assert (x = y) by congruence. subst y. apply (eqv_refl_ lab). exact P1.
  - (* Cat *)
    apply Ok_inj in E. injection E as <- <-.
    assert (Vt : valid s (concat ts)).
    { intros e He. apply in_concat in He as (t & Ht & He). eapply V; eauto. }
    exists lab. split; [exact HP|]. split; [apply later_refl|]. split; [apply agree_refl|]. split; [|split].
    + apply same_trip; auto; [rewrite Ek; exact I|rewrite Ek; discriminate].
    + unfold out_ok. rewrite Ek. reflexivity.
    + apply inner_intro; [exact HL| | | | |].
      * intros k x y _ Hx Hy. cbn [t_in t_out t_ret] in *. assert (x = y) by congruence. subst y. apply (eqv_refl_ lab). exact HP.
      * intros r0 k j x y H. rewrite Ek in H. discriminate.
      * intros groups' sd a0 b0 x y H. rewrite Ek in H. contradiction.
      * intros c' groups' a0 b0 x y H. rewrite Ek in H. discriminate.
      * intros k x y _ Hx Hy. cbn [t_in t_out t_ret] in *. assert (x = y) by congruence. subst y. apply (eqv_refl_ lab). exact HP.
  - (* Expand *)
    destruct ts as [|t [|? ?]]; try discriminate. destruct io as [io|]; cbn [bind] in E; [|discriminate].
    destruct (Nat.leb (fst io) (snd io)); cbn [assert_ bind] in E; [|discriminate].
    destruct (Nat.eqb (fst io) 0); [discriminate|].
    destruct (Nat.eqb (snd io mod fst io) 0); cbn [assert_ bind] in E; [|discriminate].
    destruct (f_expand s t r) as [[s1 o]|] eqn:E1; cbn [bind fst snd] in E; [|discriminate].
    apply Ok_inj in E. injection E as <- <-.
    assert (Vt : valid s t) by (apply V; left; reflexivity).
    pose proof (Hin t (or_introl eq_refl)) as Ht.
    pose proof HL as (HL1 & HL2 & HL3). cbn [t_in t_out t_ret] in HL1, HL2, HL3.
    destruct (expand_spec lab s t r s1 o (fun j => (i, SOut, j)) HP Vt) as (P1 & L1 & A1 & V1 & Len1 & N1 & X1); [|exact E1|].
    { intros k j x Hx Hj. eapply rst_trans; [apply Ht; exact Hx|]. apply rst_step, HD. apply (dep_expand L i nd r); [exact Ek| |exact Hj].
      rewrite HL1. apply nth_error_Some. congruence. }
    set (lab1 := ext lab _ _) in *.
    exists lab1. split; [exact P1|]. split; [exact L1|]. split; [exact A1|]. split; [|split].
    + apply mix_trip; auto; [eapply valid_later; eauto|eapply labelled_agree; eauto| |rewrite Ek; discriminate].
      intros k e He. rewrite (N1 k e He). apply rst_refl.
    + unfold out_ok. rewrite Ek. cbn [t_in]. intros t' k e e' [<-|[]] He He'. assert (e = e') by congruence. subst e'. apply (eqv_refl_ lab1). exact P1.
    + apply inner_intro; [exact HL| | | | |].
      * intros k x y H. rewrite Ek in H. contradiction.
      * intros r0 k j x y H Hj Hx Hy. rewrite Ek in H. injection H as <-. eapply X1; eauto.
      * intros groups' sd a0 b0 x y H. rewrite Ek in H. contradiction.
      * intros c' groups' a0 b0 x y H. rewrite Ek in H. discriminate.
      * intros k x y _ Hx Hy. cbn [t_in t_out t_ret] in *. assert (x = y) by congruence. subst y. apply (eqv_refl_ lab1). exact P1.
  - (* Input *)
    destruct (fresh_spec lab s c (fun j => (i, SIn, j)) HP) as (P1 & L1 & A1 & V1 & Len1 & N1).
    set (lab1 := ext lab _ _) in *. set (s1 := fst (fresh s c)) in *. set (a := snd (fresh s c)) in *.
    change (Ok (s1, {| t_in := a; t_out := a; t_ret := a |}) = Ok (s', tr)) in E.
    apply Ok_inj in E. injection E as <- <-.
    exists lab1. split; [exact P1|]. split; [exact L1|]. split; [exact A1|]. split; [|split].
    + apply same_trip; auto; [|rewrite Ek; exact I|rewrite Ek; discriminate]. intros k e He. rewrite (N1 k e He). apply rst_refl.
    + unfold out_ok. rewrite Ek. exact I.
    + apply inner_intro; [exact HL| | | | |].
      * intros k x y _ Hx Hy. cbn [t_in t_out t_ret] in *. assert (x = y) by congruence. subst y. apply (eqv_refl_ lab1). exact P1.
      * intros r0 k j x y H. rewrite Ek in H. discriminate.
      * intros groups' sd a0 b0 x y H. rewrite Ek in H. contradiction.
      * intros c' groups' a0 b0 x y H. rewrite Ek in H. discriminate.
      * intros k x y _ Hx Hy. cbn [t_in t_out t_ret] in *. assert (x = y) by congruence. subst y. apply (eqv_refl_ lab1). exact P1.
  - (* End *)
    destruct (fresh_spec lab s 1 (fun j => (i, SIn, j)) HP) as (P1 & L1 & A1 & V1 & Len1 & N1).
    set (lab1 := ext lab _ _) in *. set (s1 := fst (fresh s 1)) in *.
    change (snd (fresh s 1)) with [uf_n (f_uf s)] in *. set (e := uf_n (f_uf s)) in *.
    change ((do s2 <- foldM (fun s t => do se <- f_expand s [e] (length t); f_union (fst se) t (snd se)) ts s1;
      Ok (s2, {| t_in := [e]; t_out := [e]; t_ret := [e] |})) = Ok (s', tr)) in E.
    destruct (foldM _ ts s1) as [s2|] eqn:E2; cbn [bind] in E; [|discriminate].
    apply Ok_inj in E. injection E as <- <-.
    destruct (step_end ts lab1 s1 s2 e P1 V1) as (lab2 & P2 & L2 & A2 & X2); [| | |exact E2|].
    { intros t Ht. eapply valid_later; [exact L1|]. apply V. exact Ht. }
    { apply (N1 0). reflexivity. }
    { intros t k x Ht Hx. rewrite A1 by (eapply V; [exact Ht|eapply nth_error_In; eauto]). eapply Hin; eauto. }
    assert (A12 : agree s lab lab2) by exact (agree_trans _ _ _ _ _ L1 A1 A2).
    exists lab2. split; [exact P2|]. split; [eapply later_trans; eauto|]. split; [exact A12|]. split; [|split].
    + apply same_trip; auto; [eapply valid_later; eauto| |rewrite Ek; exact I|rewrite Ek; discriminate].
      intros k x Hx. rewrite A2 by (apply V1; eapply nth_error_In; eauto). rewrite (N1 k x Hx). apply rst_refl.
    + unfold out_ok. rewrite Ek. cbn [t_in]. intros t k x x' Ht Hx Hx'. cbn in Hx'. injection Hx' as <-. eapply X2; eauto.
    + apply inner_intro; [exact HL| | | | |].
      * intros k x y _ Hx Hy. cbn [t_in t_out t_ret] in *. assert (x = y) by congruence. subst y. apply (eqv_refl_ lab2). exact P2.
      * intros r0 k j x y H. rewrite Ek in H. discriminate.
      * intros groups' sd a0 b0 x y H. rewrite Ek in H. contradiction.
      * intros c' groups' a0 b0 x y H. rewrite Ek in H. discriminate.
      * intros k x y _ Hx Hy. cbn [t_in t_out t_ret] in *. assert (x = y) by congruence. subst y. apply (eqv_refl_ lab2). exact P2.
Qed.
End Sound.

(** *** The whole graph *)
Section Whole.
Local Open Scope nat_scope.
Variable g : list cnode.
Variable L : nat -> side -> nat.
Notation D := (dep g L).
Notation C := (clos_refl_sym_trans chan (dep g L)).
Hypothesis Hsingle : single_inputs g.

Definition Good (lab : nat -> chan) (s : fstate) : Prop :=
  P D lab s /\
  (forall j, j < length (f_nodes s) -> trip_ok D j lab s (trip_of s j)) /\
  (forall j nd x y ex ey, j < length (f_nodes s) -> nth_error g j = Some nd -> node_dep L j nd x y ->
     elem_of s x ex -> elem_of s y ey -> eqv (f_uf s) ex ey) /\
  (forall j nd p, j < length (f_nodes s) -> nth_error g j = Some nd -> In p (c_prev nd) -> p < j).
Definition fits (s : fstate) : Prop :=
  forall j sd, j < length (f_nodes s) -> L j sd = length (tens (trip_of s j) sd).

Lemma trip_of_add s tr j : j < length (f_nodes s) -> trip_of (add_trip s tr) j = trip_of s j.
Proof. intros H. unfold trip_of. cbn. apply app_nth1. exact H. Qed.
Lemma trip_of_last s tr : trip_of (add_trip s tr) (length (f_nodes s)) = tr.
Proof. unfold trip_of. cbn. rewrite app_nth2 by lia. rewrite Nat.sub_diag. reflexivity. Qed.
Lemma trip_of_nodes s s' j : f_nodes s' = f_nodes s -> trip_of s' j = trip_of s j.
Proof. intros H. unfold trip_of. rewrite H. reflexivity. Qed.

Lemma rets_spec s : forall ps ts, mapM (ret_of s) ps = Ok ts ->
  Forall2 (fun p t => p < length (f_nodes s) /\ t = t_ret (trip_of s p)) ps ts.
Proof.
  induction ps as [|p ps IH]; intros ts E; cbn in E.
  - apply Ok_inj in E. subst. constructor.
  - unfold ret_of at 1 in E. destruct (nth_error (f_nodes s) p) as [tr|] eqn:Et; cbn in E; [|discriminate].
    destruct (mapM (ret_of s) ps) as [ts'|] eqn:Em; cbn in E; [|discriminate]. apply Ok_inj in E. subst ts.
    constructor; [|apply IH; reflexivity]. split; [apply nth_error_Some; congruence|].
    unfold trip_of. rewrite (nth_error_nth _ _ _ Et). reflexivity.
Qed.
Lemma Forall2_In_r {A B} (R : A -> B -> Prop) l l' y : Forall2 R l l' -> In y l' -> exists x, In x l /\ R x y.
Proof. intros H. induction H; intros []; [subst; eauto using in_eq|]. destruct (IHForall2 H1) as (z & ? & ?). eauto using in_cons. Qed.
Lemma Forall2_In_l {A B} (R : A -> B -> Prop) l l' x : Forall2 R l l' -> In x l -> exists y, In y l' /\ R x y.
Proof. intros H. induction H; intros []; [subst; eauto using in_eq|]. destruct (IHForall2 H1) as (z & ? & ?). eauto using in_cons. Qed.

Lemma concat_nth s : forall ps ts, Forall2 (fun p t => p < length (f_nodes s) /\ t = t_ret (trip_of s p)) ps ts ->
  forall k e, nth_error (concat ts) k = Some e ->
  exists l1 p l2 k', ps = l1 ++ p :: l2 /\ p < length (f_nodes s) /\
    k = list_sum (map (fun q => length (t_ret (trip_of s q))) l1) + k' /\ nth_error (t_ret (trip_of s p)) k' = Some e.
Proof.
  intros ps ts H. induction H as [|p t ps ts (Hp & ->) H IH]; intros k e He; cbn in He; [destruct k; discriminate|].
  destruct (le_lt_dec (length (t_ret (trip_of s p))) k) as [Hk|Hk].
  - rewrite nth_error_app2 in He by exact Hk. destruct (IH _ _ He) as (l1 & q & l2 & k' & -> & Hq & Ek & Hn).
    exists (p :: l1), q, l2, k'. repeat split; auto. cbn. unfold list_sum in Ek. lia.
  - rewrite nth_error_app1 in He by exact Hk. exists [], p, ps, k. repeat split; auto.
Qed.
Lemma concat_nth_back s : forall l1 p l2 ts, Forall2 (fun p t => p < length (f_nodes s) /\ t = t_ret (trip_of s p)) (l1 ++ p :: l2) ts ->
  forall k e, nth_error (t_ret (trip_of s p)) k = Some e ->
  nth_error (concat ts) (list_sum (map (fun q => length (t_ret (trip_of s q))) l1) + k) = Some e.
Proof.
  induction l1 as [|q l1 IH]; intros p l2 ts H k e He; inversion H as [|? ? ? ? (Hq & ->) Hr]; subst; cbn.
  - rewrite nth_error_app1; [exact He|]. apply nth_error_Some. congruence.
  - rewrite nth_error_app2 by (cbn; lia).
    match goal with |- nth_error _ ?n = _ => replace n with (list_sum (map (fun q => length (t_ret (trip_of s q))) l1) + k) by (unfold list_sum; lia) end.
    eapply IH; eauto.
Qed.

Lemma union_nodes s a b s' : f_union s a b = Ok s' -> f_nodes s' = f_nodes s.
Proof. unfold f_union. destruct (tensor_union _ a b); cbn; [intros [= <-]; reflexivity|discriminate]. Qed.
Lemma foldM_nodes {B} (f : fstate -> B -> outcome fstate) :
  (forall s x s', f s x = Ok s' -> f_nodes s' = f_nodes s) ->
  forall l s s', foldM f l s = Ok s' -> f_nodes s' = f_nodes s.
Proof.
  intros H. induction l as [|x l IH]; intros s s' E; cbn in E; [apply Ok_inj in E; congruence|].
  destruct (f s x) as [s1|] eqn:E1; cbn in E; [|discriminate]. rewrite (IH _ _ E). eapply H; eauto.
Qed.
Lemma group_nodes s t groups gt s' : group_union s t groups gt = Ok s' -> f_nodes s' = f_nodes s.
Proof.
  unfold group_union. destruct (assert_ _); cbn [bind]; [|discriminate].
  apply foldM_nodes. intros ? ? ?. apply union_nodes.
Qed.
Lemma group_fresh_nodes s t groups s' : group_union_fresh s t groups = Ok s' -> f_nodes s' = f_nodes s.
Proof.
  unfold group_union_fresh. destruct (Nat.eqb groups 0); [discriminate|]. cbn [fresh].
  intros E. apply group_nodes in E. exact E.
Qed.
Lemma pass_union_nodes s io ts s' tr : pass_union s io ts = Ok (s', tr) -> f_nodes s' = f_nodes s.
Proof.
  unfold pass_union. destruct (hd_tensor ts); cbn; [|discriminate]. destruct io; cbn; [|discriminate].
  destruct (assert_ _); cbn; [|discriminate]. intros [= <- _]. reflexivity.
Qed.
Lemma mix_nodes s c ts s' tr : mix s c ts = Ok (s', tr) -> f_nodes s' = f_nodes s.
Proof. unfold mix. destruct ts as [|? [|? ?]]; cbn; try discriminate. intros [= <- _]. reflexivity. Qed.
Lemma expand_nodes s t r s' o : f_expand s t r = Ok (s', o) -> f_nodes s' = f_nodes s.
Proof. unfold f_expand. destruct (tensor_expand _ t r); cbn; [|discriminate]. intros [= <- _]. reflexivity. Qed.

Lemma cf_nodes s k io ts s' tr : channel_forward s k io ts = Ok (s', tr) -> f_nodes s' = f_nodes s.
Proof.
  destruct k as [cin cout groups|cin cout|c|c groups| | | | |r|c|]; cbn [channel_forward].
  - destruct (conv_type_of cin cout groups); [apply mix_nodes|apply pass_union_nodes|].
    destruct ts as [|t [|? ?]]; try discriminate.
    destruct (group_union_fresh s t groups) as [s1|] eqn:E1; cbn [bind fresh]; [|discriminate].
    match goal with |- context [group_union_fresh ?a ?b ?c] => destruct (group_union_fresh a b c) as [s3|] eqn:E3 end;
      cbn [bind]; [|discriminate]. intros [= <- _].
    apply group_fresh_nodes in E1. apply group_fresh_nodes in E3. cbn in E3. congruence.
  - apply mix_nodes.
  - apply pass_union_nodes.
  - destruct (pass_union s io ts) as [[s1 tr1]|] eqn:E1; cbn [bind]; [|discriminate].
    destruct (Nat.eqb groups 0); [discriminate|]. cbn [fresh].
    match goal with |- context [group_union ?a ?b ?c ?d] => destruct (group_union a b c d) as [s3|] eqn:E3 end;
      cbn [bind]; [|discriminate]. intros [= <- _].
    apply group_nodes in E3. apply pass_union_nodes in E1. cbn in E3. congruence.
  - destruct ts as [|t [|? ?]]; try discriminate. cbn. intros [= <- _]. reflexivity.
  - apply pass_union_nodes.
  - destruct ts as [|t r]; [discriminate|]. destruct (foldM _ r s) as [s1|] eqn:E1; cbn [bind]; [|discriminate].
    intros [= <- _]. revert E1. apply foldM_nodes. intros ? ? ?. apply union_nodes.
  - intros [= <- _]. reflexivity.
  - destruct ts as [|t [|? ?]]; try discriminate. destruct io as [io|]; cbn [bind]; [|discriminate].
    destruct (assert_ (Nat.leb _ _)); cbn [bind]; [|discriminate].
    destruct (Nat.eqb (fst io) 0); [discriminate|]. destruct (assert_ _); cbn [bind]; [|discriminate].
    destruct (f_expand s t r) as [[s1 o]|] eqn:E1; cbn [bind]; [|discriminate]. intros [= <- _].
    apply expand_nodes in E1. exact E1.
  - cbn. intros [= <- _]. reflexivity.
  - cbn [fresh]. match goal with |- context [foldM ?f ts ?s0] => destruct (foldM f ts s0) as [s2|] eqn:E2 end; cbn [bind]; [|discriminate].
    intros [= <- _]. apply foldM_nodes in E2; [exact E2|].
    intros s0 t s3 E. destruct (f_expand s0 _ _) as [[s4 o]|] eqn:E4; cbn [bind fst snd] in E; [|discriminate].
    apply union_nodes in E. apply expand_nodes in E4. congruence.
Qed.

Lemma node_step numin tab lab s nd s1 :
  nth_error g (length (f_nodes s)) = Some nd -> Good lab s ->
  forward_node numin tab s nd = Ok s1 -> fits s1 ->
  (exists lab1, Good lab1 s1) /\ length (f_nodes s1) = S (length (f_nodes s)).
Proof.
  intros Hnd (HP & Htr & Hco & Hbef) E HF. set (i := length (f_nodes s)) in *.
  assert (HDi : forall x y, node_dep L i nd x y -> D x y) by (intros x y H; econstructor; eauto).
  unfold forward_node in E.
  (* the tensors handed to the node *)
  assert (Hpre : exists s0 lab0 ts s' tr, P D lab0 s0 /\ later s s0 /\ agree s lab lab0 /\
     (forall t, In t ts -> valid s0 t) /\
     channel_forward s0 (c_kind nd) (channels_of tab nd) ts = Ok (s', tr) /\ s1 = add_trip s' tr /\
     ((c_prev nd = [] /\ exists t, ts = [t] /\ forall k e, nth_error t k = Some e ->
        lab0 e = match c_kind nd with KPass => (i, SRet, k) | KEnd => (i, SIn, 0) | _ => (i, SIn, k) end) \/
      (Forall2 (fun p t => p < length (f_nodes s) /\ t = t_ret (trip_of s p)) (c_prev nd) ts /\ lab0 = lab /\ s0 = s))).
  { destruct (c_prev nd) as [|p ps] eqn:Ep.
    - destruct (fresh_spec D lab s numin (fun k => match c_kind nd with KPass => (i, SRet, k) | KEnd => (i, SIn, 0) | _ => (i, SIn, k) end) HP)
        as (P0 & L0 & A0 & V0 & Len0 & N0).
      set (lab0 := ext lab _ _) in *. set (s0 := fst (fresh s numin)) in *. set (t := snd (fresh s numin)) in *.
      change ((match channel_forward s0 (c_kind nd) (channels_of tab nd) [t] with
               | Ok (s', tr) => Ok (add_trip s' tr) | Raise _ => Raise GenericException end) = Ok s1) in E.
      destruct (channel_forward s0 _ _ [t]) as [[s' tr]|] eqn:Ec; [|discriminate]. apply Ok_inj in E.
      exists s0, lab0, [t], s', tr. split; [exact P0|]. split; [exact L0|]. split; [exact A0|].
      split; [intros t' [<-|[]]; exact V0|]. split; [exact Ec|]. split; [symmetry; exact E|].
      left. split; [reflexivity|]. exists t. split; [reflexivity|exact N0].
    - destruct (mapM (ret_of s) (p :: ps)) as [ts|] eqn:Em; cbn [bind] in E; [|discriminate].
      destruct (channel_forward s _ _ ts) as [[s' tr]|] eqn:Ec; [|discriminate]. apply Ok_inj in E.
      pose proof (rets_spec _ _ _ Em) as HR.
      exists s, lab, ts, s', tr. split; [exact HP|]. split; [apply later_refl|]. split; [apply agree_refl|].
      split.
      { intros t Ht. destruct (Forall2_In_r _ _ _ _ HR Ht) as (q & _ & Hq & ->). apply (Htr q Hq SRet). }
      split; [exact Ec|]. split; [symmetry; exact E|]. right. auto. }
  destruct Hpre as (s0 & lab0 & ts & s' & tr & P0 & L0 & A0 & V0 & Ec & -> & HR).
  assert (Hns' : f_nodes s' = f_nodes s).
  { pose proof (cf_nodes _ _ _ _ _ _ Ec) as H1. destruct L0 as (_ & H2 & _). congruence. }
  assert (Hold : forall j, j < i -> trip_of (add_trip s' tr) j = trip_of s j).
  { intros j Hj. rewrite trip_of_add by (rewrite Hns'; exact Hj). apply trip_of_nodes. exact Hns'. }
  assert (Hlast : trip_of (add_trip s' tr) i = tr).
  { unfold i. rewrite <- Hns'. apply trip_of_last. }
  assert (Hlen : length (f_nodes (add_trip s' tr)) = S i).
  { cbn. rewrite app_length, Hns'. cbn. fold i. lia. }
  assert (HLp : forall p, p < i -> L p SRet = length (t_ret (trip_of s p))).
  { intros p Hp. rewrite (HF p SRet) by lia. rewrite Hold by exact Hp. reflexivity. }
  assert (HLi : own_len L i tr).
  { repeat split; [rewrite (HF i SIn) by lia|rewrite (HF i SOut) by lia|rewrite (HF i SRet) by lia]; rewrite Hlast; reflexivity. }
  assert (Hretlab : forall p k e, p < i -> nth_error (t_ret (trip_of s p)) k = Some e -> C (lab e) (p, SRet, k) /\ k < L p SRet).
  { intros p k e Hp He. split; [apply (Htr p Hp SRet); exact He|]. rewrite HLp by exact Hp. apply nth_error_Some. congruence. }
  (* labels of the inputs *)
  assert (Hin : in_ok D i nd lab0 ts).
  { destruct HR as [(Hnil & t & -> & Ht)|(HR & -> & ->)].
    - unfold in_ok.
      destruct (c_kind nd) eqn:Ek; try exact I;
        try (intros t' [<-|[]] k e He; rewrite (Ht k e He); apply rst_refl).
      + intros k e He. cbn in He. rewrite app_nil_r in He. rewrite (Ht k e He). apply rst_refl.
      + intros t' k e [<-|[]] He. rewrite (Ht k e He). apply rst_refl.
    - assert (Hone : reads_one_to_one (c_kind nd) -> forall t, In t ts -> labelled D i lab t SIn).
      { intros Hr t Ht k e He. destruct (Forall2_In_r _ _ _ _ HR Ht) as (p & Hp & Hpi & ->).
        destruct (Hretlab p k e Hpi He) as [Hc Hk]. eapply rst_trans; [exact Hc|]. apply rst_step, HDi, dep_read; assumption. }
      unfold in_ok. destruct (c_kind nd) eqn:Ek; try exact I; try (apply Hone; exact I).
      + intros t Ht k e He. destruct (Forall2_In_r _ _ _ _ HR Ht) as (p & Hp & Hpi & ->).
        destruct (Hretlab p k e Hpi He) as [Hc Hk]. eapply rst_trans; [exact Hc|]. apply rst_step, HDi, dep_pass; assumption.
      + intros k e He. destruct (concat_nth s _ _ HR k e He) as (l1 & p & l2 & k' & Ep & Hpi & -> & Hn).
        destruct (Hretlab p k' e Hpi Hn) as [Hc Hk]. eapply rst_trans; [exact Hc|]. apply rst_step, HDi.
        assert (Hsum : map (fun q => length (t_ret (trip_of s q))) l1 = map (fun q => L q SRet) l1).
        { apply map_ext_in. intros q Hq. symmetry. apply HLp.
          assert (Hq2 : In q (c_prev nd)) by (rewrite Ep; apply in_or_app; left; exact Hq).
          destruct (Forall2_In_l _ _ _ _ HR Hq2) as (t & _ & Hq3 & _). exact Hq3. }
        rewrite Hsum. eapply dep_cat; eauto.
      + intros t k e Ht He. destruct (Forall2_In_r _ _ _ _ HR Ht) as (p & Hp & Hpi & ->).
        destruct (Hretlab p k e Hpi He) as [Hc Hk]. eapply rst_trans; [exact Hc|]. apply rst_step, HDi. eapply dep_end; eauto. }
  destruct (cf_spec D L i nd HDi lab0 s0 ts s' tr _ P0 V0 Hin Ec HLi) as (lab1 & P1 & L1 & A1 & T1 & O1 & I1).
  pose proof (later_trans _ _ _ L0 L1) as L01. pose proof (agree_trans _ _ _ _ _ L0 A0 A1) as A01.
  assert (Hprev : forall p, In p (c_prev nd) -> p < i).
  { intros p Hp. destruct HR as [(Hnil & _)|(HR & _)]; [rewrite Hnil in Hp; destruct Hp|].
    destruct (Forall2_In_l _ _ _ _ HR Hp) as (t & _ & H & _). exact H. }
  split; [|exact Hlen]. exists lab1. split; [exact P1|]. split; [|split].
  3:{ intros j nd' p Hj Hj' Hp. rewrite Hlen in Hj. destruct (Nat.eq_dec j i) as [->|Hji].
      - assert (nd' = nd) by congruence. subst nd'. apply Hprev. exact Hp.
      - apply (Hbef j nd' p); [fold i; lia|exact Hj'|exact Hp]. }
  - intros j Hj sd. rewrite Hlen in Hj. destruct (Nat.eq_dec j i) as [->|Hji].
    + rewrite Hlast. apply T1.
    + rewrite Hold by lia. destruct (Htr j ltac:(lia) sd) as [V Hl]. split.
      * intros e He. apply (valid_later _ _ _ L01 V e He).
      * eapply labelled_agree; eauto.
  - intros j nd' x y ex ey Hj Hj' Hd Hx Hy. change (f_uf (add_trip s' tr)) with (f_uf s'). rewrite Hlen in Hj.
    destruct (Nat.eq_dec j i) as [->|Hji].
    + assert (nd' = nd) by congruence. subst nd'.
      assert (Hinner : forall sa a sb b, x = (i, sa, a) -> y = (i, sb, b) -> eqv (f_uf s') ex ey).
      { intros sa a sb b -> ->. unfold elem_of in Hx, Hy. cbn [fst snd] in Hx, Hy. rewrite Hlast in Hx, Hy.
        eapply I1; [exact Hd| |exact Hx|exact Hy]. intros p Hp. specialize (Hprev p Hp). lia. }
      destruct Hd as [p k Hr Hp Hk|l1 p l2 k Ek Ep Hk|p k Ek Hp Hk|p k Ek Hp Hk|k Hk Hkl|r k jj Ek Hkl Hjj|groups sd a b Hgr Hsd Ha Hb Hm|c groups a b Ek Ha Hb Hm|k Ek Hkl];
        try (eapply Hinner; reflexivity); clear Hinner; unfold elem_of in Hx, Hy; cbn [fst snd] in Hx, Hy; rewrite Hlast in Hy.
      * pose proof (Hprev p Hp) as Hpi. rewrite Hold in Hx by exact Hpi. cbn [tens] in Hx, Hy.
        destruct HR as [(Hnil & _)|(HR & _)]; [rewrite Hnil in Hp; destruct Hp|].
        destruct (Forall2_In_l _ _ _ _ HR Hp) as (t & Ht & _ & ->).
        assert (Hfirst : (exists r, ts = t_in tr :: r) -> length (c_prev nd) <= 1 -> eqv (f_uf s') ex ey).
        { intros (r & ->) Hl. inversion HR as [|q t' ps' ts' (Hq & Et) HR2]; subst.
          rewrite <- H in Hp, Hl. cbn in Hl. destruct ps'; [|cbn in Hl; lia]. destruct Hp as [->|[]].
          rewrite <- Et in Hx. assert (ex = ey) by congruence. subst. apply (eqv_refl_ D lab1). exact P1. }
        assert (Hs : In nd g) by (eapply nth_error_In; eauto). specialize (Hsingle nd Hs).
        unfold out_ok in O1. destruct (c_kind nd); try contradiction; try (apply Hfirst; assumption);
          eapply O1; eauto.
      * assert (Hpi : p < i) by (apply Hprev; rewrite Ep; apply in_or_app; right; left; reflexivity).
        rewrite Hold in Hx by exact Hpi. cbn [tens] in Hx, Hy.
        destruct HR as [(Hnil & _)|(HR & _)]; [rewrite Hnil in Ep; destruct l1; discriminate|].
        unfold out_ok in O1. rewrite Ek in O1. rewrite O1 in Hy. rewrite Ep in HR.
        assert (Hsum : map (fun q => L q SRet) l1 = map (fun q => length (t_ret (trip_of s q))) l1).
        { apply map_ext_in. intros q Hq. apply HLp. apply Hprev. rewrite Ep. apply in_or_app. left. exact Hq. }
        rewrite Hsum in Hy. rewrite (concat_nth_back s l1 p l2 ts HR k ex Hx) in Hy. injection Hy as <-.
        apply (eqv_refl_ D lab1). exact P1.
      * pose proof (Hprev p Hp) as Hpi. rewrite Hold in Hx by exact Hpi. cbn [tens] in Hx, Hy.
        destruct HR as [(Hnil & _)|(HR & _)]; [rewrite Hnil in Hp; destruct Hp|].
        destruct (Forall2_In_l _ _ _ _ HR Hp) as (t & Ht & _ & ->).
        unfold out_ok in O1. rewrite Ek in O1. rewrite O1 in Ht. destruct Ht as [Ht|[]].
        rewrite <- Ht in Hx. assert (ex = ey) by congruence. subst ey. apply (eqv_refl_ D lab1). exact P1.
      * pose proof (Hprev p Hp) as Hpi. rewrite Hold in Hx by exact Hpi. cbn [tens] in Hx, Hy.
        destruct HR as [(Hnil & _)|(HR & _)]; [rewrite Hnil in Hp; destruct Hp|].
        destruct (Forall2_In_l _ _ _ _ HR Hp) as (t & Ht & _ & ->).
        unfold out_ok in O1. rewrite Ek in O1. eapply O1; eauto.
    + assert (Hj2 : j < i) by lia.
      assert (Hel : forall z e, elem_of (add_trip s' tr) z e -> fst (fst z) <= j -> elem_of s z e).
      { intros z e He Hz. unfold elem_of in *. rewrite Hold in He by lia. exact He. }
      assert (Hb : fst (fst x) <= j /\ fst (fst y) <= j).
      { pose proof (fun p => Hbef j nd' p Hj2 Hj') as Hb.
        destruct Hd as [p k Hr Hp Hk|l1 p l2 k Ek Ep Hk|p k Ek Hp Hk|p k Ek Hp Hk|k Hk Hkl|r k jj Ek Hkl Hjj|groups sd a b Hgr Hsd Ha Hb' Hm|c groups a b Ek Ha Hb' Hm|k Ek Hkl];
          cbn [fst snd]; try (split; lia); try (specialize (Hb p Hp); split; lia).
        assert (Hp : In p (c_prev nd')) by (rewrite Ep; apply in_or_app; right; left; reflexivity).
        specialize (Hb p Hp). split; lia. }
      destruct L01 as (_ & _ & M). apply M. eapply Hco; eauto; apply Hel; tauto.
Qed.

Lemma forward_nodes_prefix numin tab : forall l s s', foldM (forward_node numin tab) l s = Ok s' ->
  exists r, f_nodes s' = f_nodes s ++ r /\ length r = length l.
Proof.
  induction l as [|nd l IH]; intros s s' E; cbn in E.
  - apply Ok_inj in E. subst. exists []. rewrite app_nil_r. auto.
  - destruct (forward_node numin tab s nd) as [s1|] eqn:E1; cbn in E; [|discriminate].
    destruct (IH _ _ E) as (r & Hr & Hl).
    assert (Hn : exists tr, f_nodes s1 = f_nodes s ++ [tr]).
    { unfold forward_node in E1.
      assert (Hcf : forall s0 ts, f_nodes s0 = f_nodes s ->
        match channel_forward s0 (c_kind nd) (channels_of tab nd) ts with
        | Ok (s', tr) => Ok (add_trip s' tr) | Raise _ => Raise GenericException end = Ok s1 ->
        exists tr, f_nodes s1 = f_nodes s ++ [tr]).
      { intros s0 ts H0 H. destruct (channel_forward s0 _ _ ts) as [[s2 tr]|] eqn:E2; [|discriminate].
        apply Ok_inj in H. subst s1. exists tr. cbn. rewrite (cf_nodes _ _ _ _ _ _ E2), H0. reflexivity. }
      destruct (c_prev nd) as [|p ps]; [eapply Hcf; [|exact E1]; reflexivity|].
      destruct (mapM (ret_of s) (p :: ps)) as [ts|]; cbn [bind] in E1; [|discriminate].
      eapply Hcf; [|exact E1]. reflexivity. }
    destruct Hn as (tr & Hn). exists (tr :: r). rewrite Hr, Hn, <- app_assoc. cbn. auto.
Qed.

Lemma fits_prefix s s' r : f_nodes s' = f_nodes s ++ r -> fits s' -> fits s.
Proof.
  intros H F j sd Hj. rewrite (F j sd); [|rewrite H, app_length; lia].
  unfold trip_of. rewrite H. rewrite app_nth1 by exact Hj. reflexivity.
Qed.

Lemma nodes_good numin tab : forall l s s' lab, Good lab s ->
  (forall k nd, nth_error l k = Some nd -> nth_error g (length (f_nodes s) + k) = Some nd) ->
  foldM (forward_node numin tab) l s = Ok s' -> fits s' -> exists lab', Good lab' s'.
Proof.
  induction l as [|nd l IH]; intros s s' lab HG Hl E F; cbn in E.
  - apply Ok_inj in E. subst. eauto.
  - destruct (forward_node numin tab s nd) as [s1|] eqn:E1; cbn in E; [|discriminate].
    destruct (forward_nodes_prefix _ _ _ _ _ E) as (r & Hr & _).
    pose proof (Hl 0 nd eq_refl) as Hnd. rewrite Nat.add_0_r in Hnd.
    destruct (node_step numin tab lab s nd s1 Hnd HG E1 (fits_prefix _ _ _ Hr F)) as [(lab1 & HG1) Hlen].
    apply (IH s1 s' lab1 HG1); [|exact E|exact F].
    intros k nd' Hk. rewrite Hlen. replace (S (length (f_nodes s)) + k) with (length (f_nodes s) + S k) by lia.
    apply Hl. exact Hk.
Qed.

(** Merging the nodes of one module. *)
Lemma good_later lab s s' : Good lab s -> P D lab s' -> later s s' -> Good lab s'.
Proof.
  intros (HP & Ht & Hc & Hb) HP' (L1 & L2 & L3).
  assert (Htr : forall j, trip_of s' j = trip_of s j) by (intros j; apply trip_of_nodes; exact L2).
  split; [exact HP'|]. rewrite L2. split; [|split; [|exact Hb]].
  - intros j Hj sd. rewrite Htr. destruct (Ht j Hj sd) as [V Hl]. split; [|exact Hl].
    intros e He. specialize (V e He). lia.
  - intros j nd x y ex ey Hj Hn Hd Hx Hy. apply L3. unfold elem_of in Hx, Hy. rewrite Htr in Hx, Hy.
    eapply Hc; eauto.
Qed.

Definition tied (s : fstate) (i j : nat) : Prop :=
  forall sd, sd <> SRet -> length (tens (trip_of s i) sd) = length (tens (trip_of s j) sd) /\
    forall k x y, elem_of s (i, sd, k) x -> elem_of s (j, sd, k) y -> eqv (f_uf s) x y.
Lemma tied_later s s' i j : later s s' -> tied s i j -> tied s' i j.
Proof.
  intros (L1 & L2 & L3) H sd Hsd. destruct (H sd Hsd) as [Hl He].
  rewrite !(trip_of_nodes s s' _ L2). split; [exact Hl|].
  intros k x y Hx Hy. apply L3. unfold elem_of in Hx, Hy. cbn [fst snd] in *.
  rewrite (trip_of_nodes s s' _ L2) in Hx. rewrite (trip_of_nodes s s' _ L2) in Hy. eapply He; eauto.
Qed.

Lemma merge_two_good lab s i j s' : Good lab s -> fits s ->
  i < length (f_nodes s) -> j < length (f_nodes s) ->
  (exists m, mod_of g i = Some m /\ mod_of g j = Some m) ->
  merge_two s i j = Ok s' -> Good lab s' /\ later s s' /\ tied s' i j.
Proof.
  intros HG HF Hi Hj (m & Mi & Mj) E. unfold merge_two in E.
  destruct (f_union s _ _) as [s1|] eqn:E1; cbn [bind] in E; [|discriminate].
  pose proof HG as (HP & Ht & _).
  assert (HC : forall sd k x y, sd <> SRet -> nth_error (tens (trip_of s i) sd) k = Some x -> nth_error (tens (trip_of s j) sd) k = Some y ->
               C (lab x) (lab y)).
  { intros sd k x y Hsd Hx Hy. destruct (Ht i Hi sd) as [_ Hli]. destruct (Ht j Hj sd) as [_ Hlj].
    eapply rst_trans; [apply Hli; exact Hx|]. apply rst_sym. eapply rst_trans; [apply Hlj; exact Hy|].
    apply rst_sym, rst_step. apply (dep_shared g L i j m); auto.
    rewrite (HF i sd Hi). apply nth_error_Some. congruence. }
  destruct (union_spec D lab s _ _ s1 HP (proj1 (Ht i Hi SIn)) (proj1 (Ht j Hj SIn))) as (P1 & L1 & _ & Le1 & A1);
    [intros k x y; apply (HC SIn); discriminate|exact E1|].
  pose proof (good_later _ _ _ HG P1 L1) as HG1.
  destruct (union_spec D lab s1 (t_out (trip_of s i)) (t_out (trip_of s j)) s' P1) as (P2 & L2 & _ & Le2 & A2);
    [eapply valid_later; [exact L1|apply (Ht i Hi SOut)]|eapply valid_later; [exact L1|apply (Ht j Hj SOut)]
    |intros k x y; apply (HC SOut); discriminate|exact E|].
  split; [eapply good_later; eauto|]. split; [eapply later_trans; eauto|].
  assert (Hn : f_nodes s' = f_nodes s) by (destruct L1 as (_ & H1 & _), L2 as (_ & H2 & _); congruence).
  intros sd Hsd. rewrite !(trip_of_nodes s s' _ Hn). split; [destruct sd; [exact Le1|exact Le2|congruence]|].
  intros k x y Hx Hy. unfold elem_of in Hx, Hy. cbn [fst snd] in Hx, Hy.
  rewrite (trip_of_nodes s s' _ Hn) in Hx. rewrite (trip_of_nodes s s' _ Hn) in Hy.
  destruct sd; [|eapply A2; eauto|congruence]. destruct L2 as (_ & _ & M). apply M. eapply A1; eauto.
Qed.

Lemma fits_later s s' : later s s' -> fits s -> fits s'.
Proof. intros (_ & H & _) F j sd Hj. rewrite (trip_of_nodes s s' _ H). apply F. congruence. Qed.

Lemma merge_all_good lab i m : mod_of g i = Some m -> forall r s s', Good lab s -> fits s -> i < length (f_nodes s) ->
  (forall j, In j r -> j < length (f_nodes s) /\ mod_of g j = Some m) ->
  foldM (fun s j => merge_two s i j) r s = Ok s' ->
  Good lab s' /\ later s s' /\ forall j, In j r -> tied s' i j.
Proof.
  intros Mi. induction r as [|j r IH]; intros s s' HG HF Hi Hr E; cbn [foldM] in E.
  - apply Ok_inj in E. subst. split; [exact HG|]. split; [apply later_refl|]. intros ? [].
  - destruct (merge_two s i j) as [s1|] eqn:E1; cbn [bind] in E; [|discriminate].
    destruct (Hr j (or_introl eq_refl)) as [Hj Mj].
    destruct (merge_two_good lab s i j s1 HG HF Hi Hj ltac:(eauto) E1) as (HG1 & L1 & T1).
    assert (Hn : f_nodes s1 = f_nodes s) by apply L1.
    destruct (IH s1 s' HG1 (fits_later _ _ L1 HF)) as (HG2 & L2 & T2); [congruence| |exact E|].
    { intros q Hq. rewrite Hn. apply Hr. right. exact Hq. }
    split; [exact HG2|]. split; [eapply later_trans; eauto|].
    intros q [<-|Hq]; [eapply tied_later; eauto|apply T2; exact Hq].
Qed.

Lemma nodes_of_In m j : In j (nodes_of g m) <-> j < length g /\ mod_of g j = Some m.
Proof.
  unfold nodes_of. rewrite filter_In, in_seq. unfold has_mod. split.
  - intros [H1 H2]. split; [lia|]. destruct (mod_of g j) as [m'|]; [|discriminate]. apply Nat.eqb_eq in H2. congruence.
  - intros [H1 ->]. split; [lia|apply Nat.eqb_refl].
Qed.
Lemma modules_In : forall l seen m, In m (modules l seen) <-> In m seen \/ exists nd, In nd l /\ c_mod nd = Some m.
Proof.
  induction l as [|nd l IH]; intros seen m; cbn.
  - rewrite <- in_rev. firstorder.
  - destruct (c_mod nd) as [m'|] eqn:Em.
    + destruct (existsb (Nat.eqb m') seen) eqn:Es.
      * apply existsb_exists in Es as (z & Hz & Ez). apply Nat.eqb_eq in Ez. subst z.
        rewrite IH. split; [intros [H|(q & H & E)]; eauto|]. intros [H|(q & [<-|H] & E)]; eauto. left. congruence.
      * rewrite IH. cbn. split.
        -- intros [[<-|H]|(q & H & E)]; eauto.
        -- intros [H|(q & [<-|H] & E)]; eauto. left. left. congruence.
    + rewrite IH. split; [intros [H|(q & H & E)]; eauto|]. intros [H|(q & [<-|H] & E)]; eauto. congruence.
Qed.

(** All nodes of the module are tied to the first. *)
Definition merged (s : fstate) (m : nat) : Prop :=
  forall i r, nodes_of g m = i :: r -> forall j, In j r -> tied s i j.
Lemma merge_modules_good lab : forall ms s s', Good lab s -> fits s -> length (f_nodes s) = length g ->
  foldM (merge_module g) ms s = Ok s' ->
  Good lab s' /\ later s s' /\ forall m, In m ms -> merged s' m.
Proof.
  induction ms as [|m ms IH]; intros s s' HG HF Hlen E; cbn [foldM] in E.
  - apply Ok_inj in E. subst. split; [exact HG|]. split; [apply later_refl|]. intros ? [].
  - destruct (merge_module g s m) as [s1|] eqn:E1; cbn [bind] in E; [|discriminate].
    assert (H1 : Good lab s1 /\ later s s1 /\ merged s1 m).
    { unfold merge_module in E1. destruct (nodes_of g m) as [|i r] eqn:En.
      - apply Ok_inj in E1. subst. split; [exact HG|]. split; [apply later_refl|]. intros i r H. congruence.
      - assert (Hm : forall j, In j (i :: r) -> j < length (f_nodes s) /\ mod_of g j = Some m).
        { intros j Hj. rewrite <- En in Hj. apply nodes_of_In in Hj. rewrite Hlen. exact Hj. }
        destruct (Hm i (or_introl eq_refl)) as [Hi Mi].
        destruct (merge_all_good lab i m Mi r s s1 HG HF Hi) as (A & B & T); [intros j Hj; apply Hm; right; exact Hj|exact E1|].
        split; [exact A|]. split; [exact B|]. intros i' r' H'. rewrite En in H'. injection H' as <- <-. exact T. }
    destruct H1 as (HG1 & L1 & M1).
    destruct (IH s1 s' HG1 (fits_later _ _ L1 HF)) as (HG2 & L2 & M2); [destruct L1 as (_ & H & _); congruence|exact E|].
    split; [exact HG2|]. split; [eapply later_trans; eauto|].
    intros q [<-|Hq]; [|apply M2; exact Hq]. intros i r Hr j Hj. eapply tied_later; [exact L2|]. eapply M1; eauto.
Qed.

(** Widths of the tensors of a node, given the tensors handed to it. *)
Definition shape (k : kind) (ts : list (list nat)) (tr : trip) : Prop :=
  match k with
  | KConv _ _ _ | KBn _ | KGn _ _ | KPassUnion => exists r, ts = t_in tr :: r
  | KLinear _ _ | KExpand _ => ts = [t_in tr]
  | KBind => forall t, In t ts -> length t = length (t_in tr)
  | KCat => t_in tr = concat ts
  | KPass => ts = [t_ret tr]
  | KInput _ => True
  | KEnd => length (t_in tr) = 1
  end /\
  (keeps_channels k -> t_out tr = t_in tr) /\
  (forall r, k = KExpand r -> length (t_out tr) = r * length (t_in tr)) /\
  (k <> KPass -> t_ret tr = t_out tr).
Lemma union_len s a b s' : f_union s a b = Ok s' -> length a = length b.
Proof.
  unfold f_union, tensor_union. destruct (Nat.eqb_spec (length a) (length b)); cbn; [auto|discriminate].
Qed.
Lemma pass_union_shape s io ts s' tr : pass_union s io ts = Ok (s', tr) ->
  exists t r, ts = t :: r /\ tr = {| t_in := t; t_out := t; t_ret := t |}.
Proof.
  unfold pass_union. destruct ts as [|t r]; cbn; [discriminate|]. destruct io; cbn; [|discriminate].
  destruct (assert_ _); cbn; [|discriminate]. intros [= _ <-]. eauto.
Qed.
Lemma mix_shape s c ts s' tr : mix s c ts = Ok (s', tr) -> exists t o, ts = [t] /\ tr = {| t_in := t; t_out := o; t_ret := o |} /\ length o = c.
Proof. unfold mix. destruct ts as [|? [|? ?]]; cbn; try discriminate. intros [= _ <-]. eexists _, _. repeat split. apply seq_length. Qed.
Lemma expand_len s t r s' o : f_expand s t r = Ok (s', o) -> length o = r * length t.
Proof.
  unfold f_expand, tensor_expand. cbn. destruct (union_pairs _ _); cbn; [|discriminate]. intros [= _ <-]. apply seq_length.
Qed.
Lemma cf_shape s k io ts s' tr : channel_forward s k io ts = Ok (s', tr) -> shape k ts tr.
Proof.
  assert (HPU : forall k, match k with KConv _ _ _ | KBn _ | KGn _ _ | KPassUnion => True | _ => False end ->
     forall s1, pass_union s io ts = Ok (s1, tr) -> shape k ts tr).
  { intros k' Hk s1 E. apply pass_union_shape in E as (t & r & -> & ->). destruct k'; try contradiction; cbn;
      (split; [eauto|]; split; [auto|]; split; [discriminate|auto]). }
  destruct k as [cin cout groups|cin cout|c|c groups| | | | |r|c|]; cbn [channel_forward].
  - unfold conv_type_of. destruct (Nat.eqb_spec groups 1) as [->|Hg].
    { intros E. apply mix_shape in E as (t & o & -> & -> & _). cbn. split; [eauto|]. split; [intros [H _]; congruence|]. split; [discriminate|auto]. }
    destruct (Nat.eqb_spec cin cout) as [Hc|Hc], (Nat.eqb_spec cout groups) as [Hc2|Hc2]; cbn [andb];
      try (apply HPU; exact I);
      (destruct ts as [|t [|? ?]]; try discriminate;
       destruct (group_union_fresh s t groups) as [s1|]; cbn [bind fresh]; [|discriminate];
       match goal with |- context [group_union_fresh ?a ?b ?c] => destruct (group_union_fresh a b c) as [s3|] end;
       cbn [bind]; [|discriminate]; intros [= _ <-]; cbn [shape t_in t_out t_ret]; (split; [eauto|]);
       (split; [intros (_ & H1 & H2); contradiction|]); split; [discriminate|auto]).
  - intros E. apply mix_shape in E as (t & o & -> & -> & _). cbn. split; [reflexivity|]. split; [contradiction|]. split; [discriminate|auto].
  - apply HPU. exact I.
  - destruct (pass_union s io ts) as [[s1 tr1]|] eqn:E1; cbn [bind]; [|discriminate].
    destruct (Nat.eqb groups 0); [discriminate|]. cbn [fresh].
    match goal with |- context [group_union ?a ?b ?c ?d] => destruct (group_union a b c d) as [s3|] end;
      cbn [bind]; [|discriminate]. intros [= _ <-]. eapply HPU; [exact I|reflexivity].
  - destruct ts as [|t [|? ?]]; try discriminate. cbn. intros [= _ <-]. cbn. split; [reflexivity|]. split; [contradiction|]. split; [discriminate|congruence].
  - apply HPU. exact I.
  - destruct ts as [|t r]; [discriminate|]. destruct (foldM _ r s) as [s1|] eqn:E1; cbn [bind]; [|discriminate].
    intros [= _ <-]. cbn [shape t_in t_out t_ret]. split; [|split; [auto|split; [discriminate|auto]]].
    assert (HF : forall r s s1, foldM (fun s t' => f_union s t t') r s = Ok s1 -> forall t', In t' r -> length t' = length t).
    { clear. induction r as [|a r IH]; intros s s1 E t' [].
      - subst. cbn in E. destruct (f_union s t t') eqn:E2; cbn in E; [|discriminate]. apply union_len in E2. auto.
      - cbn in E. destruct (f_union s t a) eqn:E2; cbn in E; [|discriminate]. eapply IH; eauto. }
    intros t' [<-|H]; [reflexivity|eapply HF; eauto].
  - intros [= _ <-]. cbn [shape t_in t_out t_ret]. split; [reflexivity|split; [auto|split; [discriminate|auto]]].
  - destruct ts as [|t [|? ?]]; try discriminate. destruct io as [io|]; cbn [bind]; [|discriminate].
    destruct (assert_ (Nat.leb _ _)); cbn [bind]; [|discriminate].
    destruct (Nat.eqb (fst io) 0); [discriminate|]. destruct (assert_ _); cbn [bind]; [|discriminate].
    destruct (f_expand s t r) as [[s1 o]|] eqn:E1; cbn [bind]; [|discriminate]. intros [= _ <-].
    cbn [shape t_in t_out t_ret fst snd]. split; [reflexivity|]. split; [contradiction|]. split; [|auto].
    intros r' [= <-]. apply expand_len in E1. exact E1.
  - cbn. intros [= _ <-]. cbn [shape t_in t_out t_ret]. split; [exact I|split; [auto|split; [discriminate|auto]]].
  - cbn [fresh]. match goal with |- context [foldM ?f ts ?s0] => destruct (foldM f ts s0) as [s2|] end; cbn [bind]; [|discriminate].
    intros [= _ <-]. cbn [shape t_in t_out t_ret]. split; [reflexivity|split; [auto|split; [discriminate|auto]]].
Qed.

(** Shapes of all the nodes of a run. *)
Definition Shaped (s : fstate) : Prop :=
  forall j nd, j < length (f_nodes s) -> nth_error g j = Some nd ->
  exists ts, shape (c_kind nd) ts (trip_of s j) /\
    (c_prev nd = [] \/ Forall2 (fun p t => p < j /\ t = t_ret (trip_of s p)) (c_prev nd) ts).
Lemma nodes_shaped numin tab : forall l s s', Shaped s ->
  (forall k nd, nth_error l k = Some nd -> nth_error g (length (f_nodes s) + k) = Some nd) ->
  foldM (forward_node numin tab) l s = Ok s' -> Shaped s'.
Proof.
  induction l as [|nd l IH]; intros s s' HG Hl E; cbn in E.
  - apply Ok_inj in E. subst. exact HG.
  - destruct (forward_node numin tab s nd) as [s1|] eqn:E1; cbn in E; [|discriminate].
    pose proof (Hl 0 nd eq_refl) as Hnd. rewrite Nat.add_0_r in Hnd.
    assert (HS : exists s0 ts s2 tr, f_nodes s0 = f_nodes s /\ channel_forward s0 (c_kind nd) (channels_of tab nd) ts = Ok (s2, tr) /\
      s1 = add_trip s2 tr /\
      (c_prev nd = [] \/ Forall2 (fun p t => p < length (f_nodes s) /\ t = t_ret (trip_of s p)) (c_prev nd) ts)).
    { unfold forward_node in E1. destruct (c_prev nd) as [|p ps].
      - cbn [fresh] in E1. match type of E1 with match channel_forward ?a _ _ ?b with _ => _ end = _ => set (s0 := a) in *; set (ts := b) in * end.
        destruct (channel_forward s0 _ _ ts) as [[s2 tr]|] eqn:E2; [|discriminate]. apply Ok_inj in E1.
        exists s0, ts, s2, tr. split; [reflexivity|]. split; [exact E2|]. split; [auto|left; reflexivity].
      - destruct (mapM (ret_of s) (p :: ps)) as [ts|] eqn:Em; cbn [bind] in E1; [|discriminate].
        destruct (channel_forward s _ _ ts) as [[s2 tr]|] eqn:E2; [|discriminate]. apply Ok_inj in E1.
        exists s, ts, s2, tr. split; [reflexivity|]. split; [exact E2|]. split; [auto|]. right. apply rets_spec. exact Em. }
    destruct HS as (s0 & ts & s2 & tr & H0 & E2 & -> & HR).
    assert (Hn2 : f_nodes s2 = f_nodes s) by (rewrite (cf_nodes _ _ _ _ _ _ E2); exact H0).
    assert (Hold : forall j, j < length (f_nodes s) -> trip_of (add_trip s2 tr) j = trip_of s j).
    { intros j Hj. rewrite trip_of_add by (rewrite Hn2; exact Hj). apply trip_of_nodes. exact Hn2. }
    assert (HF : forall j ps ts, j <= length (f_nodes s) -> Forall2 (fun p t => p < j /\ t = t_ret (trip_of s p)) ps ts ->
       Forall2 (fun p t => p < j /\ t = t_ret (trip_of (add_trip s2 tr) p)) ps ts).
    { intros j ps ts' Hj H. induction H as [|p t ps' ts'' (H1 & H2) H3 IH3]; constructor; [|exact IH3]. rewrite Hold by lia. auto. }
    apply (IH (add_trip s2 tr) s'); [| |exact E].
    + intros j nd' Hj Hj'. cbn in Hj. rewrite app_length, Hn2 in Hj. cbn in Hj.
      destruct (Nat.eq_dec j (length (f_nodes s))) as [->|Hne].
      * assert (nd' = nd) by congruence. subst nd'. exists ts. split.
        -- rewrite <- Hn2. rewrite trip_of_last. eapply cf_shape; eauto.
        -- destruct HR as [HR|HR]; [left; exact HR|right]. apply HF; auto.
      * destruct (HG j nd' ltac:(lia) Hj') as (ts' & HS & HR'). exists ts'. rewrite Hold by lia. split; [exact HS|].
        destruct HR' as [HR'|HR']; [left; exact HR'|right]. apply HF; [lia|exact HR'].
    + intros k nd' Hk. cbn. rewrite app_length, Hn2. cbn.
      replace (length (f_nodes s) + 1 + k) with (length (f_nodes s) + S k) by lia. apply Hl. exact Hk.
Qed.

Lemma init_good : Good (fun _ => (0, SIn, 0)) f_init.
Proof.
  split; [split; [exact inv_empty|cbn; lia]|]. split; [cbn; lia|]. split; cbn; intros; lia.
Qed.
End Whole.

(** After a run, two channels are reported as one group exactly when the documented
    dependencies force it. *)
Theorem C98_groups :
  forall g numin s, single_inputs g -> forward g numin = Ok s ->
  forall x y ex ey, elem_of s x ex -> elem_of s y ey ->
    (grouped (f_uf s) ex ey <-> clos_refl_sym_trans chan (dep g (width s)) x y).
Proof.
  intros g numin s Hs E. unfold forward in E.
  destruct (forward_nodes numin (channel_table g) g) as [s0|] eqn:E0; cbn [bind] in E; [|discriminate].
  unfold forward_nodes in E0. unfold merge_same_module in E.
  destruct (forward_nodes_prefix _ _ _ _ _ E0) as (r & Hr & Hlr). cbn in Hr.
  assert (Hlen0 : (length (f_nodes s0) = length g)%nat) by congruence.
  assert (Hns : f_nodes s = f_nodes s0).
  { revert E. apply foldM_nodes. intros s1 m s2 H. unfold merge_module in H. destruct (nodes_of g m) as [|i rr]; [apply Ok_inj in H; congruence|].
    revert H. apply foldM_nodes. intros s3 j s4 H. unfold merge_two in H.
    destruct (f_union s3 _ _) as [s5|] eqn:E5; cbn [bind] in H; [|discriminate].
    apply union_nodes in E5. apply union_nodes in H. congruence. }
  assert (F0 : fits (width s) s0).
  { intros j sd Hj. unfold width. rewrite (trip_of_nodes s0 s j Hns). reflexivity. }
  destruct (nodes_good g (width s) Hs numin (channel_table g) g f_init s0 _ (init_good g (width s))) as (lab & HG0);
    [intros k nd Hk; exact Hk|exact E0|exact F0|].
  destruct (merge_modules_good g (width s) lab (modules g []) s0 s HG0 F0 Hlen0 E) as (HG & HL & HM).
  destruct HG as (HP & Ht & Hc & Hb).
  assert (Hlen : (length (f_nodes s) = length g)%nat) by congruence.
  assert (Hidx : forall z e, elem_of s z e -> (fst (fst z) < length (f_nodes s))%nat).
  { intros z e He. destruct (le_lt_dec (length (f_nodes s)) (fst (fst z))) as [H|H]; [|exact H].
    unfold elem_of, trip_of in He. rewrite nth_overflow in He by exact H. destruct (snd (fst z)), (snd z); discriminate. }
  assert (Hval : forall z e, elem_of s z e -> (e < uf_n (f_uf s))%nat /\ clos_refl_sym_trans chan (dep g (width s)) (lab e) z).
  { intros [[j sd] k] e He. pose proof (Hidx _ _ He) as Hj. destruct (Ht j Hj sd) as [V Hl]. unfold elem_of in He. cbn [fst snd] in He.
    split; [apply V; eapply nth_error_In; eauto|apply Hl; exact He]. }
  assert (Hreal : forall z, (snd z < width s (fst (fst z)) (snd (fst z)))%nat -> exists e, elem_of s z e).
  { intros z Hz. unfold elem_of. destruct (nth_error _ (snd z)) eqn:En; [eauto|]. apply nth_error_None in En. unfold width in Hz. lia. }
  intros x y ex ey Hx Hy. destruct (Hval x ex Hx) as [Vx Cx]. destruct (Hval y ey Hy) as [Vy Cy].
  pose proof HP as [HI HS]. rewrite (grouped_eqv _ _ _ HI Vx). split.
  - intros He. eapply rst_trans; [apply rst_sym; exact Cx|]. eapply rst_trans; [apply HS; eassumption|exact Cy].
  - intros Hxy.
    (* every dependency relates channels that exist *)
    assert (HSh : Shaped g s).
    { intros j nd Hj Hn. destruct (nodes_shaped g (width s) numin (channel_table g) g f_init s0) with (j := j) (nd := nd) as (ts & H1 & H2);
        [intros q nd' Hq; cbn in Hq; lia|intros k nd' Hk; exact Hk|exact E0|congruence|exact Hn|].
      exists ts. rewrite (trip_of_nodes s0 s j Hns). split; [exact H1|].
      destruct H2 as [H2|H2]; [left; exact H2|right]. clear - H2 Hns. induction H2 as [|p t ps ts (H & ->) _ IH]; constructor; [|exact IH].
      rewrite (trip_of_nodes s0 s p Hns). auto. }
    assert (Hshare : forall i j m, mod_of g i = Some m -> mod_of g j = Some m -> tied s i j).
    { intros i j m Mi Mj.
      assert (Hi : In i (nodes_of g m)).
      { apply (proj2 (nodes_of_In g (width s) m i)). split; [|exact Mi]. unfold mod_of in Mi. destruct (nth_error g i) eqn:En; [apply nth_error_Some; congruence|discriminate]. }
      assert (Hj : In j (nodes_of g m)).
      { apply (proj2 (nodes_of_In g (width s) m j)). split; [|exact Mj]. unfold mod_of in Mj. destruct (nth_error g j) eqn:En; [apply nth_error_Some; congruence|discriminate]. }
      assert (Hm : In m (modules g [])).
      { apply (proj2 (modules_In g [] m)). right. unfold mod_of in Mi. destruct (nth_error g i) as [nd|] eqn:En; [|discriminate]. exists nd. split; [eapply nth_error_In; eauto|exact Mi]. }
      destruct (eqv_equiv _ HI) as (Qr & Qs & Qt).
      assert (Trefl : forall q, tied s q q).
      { intros q sd Hsd. split; [reflexivity|]. intros k u v Hu Hv. unfold elem_of in Hu, Hv. assert (u = v) by congruence. subst. apply Qr. }
      destruct (nodes_of g m) as [|i0 r0] eqn:En; [destruct Hi|].
      assert (T0 : forall q, In q (i0 :: r0) -> tied s i0 q) by (intros q [<-|Hq]; [apply Trefl|apply (HM m Hm i0 r0 En q Hq)]).
      intros sd Hsd. destruct (T0 i Hi sd Hsd) as [La Ea]. destruct (T0 j Hj sd Hsd) as [Lb Eb].
      split; [congruence|]. intros k u v Hu Hv.
      destruct (nth_error (tens (trip_of s i0) sd) k) as [e0|] eqn:E00.
      - apply Qt with e0; [apply Qs|]; [eapply Ea|eapply Eb]; eauto.
      - apply nth_error_None in E00. unfold elem_of in Hu. cbn [fst snd] in Hu.
        assert (k < length (tens (trip_of s i) sd))%nat by (apply nth_error_Some; congruence). lia. }
    assert (Hstep : forall u v, dep g (width s) u v -> exists eu ev, elem_of s u eu /\ elem_of s v ev /\ eqv (f_uf s) eu ev).
    { intros u v Huv.
      assert (Hreal2 : (snd u < width s (fst (fst u)) (snd (fst u)))%nat /\ (snd v < width s (fst (fst v)) (snd (fst v)))%nat).
      { destruct Huv as [j nd u v Hn Hd|i j m sd k Mi Mj Hsd Hk].
        - assert (Hj : (j < length (f_nodes s))%nat) by (rewrite Hlen; apply nth_error_Some; congruence).
          destruct (HSh j nd Hj Hn) as (ts & (S1 & S2 & S3 & S4) & HR).
          assert (HRp : forall p, In p (c_prev nd) -> In (t_ret (trip_of s p)) ts).
          { intros p Hp. destruct HR as [HR|HR]; [rewrite HR in Hp; destruct Hp|].
            destruct (Forall2_In_l _ _ _ _ HR Hp) as (t & Hts & _ & <-). exact Hts. }
          unfold width in *.
          destruct Hd as [p k Hro Hp Hk|l1 p l2 k Ek Ep Hk|p k Ek Hp Hk|p k Ek Hp Hk|k Hk Hkl|r0 k jj Ek Hkl Hjj|groups sd a b Hgr Hsd Ha Hb' Hm|c groups a b Ek Ha Hb' Hm|k Ek Hkl];
            cbn [fst snd] in *; (split; [assumption|]); cbn [tens] in *.
          + assert (Hone : (exists rr, ts = t_in (trip_of s j) :: rr) -> (length (c_prev nd) <= 1)%nat -> (k < length (t_in (trip_of s j)))%nat).
            { intros (rr & Er) Hl1. destruct HR as [HR|HR]; [rewrite HR in Hp; destruct Hp|].
              destruct (c_prev nd) as [|q [|q2 qs]]; [destruct Hp| |cbn in Hl1; lia]. destruct Hp as [->|[]].
              rewrite Er in HR. inversion HR as [|? ? ? ? (_ & Et) HR2]. rewrite Et. exact Hk. }
            pose proof (Hs nd (nth_error_In _ _ Hn)) as Hs1. specialize (HRp p Hp).
            destruct (c_kind nd); try contradiction; try (apply Hone; assumption).
            * rewrite S1 in HRp. destruct HRp as [HRp|[]]. rewrite HRp. exact Hk.
            * rewrite <- (S1 _ HRp). exact Hk.
            * rewrite S1 in HRp. destruct HRp as [HRp|[]]. rewrite HRp. exact Hk.
          + rewrite Ek in S1. rewrite S1. destruct HR as [HR|HR]; [rewrite HR in Ep; destruct l1; discriminate|]. rewrite Ep in HR.
            apply nth_error_Some.
            destruct (nth_error (t_ret (trip_of s p)) k) as [e|] eqn:En; [|apply nth_error_None in En; lia].
            assert (HRb : Forall2 (fun p t => (p < length (f_nodes s))%nat /\ t = t_ret (trip_of s p)) (l1 ++ p :: l2) ts).
            { clear - HR Hj. induction HR as [|? ? ? ? (H & ->) _ IH]; constructor; auto. split; [lia|reflexivity]. }
            pose proof (concat_nth_back (width s) s l1 p l2 ts HRb k e En) as Hcc.
            intros Hnone. cbn [tens] in Hnone. congruence.
          + rewrite Ek in S1. specialize (HRp p Hp). rewrite S1 in HRp. destruct HRp as [HRp|[]]. rewrite HRp. exact Hk.
          + rewrite Ek in S1. rewrite S1. lia.
          + rewrite (S2 Hk). exact Hkl.
          + rewrite (S3 _ Ek). nia.
          + assumption.
          + assumption.
          + rewrite (S4 Ek). exact Hkl.
        - cbn [fst snd]. split; [exact Hk|]. unfold width in *. destruct (Hshare i j m Mi Mj sd Hsd) as [Hl _]. rewrite <- Hl. exact Hk. }
      destruct (Hreal u (proj1 Hreal2)) as [eu Hu]. destruct (Hreal v (proj2 Hreal2)) as [ev Hv].
      exists eu, ev. split; [exact Hu|]. split; [exact Hv|].
      destruct Huv as [j nd u v Hn Hd|i j m sd k Mi Mj Hsd Hk].
      - eapply (Hc j nd u v); [rewrite Hlen; apply nth_error_Some; congruence|exact Hn|exact Hd|exact Hu|exact Hv].
      - destruct (Hshare i j m Mi Mj sd Hsd) as [_ He]. eapply He; eauto. }
    (* walk along the chain *)
    assert (Hwalk : forall u v, clos_refl_sym_trans chan (dep g (width s)) u v ->
       forall eu, (elem_of s u eu -> exists ev, elem_of s v ev /\ eqv (f_uf s) eu ev) /\
                  (elem_of s v eu -> exists ev, elem_of s u ev /\ eqv (f_uf s) eu ev)).
    { destruct (eqv_equiv _ HI) as (Qr & Qs & Qt).
      assert (Hfun : forall z e e', elem_of s z e -> elem_of s z e' -> e = e') by (intros z e e' H1 H2; unfold elem_of in *; congruence).
      intros u v Huv. induction Huv as [u v Huv|u|u v _ IH|u v w _ IH1 _ IH2]; intros e.
      - destruct (Hstep u v Huv) as (a & b & Ha & Hb2 & Hab). split; intros He.
        + exists b. rewrite (Hfun _ _ _ He Ha). auto.
        + exists a. rewrite (Hfun _ _ _ He Hb2). auto.
      - split; intros He; exists e; auto.
      - destruct (IH e). auto.
      - split; intros He.
        + destruct (proj1 (IH1 e) He) as (a & Ha & Hea). destruct (proj1 (IH2 a) Ha) as (b & Hb2 & Hab). eauto.
        + destruct (proj2 (IH2 e) He) as (a & Ha & Hea). destruct (proj2 (IH1 a) Ha) as (b & Hb2 & Hab). eauto. }
    destruct (proj1 (Hwalk x y Hxy ex) Hx) as (ev & Hev & Hee). unfold elem_of in Hev, Hy. assert (ev = ey) by congruence. subst. exact Hee.
Qed.
Print Assumptions C98_groups.

(** A convolution with two groups inside a residual block: channels 0 and 2 of its output go
    together, and with channel 0 of the convolution before it; channels 0 and 1 do not. *)
Definition nd_ (k : kind) (p : list nat) (m : option nat) (nm : nat) : cnode :=
  {| c_kind := k; c_prev := p; c_mod := m; c_name := nm |}.
Definition ex_residual : list cnode :=
  [nd_ (KInput 3) [] None 0; nd_ (KConv 3 4 1) [0] (Some 1) 1; nd_ (KConv 4 4 2) [1] (Some 2) 2;
   nd_ KBind [1; 2] None 3; nd_ (KConv 4 2 1) [3] (Some 4) 4]%nat.
Definition groupedb (u : uf) (a b : nat) : bool :=
  match owing_elem_set u a with Ok ul => existsb (Nat.eqb b) (snd ul) | Raise _ => false end.
Lemma groupedb_ok u a b : groupedb u a b = true <-> grouped u a b.
Proof.
  unfold groupedb, grouped. destruct (owing_elem_set u a) as [[u' l]|e]; cbn [snd]; split.
  - intros H. apply existsb_In in H. eauto.
  - intros (s' & l' & E & H). inversion E; subst. apply existsb_In. exact H.
  - discriminate.
  - intros (s' & l' & E & _). discriminate.
Qed.
Example C98_case : exists s, forward ex_residual 3 = Ok s /\
  clos_refl_sym_trans chan (dep ex_residual (width s)) (1, SOut, 0)%nat (2, SOut, 2)%nat /\
  ~ clos_refl_sym_trans chan (dep ex_residual (width s)) (1, SOut, 0)%nat (2, SOut, 1)%nat.
Proof.
  destruct (forward ex_residual 3) as [s|e] eqn:E; [|vm_compute in E; discriminate E]. exists s. split; [reflexivity|].
  assert (Hs : single_inputs ex_residual).
  { intros nd H. repeat (destruct H as [<-|H]; [cbn; lia|]). destruct H. }
  assert (E2 : match forward ex_residual 3 with Ok s => (f_nodes s, groupedb (f_uf s) (nth 0 (t_out (trip_of s 1)) 0) (nth 2 (t_out (trip_of s 2)) 0),
       groupedb (f_uf s) (nth 0 (t_out (trip_of s 1)) 0) (nth 1 (t_out (trip_of s 2)) 0)) | Raise _ => ([], true, true) end%nat =
     match forward ex_residual 3 with Ok s => (f_nodes s, true, false) | Raise _ => ([], true, true) end) by (vm_compute; reflexivity).
  assert (W : match forward ex_residual 3 with Ok s => (length (t_out (trip_of s 1)), length (t_out (trip_of s 2))) | Raise _ => (0, 0)%nat end = (4, 4)%nat) by (vm_compute; reflexivity).
  rewrite E in E2, W. apply pair_equal_spec in E2 as [E2 B]. apply pair_equal_spec in E2 as [_ A]. apply pair_equal_spec in W as [W1 W2].
  assert (El : forall i k, (k < length (t_out (trip_of s i)))%nat -> elem_of s (i, SOut, k) (nth k (t_out (trip_of s i)) 0%nat)).
  { intros i k H. unfold elem_of. cbn [fst snd tens]. rewrite (nth_error_nth' _ 0%nat H). reflexivity. }
  split.
  - apply (proj1 (C98_groups ex_residual 3 s Hs E _ _ _ _ (El 1 0 ltac:(lia)) (El 2 2 ltac:(lia)))%nat). apply groupedb_ok. exact A.
  - intros H. apply (proj2 (C98_groups ex_residual 3 s Hs E _ _ _ _ (El 1 0 ltac:(lia)) (El 2 1 ltac:(lia)))%nat) in H. apply groupedb_ok in H. congruence.
Qed.
