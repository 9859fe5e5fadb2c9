(** C100, continued: what the number of channels of a unit means. *)
From Verif Require Import Prelude UnionFind_Model UnionFind_Props ChannelGraph_Model ChannelGraph_Props ChannelGraph2_Props ChannelGraph3_Props.
From Coq Require Import Sorting.Sorted Relations.
Local Open Scope nat_scope.

(** ** Proof: tensors that stay aligned *)
Lemma pairs_in : forall l u u' (T : nat -> nat -> Prop), Inv u -> (forall a b, In (a, b) l -> a < uf_n u /\ b < uf_n u) ->
  union_pairs u l = Ok u' ->
  Inv u' /\ uf_n u' = uf_n u /\ (forall x y, eqv u x y -> eqv u' x y) /\ (forall a b, In (a, b) l -> eqv u' a b) /\
  ((forall x, T x x) -> (forall x y, T x y -> T y x) -> (forall x y z, T x y -> T y z -> T x z) ->
   (forall x y, eqv u x y -> T x y) -> (forall a b, In (a, b) l -> T a b) -> forall x y, eqv u' x y -> T x y).
Proof.
  induction l as [|[a b] l IH]; intros u u' T HI Hl E; cbn in E.
  - apply Ok_inj in E. subst u'. split; [exact HI|]. split; [reflexivity|]. split; [auto|]. split; [intros ? ? []|auto].
  - destruct (Hl a b (or_introl eq_refl)) as [Ha Hb]. destruct (union_two u a b) as [u1|] eqn:E1; cbn in E; [|discriminate].
    destruct (union_ok u a b HI Ha Hb) as (u1' & ra & rb & E1' & I1 & N1 & _). rewrite E1 in E1'. apply Ok_inj in E1'. subst u1'.
    pose proof (union_eqv u a b u1 HI Ha Hb E1) as HE.
    destruct (IH u1 u' T I1) as (I2 & N2 & M2 & A2 & T2); [intros x y Hxy; rewrite N1; apply Hl; right; exact Hxy|exact E|].
    split; [exact I2|]. split; [lia|].
    assert (M1 : forall x y, eqv u x y -> eqv u1 x y) by (intros x y H; apply HE, rst_step; auto).
    split; [auto|]. split.
    + intros x y [H|H]; [injection H as <- <-; apply M2, HE, rst_step; auto|auto].
    + intros R1 R2 R3 HT HP. apply T2; auto; [|intros x y H; apply HP; right; exact H].
      intros x y H. apply HE in H. induction H as [x y [H|[-> ->]]|x|x y _ IH'|x y z _ IH1 _ IH2]; eauto. apply HP. left. reflexivity.
Qed.

(** Channel [j] of the tensor starting at [b]. *)
Definition memo (s : fstate) (b j : nat) : Prop := b + j < uf_n (f_uf s) /\ base_of (f_base s) (b + j) = b.
Definition whole (s : fstate) (t : list nat) : Prop := exists b, t = seq b (length t) /\ forall j, memo s b j <-> j < length t.
Notation bs s x := (base_of (f_base s) x).
Definition col (s : fstate) (b : nat) : Prop := forall j j', memo s b j -> memo s b j' -> eqv (f_uf s) (b + j) (b + j').
Definition inline (s : fstate) (x y : nat) : Prop := x - bs s x = y - bs s y /\
  forall j, (memo s (bs s x) j <-> memo s (bs s y) j) /\ (memo s (bs s x) j -> eqv (f_uf s) (bs s x + j) (bs s y + j)).
Definition conn (s : fstate) (A : nat -> Prop) (x : nat) : Prop := exists a, A a /\ eqv (f_uf s) x a.
Definition Q (s : fstate) (A : nat -> Prop) (x y : nat) : Prop := eqv (f_uf s) x y /\
  (inline s x y \/ (col s (bs s x) /\ col s (bs s y) /\ conn s A x)).
Definition AI (A : nat -> Prop) (s : fstate) : Prop := Inv (f_uf s) /\ BI s /\ forall x y, eqv (f_uf s) x y -> Q s A x y.

Lemma inline_refl s x : Inv (f_uf s) -> inline s x x.
Proof. intros HI. split; [reflexivity|]. intros j. split; [tauto|]. intros _. apply (proj1 (eqv_equiv _ HI)). Qed.
Lemma Q_refl s A x : Inv (f_uf s) -> Q s A x x.
Proof. intros HI. split; [apply (proj1 (eqv_equiv _ HI))|left; apply inline_refl; exact HI]. Qed.
Lemma Q_sym s A x y : Inv (f_uf s) -> Q s A x y -> Q s A y x.
Proof.
  intros HI [E H]. destruct (eqv_equiv _ HI) as (R1 & R2 & R3). split; [auto|]. destruct H as [[I1 I2]|(C1 & C2 & a & Ha & Ea)].
  - left. split; [auto|]. intros j. destruct (I2 j) as [J1 J2]. split; [tauto|]. intros M. apply R2, J2, J1, M.
  - right. split; [exact C2|]. split; [exact C1|]. exists a. split; [exact Ha|eauto].
Qed.
Lemma Q_trans s A x y z : Inv (f_uf s) -> Q s A x y -> Q s A y z -> Q s A x z.
Proof.
  intros HI [E1 H1] [E2 H2]. destruct (eqv_equiv _ HI) as (R1 & R2 & R3). split; [eauto|].
  assert (MV : forall p q, inline s p q -> col s (bs s q) -> col s (bs s p)).
  { intros p q [_ I2] C j j' M M'. destruct (I2 j) as [J1 J2], (I2 j') as [J1' J2']. eapply R3; [apply J2, M|]. eapply R3; [apply C; [apply J1, M|apply J1', M']|]. apply R2, J2', M'. }
  assert (SY : forall p q, inline s p q -> inline s q p).
  { intros p q [I1 I2]. split; [auto|]. intros j. destruct (I2 j) as [J1 J2]. split; [tauto|]. intros M. apply R2, J2, J1, M. }
  destruct H1 as [H1|(C1 & C2 & a & Ha & Ea)], H2 as [H2|(D1 & D2 & a' & Ha' & Ea')].
  - left. destruct H1 as [I1 I2], H2 as [K1 K2]. split; [congruence|]. intros j. destruct (I2 j) as [J1 J2], (K2 j) as [L1 L2]. split; [tauto|].
    intros M. eapply R3; [apply J2, M|apply L2, J1, M].
  - right. split; [eapply MV; eauto|]. split; [exact D2|]. exists a'. split; [exact Ha'|eauto].
  - right. split; [exact C1|]. split; [eapply MV; [apply SY; exact H2|exact C2]|]. exists a. auto.
  - right. split; [exact C1|]. split; [exact D2|]. exists a. auto.
Qed.

(** [s'] extends [s]: the old tensors keep their channels, and more is tied. *)
Definition grows (s s' : fstate) : Prop :=
  Inv (f_uf s') /\ BI s' /\ uf_n (f_uf s) <= uf_n (f_uf s') /\ (forall x y, eqv (f_uf s) x y -> eqv (f_uf s') x y) /\
  (forall x, x < uf_n (f_uf s) -> bs s' x = bs s x) /\
  (forall b j, b < uf_n (f_uf s) -> (memo s' b j <-> memo s b j)).
Lemma grows_refl s : Inv (f_uf s) -> BI s -> grows s s.
Proof. intros H B. split; [exact H|]. split; [exact B|]. split; [lia|]. split; [auto|]. split; [reflexivity|tauto]. Qed.
Lemma grows_trans a b c : grows a b -> grows b c -> grows a c.
Proof.
  intros (A1 & A2 & A3 & A4 & A5 & A6) (B1 & B2 & B3 & B4 & B5 & B6). split; [exact B1|]. split; [exact B2|]. split; [lia|]. split; [auto|].
  split; [intros x Hx; rewrite B5, A5 by lia; reflexivity|]. intros e j He. rewrite B6, A6 by lia. tauto.
Qed.
Lemma whole_lt s t b : BI s -> t <> [] -> t = seq b (length t) -> (forall j, memo s b j <-> j < length t) -> b < uf_n (f_uf s).
Proof. intros HB Ht _ M. assert (H : memo s b 0) by (apply M; destruct t; [congruence|cbn; lia]). destruct H. lia. Qed.
Lemma whole_grows s s' t : t <> [] -> BI s -> grows s s' -> whole s t -> whole s' t.
Proof.
  intros Ht HB (_ & _ & _ & _ & _ & G) (b & E & M). exists b. split; [exact E|]. intros j.
  rewrite G; [apply M|]. eapply whole_lt; eauto.
Qed.
Lemma Q_grows s s' (A A' : nat -> Prop) x y : BI s -> Inv (f_uf s) -> grows s s' -> (forall a, A a -> A' a) ->
  eqv (f_uf s) x y -> Q s A x y -> Q s' A' x y.
Proof.
  intros [_ HB] HI (I' & B' & N & M & EB & EM) HA E [_ H].
  destruct (le_lt_dec (uf_n (f_uf s)) x) as [Hx|Hx].
  { rewrite <- (eqv_new _ x y HI Hx E). apply Q_refl. exact I'. }
  destruct (le_lt_dec (uf_n (f_uf s)) y) as [Hy|Hy].
  { assert (E' := proj1 (proj2 (eqv_equiv _ HI)) _ _ E). rewrite (eqv_new _ y x HI Hy E'). apply Q_refl. exact I'. }
  pose proof (HB x Hx). pose proof (HB y Hy).
  split; [apply M; exact E|]. unfold inline, col, conn in *. rewrite !EB by assumption.
  destruct H as [[I1 I2]|(C1 & C2 & a & Ha & Ea)].
  - left. split; [exact I1|]. intros j. rewrite !EM by lia. destruct (I2 j) as [J1 J2]. split; [exact J1|]. intros Hm. apply M, J2, Hm.
  - right. split; [intros j j'; rewrite !EM by lia; intros; apply M, C1; assumption|].
    split; [intros j j'; rewrite !EM by lia; intros; apply M, C2; assumption|]. exists a. auto.
Qed.

Lemma fresh_ai A s k : AI A s -> let s' := fst (fresh s k) in let t := snd (fresh s k) in
  AI A s' /\ grows s s' /\ whole s' t /\ length t = k.
Proof.
  intros (HI & HB & HQ). cbv zeta. destruct (fresh_fine s k HI) as ((I1 & (N1 & B1) & _) & _ & L1).
  set (s' := fst (fresh s k)) in *. destruct HB as [LB LE].
  assert (EB : forall e, bs s' e = if Nat.ltb e (uf_n (f_uf s)) then bs s e else if Nat.ltb e (uf_n (f_uf s) + k) then uf_n (f_uf s) else 0).
  { intros e. unfold s'. cbn. apply base_grow. exact LB. }
  assert (EN : uf_n (f_uf s') = uf_n (f_uf s) + k) by reflexivity.
  assert (G : grows s s').
  { split; [exact I1|]. split; [apply B1; split; assumption|]. split; [exact N1|]. split; [auto|]. split.
    - intros x Hx. rewrite EB. destruct (Nat.ltb_spec x (uf_n (f_uf s))); [reflexivity|lia].
    - intros b j Hb. unfold memo. rewrite EN, EB. destruct (Nat.ltb_spec (b + j) (uf_n (f_uf s))); [split; intros [? ?]; split; auto; lia|].
      destruct (Nat.ltb_spec (b + j) (uf_n (f_uf s) + k)); split; intros [? ?]; lia. }
  split; [|split; [exact G|split; [|exact L1]]].
  - split; [exact I1|]. split; [apply B1; split; assumption|]. intros x y E. apply (Q_grows s s' A A x y); auto. split; assumption.
  - exists (uf_n (f_uf s)). rewrite L1. split; [reflexivity|]. intros j. unfold memo. rewrite EN, EB.
    destruct (Nat.ltb_spec (uf_n (f_uf s) + j) (uf_n (f_uf s))); [lia|]. destruct (Nat.ltb_spec (uf_n (f_uf s) + j) (uf_n (f_uf s) + k)); lia.
Qed.
Lemma union_ai A s t t' s' : AI A s -> t <> [] -> t' <> [] -> whole s t -> whole s t' -> f_union s t t' = Ok s' -> AI A s' /\ grows s s'.
Proof.
  intros (HI & HB & HQ) Ht Ht' (b & Eb & Mb) (b' & Eb' & Mb') E. unfold f_union, tensor_union in E.
  destruct (Nat.eqb_spec (length t) (length t')) as [Hl|Hl]; cbn in E; [|discriminate].
  destruct (union_pairs (f_uf s) (combine t t')) as [u|] eqn:Eu; cbn in E; [|discriminate]. apply Ok_inj in E. subst s'.
  assert (HP : forall x y, In (x, y) (combine t t') <-> exists j, j < length t /\ x = b + j /\ y = b' + j).
  { intros x y. split.
    - intros H. apply combine_nth_error in H as (j & H1 & H2). rewrite Eb in H1. rewrite Eb' in H2. apply nth_error_seq in H1 as [-> H1]. apply nth_error_seq in H2 as [-> _]. eauto.
    - intros (j & Hj & -> & ->). apply nth_error_combine with j; [rewrite Eb|rewrite Eb']; rewrite (nth_error_nth' _ 0); rewrite ?seq_length, ?seq_nth by lia; try reflexivity; lia. }
  assert (HV : forall x y, In (x, y) (combine t t') -> x < uf_n (f_uf s) /\ y < uf_n (f_uf s)).
  { intros x y H. apply HP in H as (j & Hj & -> & ->). assert (memo s b j) by (apply Mb; exact Hj). assert (memo s b' j) by (apply Mb'; lia). unfold memo in *. lia. }
  destruct (pairs_in _ _ _ (Q (with_uf s u) A) HI HV Eu) as (I1 & N1 & M1 & P1 & T1).
  assert (HB' : BI (with_uf s u)) by (destruct HB; unfold BI; cbn; rewrite N1; auto).
  assert (G : grows s (with_uf s u)).
  { split; [exact I1|]. split; [exact HB'|]. split; [cbn; lia|]. split; [exact M1|]. split; [reflexivity|]. intros; unfold memo; cbn; rewrite N1; tauto. }
  split; [|exact G]. split; [exact I1|]. split; [exact HB'|]. apply T1.
  - intros x. apply Q_refl. exact I1.
  - intros x y. apply Q_sym. exact I1.
  - intros x y z. apply Q_trans. exact I1.
  - intros x y H. apply (Q_grows s _ A A x y); auto.
  - intros x y H. split; [apply P1; exact H|left]. apply HP in H as (j & Hj & -> & ->).
    assert (M : memo s b j) by (apply Mb; exact Hj). assert (M' : memo s b' j) by (apply Mb'; lia).
    unfold inline. cbn [f_base with_uf]. rewrite (proj2 M), (proj2 M'). split; [lia|]. intros i.
    assert (MU : forall b j, memo (with_uf s u) b j <-> memo s b j) by (intros; unfold memo; cbn; rewrite N1; tauto).
    rewrite !MU, Mb, Mb', Hl. split; [tauto|]. intros Hi. apply P1. apply HP. exists i. rewrite Hl. auto.
Qed.
Lemma expand_ai (A : nat -> Prop) s a r s' o : AI A s -> A a -> whole s [a] -> f_expand s [a] r = Ok (s', o) ->
  AI A s' /\ grows s s' /\ whole s' o /\ length o = r.
Proof.
  intros HA Ha (b & Eb & Mb) E. cbn in Eb. injection Eb as ->. cbn [length] in Mb.
  pose proof HA as (HI & HB & HQ).
  destruct (fresh_ai A s (r * 1) HA) as ((I1 & B1 & Q1) & G1 & W1 & L1).
  unfold f_expand, tensor_expand in E. cbn [length] in E. cbn [new_tensor fst snd] in E.
  change (seq (uf_n (f_uf s)) (r * 1)) with (snd (fresh s (r * 1))) in E. change ({| uf_n := uf_n (f_uf s) + r * 1; uf_parent := uf_parent (f_uf s); uf_subs := uf_subs (f_uf s) |}) with (f_uf (fst (fresh s (r * 1)))) in E.
  set (s1 := fst (fresh s (r * 1))) in *. set (nw := snd (fresh s (r * 1))) in *.
  set (ps := flat_map _ _) in E. destruct (union_pairs (f_uf s1) ps) as [u|] eqn:Eu; cbn [bind] in E; [|discriminate].
  apply Ok_inj in E. injection E as <- <-. change (f_base s ++ repeat (uf_n (f_uf s)) (r * 1)) with (f_base s1). change (f_nodes s) with (f_nodes s1). fold (with_uf s1 u).
  destruct W1 as (c & Ec & Mc). rewrite Nat.mul_1_r in L1. rewrite L1 in *.
  assert (HP : forall x y, In (x, y) ps <-> exists j, j < r /\ x = b /\ y = c + j).
  { intros x y. unfold ps. change [b] with ([b] : list nat). pose proof (expand_pairs_in [b] r nw x y) as H. cbn [length] in H. rewrite H. split.
    - intros (i & j & Hi & Hj & -> & ->). assert (i = 0) by lia. subst i. exists j. split; [exact Hj|]. split; [reflexivity|]. cbn [Nat.mul]. rewrite Nat.add_0_l, Ec, seq_nth by lia. reflexivity.
    - intros (j & Hj & -> & ->). exists 0, j. split; [lia|]. split; [exact Hj|]. split; [reflexivity|]. cbn [Nat.mul]. rewrite Nat.add_0_l, Ec, seq_nth by lia. reflexivity. }
  assert (Hb : memo s b 0) by (apply Mb; lia).
  assert (HV : forall x y, In (x, y) ps -> x < uf_n (f_uf s1) /\ y < uf_n (f_uf s1)).
  { intros x y H. apply HP in H as (j & Hj & -> & ->). assert (memo s1 c j) by (apply Mc; exact Hj). destruct G1 as (_ & _ & N & _). unfold memo in *. lia. }
  destruct (pairs_in _ _ _ (Q (with_uf s1 u) A) I1 HV Eu) as (I2 & N2 & M2 & P2 & T2).
  assert (HB' : BI (with_uf s1 u)) by (destruct B1; unfold BI; cbn [f_base with_uf f_uf]; rewrite N2; auto).
  assert (MU : forall b j, memo (with_uf s1 u) b j <-> memo s1 b j) by (intros; unfold memo; cbn [f_base with_uf f_uf]; rewrite N2; tauto).
  assert (G : grows s1 (with_uf s1 u)).
  { split; [exact I2|]. split; [exact HB'|]. split; [cbn [with_uf f_uf]; lia|]. split; [exact M2|]. split; [reflexivity|]. intros; apply MU. }
  split; [|split; [eapply grows_trans; eauto|split; [|reflexivity]]].
  - split; [exact I2|]. split; [exact HB'|]. destruct (eqv_equiv _ I2) as (R1 & R2 & R3). apply T2.
    + intros x. apply Q_refl. exact I2.
    + intros x y. apply Q_sym. exact I2.
    + intros x y z. apply Q_trans. exact I2.
    + intros x y H. apply (Q_grows s1 _ A A x y); auto.
    + intros x y H. split; [apply P2; exact H|right]. apply HP in H as (j & Hj & -> & ->).
      destruct G1 as (_ & _ & N1 & _ & EB & EM).
      assert (Mj : memo s1 c j) by (apply Mc; exact Hj).
      assert (Eb2 : bs (with_uf s1 u) b = b). { cbn [f_base with_uf]. rewrite EB by (destruct Hb; lia). destruct Hb as [_ Hb]. rewrite Nat.add_0_r in Hb. exact Hb. }
      assert (Ec2 : bs (with_uf s1 u) (c + j) = c) by apply (proj2 Mj). rewrite Eb2, Ec2.
      assert (HE : forall i, i < r -> eqv u b (c + i)) by (intros i Hi; apply P2, HP; eauto).
      split; [|split].
      * intros i i' H1 H2. rewrite MU in H1, H2. rewrite EM, Mb in H1, H2 by (destruct Hb; lia). replace i with 0 by lia. replace i' with 0 by lia. apply R1.
      * intros i i' H1 H2. rewrite MU, Mc in H1, H2. eapply R3; [apply R2, HE, H1|apply HE, H2].
      * exists b. split; [exact Ha|apply R1].
  - exists c. rewrite L1. split; [exact Ec|]. intros j. rewrite MU. apply Mc.
Qed.

Definition aligned_kind (k : kind) : Prop :=
  match k with
  | KConv i o g => g = 1 \/ depthwise i o g
  | KGn _ _ | KCat | KExpand _ => False
  | _ => True
  end.
Definition wh (s : fstate) (t : list nat) : Prop := t <> [] /\ whole s t.
Lemma wh_grows s s' t : BI s -> grows s s' -> wh s t -> wh s' t.
Proof. intros HB G [H1 H2]. split; [exact H1|]. eapply whole_grows; eauto. Qed.
Definition twh (s : fstate) (tr : trip) : Prop := wh s (t_in tr) /\ wh s (t_out tr) /\ wh s (t_ret tr).
Lemma twh_grows s s' tr : BI s -> grows s s' -> twh s tr -> twh s' tr.
Proof. intros HB G (A & B & C). split; [|split]; eapply wh_grows; eauto. Qed.
Lemma AI_more (A A' : nat -> Prop) s : (forall a, A a -> A' a) -> AI A s -> AI A' s.
Proof. intros H (HI & HB & HQ). split; [exact HI|]. split; [exact HB|]. intros x y E. apply (Q_grows s s A A' x y); auto. apply grows_refl; assumption. Qed.
Lemma fresh_wh A s k : AI A s -> 0 < k -> AI A (fst (fresh s k)) /\ grows s (fst (fresh s k)) /\ wh (fst (fresh s k)) (snd (fresh s k)).
Proof.
  intros HA Hk. destruct (fresh_ai A s k HA) as (A1 & G1 & W1 & L1). split; [exact A1|]. split; [exact G1|]. split; [|exact W1].
  intros E. rewrite E in L1. cbn in L1. lia.
Qed.
Lemma mix_ai A s cout ts s' tr : AI A s -> 0 < cout -> (forall t, In t ts -> wh s t) -> mix s cout ts = Ok (s', tr) -> AI A s' /\ grows s s' /\ twh s' tr.
Proof.
  intros HA Hc Hts E. unfold mix in E. destruct ts as [|t [|]]; try discriminate. destruct (fresh_wh A s cout HA Hc) as (A1 & G1 & W1).
  destruct (fresh s cout) as [s1 o]. cbn [fst snd] in *. apply Ok_inj in E. injection E as <- <-. split; [exact A1|]. split; [exact G1|].
  pose proof (wh_grows s s1 t (proj1 (proj2 HA)) G1 (Hts t (or_introl eq_refl))). split; [|split]; assumption.
Qed.
Lemma pass_ai A s io ts s' tr : AI A s -> (forall t, In t ts -> wh s t) -> pass_union s io ts = Ok (s', tr) -> AI A s' /\ grows s s' /\ twh s' tr.
Proof.
  intros HA Hts E. unfold pass_union in E. destruct ts as [|t ts]; cbn in E; [discriminate|]. destruct io as [[i o]|]; cbn in E; [|discriminate].
  destruct (Nat.eqb i o); cbn in E; [|discriminate]. apply Ok_inj in E. injection E as <- <-. split; [exact HA|]. split; [apply grows_refl; apply HA|].
  pose proof (Hts t (or_introl eq_refl)). split; [|split]; assumption.
Qed.
Lemma cf_ai A s k io ts s' tr : AI A s -> (forall t, In t ts -> wh s t) -> aligned_kind k -> numbers_ok k ->
  channel_forward s k io ts = Ok (s', tr) ->
  AI (fun a => A a \/ (k = KEnd /\ t_in tr = [a])) s' /\ grows s s' /\ twh s' tr.
Proof.
  intros HA Hts HK HN E.
  assert (KEY : k <> KEnd -> AI A s' /\ grows s s' /\ twh s' tr).
  { intros NE. destruct k as [i o g|i o|c|c g| | | | |r|c|]; cbn [channel_forward] in E; try contradiction; try congruence.
    - unfold conv_type_of in E. cbn in HN. destruct (Nat.eqb_spec g 1) as [->|Hg].
      + apply (mix_ai A s o ts); auto. lia.
      + destruct HK as [HK|(_ & -> & ->)]; [contradiction|]. rewrite Nat.eqb_refl in E. cbn in E. eapply pass_ai; eauto.
    - apply (mix_ai A s o ts); auto. cbn in HN. lia.
    - eapply pass_ai; eauto.
    - destruct ts as [|t [|]]; try discriminate. destruct (fresh_wh A s 1 HA) as (A1 & G1 & W1); [lia|].
      destruct (fresh s 1) as [s1 a]. cbn [fst snd] in *. destruct (fresh_wh A s1 1 A1) as (A2 & G2 & W2); [lia|].
      destruct (fresh s1 1) as [s2 b]. cbn [fst snd] in *. apply Ok_inj in E. injection E as <- <-.
      assert (G : grows s s2) by (eapply grows_trans; eauto). split; [exact A2|]. split; [exact G|].
      split; [|split]; cbn [t_in t_out t_ret]; [eapply wh_grows; [apply A1|exact G2|exact W1]|exact W2|].
      eapply wh_grows; [apply HA|exact G|apply Hts; left; reflexivity].
    - eapply pass_ai; eauto.
    - destruct ts as [|t r]; [discriminate|].
      destruct (foldM (fun s t' => f_union s t t') r s) as [s1|] eqn:EF; cbn in E; [|discriminate]. apply Ok_inj in E. injection E as <- <-.
      assert (HF : forall r s s1, AI A s -> wh s t -> (forall t, In t r -> wh s t) -> foldM (fun s t' => f_union s t t') r s = Ok s1 -> AI A s1 /\ grows s s1).
      { clear. induction r as [|t' r IH]; intros s s1 HA Ht Hr E; cbn in E; [apply Ok_inj in E; subst; split; [exact HA|apply grows_refl; apply HA]|].
        destruct (f_union s t t') as [s0|] eqn:E0; cbn in E; [|discriminate].
        destruct (union_ai A s t t' s0) as [A0 G0]; auto; [apply Ht|apply (Hr t'); left; reflexivity|apply Ht|apply (Hr t'); left; reflexivity|].
        destruct (IH s0 s1 A0) as [A1 G1]; [eapply wh_grows; [apply HA|exact G0|exact Ht]| |exact E|].
        - intros x Hx. eapply wh_grows; [apply HA|exact G0|apply Hr; right; exact Hx].
        - split; [exact A1|eapply grows_trans; eauto]. }
      destruct (HF r s s1 HA) as [A1 G1]; [apply Hts; left; reflexivity|intros x Hx; apply Hts; right; exact Hx|exact EF|].
      split; [exact A1|]. split; [exact G1|]. pose proof (wh_grows s s1 t (proj1 (proj2 HA)) G1 (Hts t (or_introl eq_refl))). split; [|split]; assumption.
    - destruct (fresh_wh A s c HA) as (A1 & G1 & W1); [exact HN|]. destruct (fresh s c) as [s1 t]. cbn [fst snd] in *. apply Ok_inj in E. injection E as <- <-.
      split; [exact A1|]. split; [exact G1|]. split; [|split]; assumption. }
  assert (HE : k = KEnd \/ k <> KEnd) by (destruct k; auto; right; discriminate). destruct HE as [->|NE].
  - clear KEY. cbn [channel_forward] in E. destruct (fresh_wh A s 1 HA) as (A1 & G1 & W1); [lia|].
    assert (HE1 : exists e, snd (fresh s 1) = [e]) by (cbn; eauto). destruct HE1 as [e HE1].
    destruct (fresh s 1) as [s1 e']. cbn [fst snd] in *. subst e'.
    set (A' := fun a => A a \/ a = e).
    destruct (foldM _ ts s1) as [s2|] eqn:EF; cbn [bind] in E; [|discriminate]. apply Ok_inj in E. injection E as <- <-. cbn [t_in].
    assert (HF : forall r s s1, AI A' s -> wh s [e] -> (forall t, In t r -> wh s t) ->
       foldM (fun s t => do se <- f_expand s [e] (length t); f_union (fst se) t (snd se)) r s = Ok s1 -> AI A' s1 /\ grows s s1).
    { clear. induction r as [|t r IH]; intros s s1 HA He Hr E; cbn [foldM] in E; [apply Ok_inj in E; subst; split; [exact HA|apply grows_refl; apply HA]|].
      destruct (f_expand s [e] (length t)) as [[s0 o]|] eqn:E0; cbn [bind fst snd] in E; [|discriminate].
      destruct (f_union s0 t o) as [s2|] eqn:E2; cbn [bind] in E; [|discriminate].
      destruct (expand_ai A' s e (length t) s0 o HA) as (A0 & G0 & W0 & L0); [right; reflexivity|apply He|exact E0|].
      assert (Wt : wh s0 t) by (eapply wh_grows; [apply HA|exact G0|apply Hr; left; reflexivity]).
      destruct (union_ai A' s0 t o s2 A0) as [A2 G2]; [apply Wt| |apply Wt|exact W0|exact E2|].
      { intros ->. cbn in L0. destruct t; [apply (proj1 Wt); reflexivity|discriminate]. }
      assert (G02 : grows s s2) by (eapply grows_trans; eauto).
      destruct (IH s2 s1 A2) as [A3 G3]; [eapply wh_grows; [apply HA|exact G02|exact He]| |exact E|].
      - intros x Hx. eapply wh_grows; [apply HA|exact G02|apply Hr; right; exact Hx].
      - split; [exact A3|eapply grows_trans; eauto]. }
    destruct (HF ts s1 s2) as [A2 G2]; [apply (AI_more A); [left; assumption|exact A1]|exact W1| |exact EF|].
    { intros t Ht. eapply wh_grows; [apply HA|exact G1|apply Hts; exact Ht]. }
    split; [|split].
    + apply (AI_more A'); [|exact A2]. intros a [Ha| ->]; auto.
    + eapply grows_trans; eauto.
    + pose proof (wh_grows s1 s2 [e] (proj1 (proj2 A1)) G2 W1). split; [|split]; assumption.
  - destruct (KEY NE) as (A1 & G1 & T1). split; [|auto]. apply (AI_more A); [auto|exact A1].
Qed.

(** *** The whole graph *)
Section Aligned.
Variable g : list cnode.
Variable W : nat -> nat * nat.
Variable numin : nat.
Hypothesis wf : well_formed g.
Hypothesis HW : counts g W.
Hypothesis HK : forall nd, In nd g -> aligned_kind (c_kind nd).
Definition ends (s : fstate) (a : nat) : Prop :=
  exists i nd, i < length (f_nodes s) /\ nth_error g i = Some nd /\ c_kind nd = KEnd /\ t_in (trip_of s i) = [a].
Definition NI (s : fstate) : Prop := AI (ends s) s /\ forall i, i < length (f_nodes s) -> twh s (trip_of s i).
Lemma node_ai s nd s' : NI s -> nth_error g (length (f_nodes s)) = Some nd ->
  forward_node numin (channel_table g) s nd = Ok s' -> NI s' /\ length (f_nodes s') = S (length (f_nodes s)).
Proof.
  intros [HA HT] En E. unfold forward_node in E. destruct (match c_prev nd with [] => _ | _ :: _ => _ end) as [[s1 tr]|] eqn:E1; [|discriminate].
  apply Ok_inj in E. subst s'.
  assert (HX : AI (fun a => ends s a \/ (c_kind nd = KEnd /\ t_in tr = [a])) s1 /\ grows s s1 /\ twh s1 tr /\ f_nodes s1 = f_nodes s).
  { pose proof (HK nd (nth_error_In _ _ En)) as HKn. pose proof (wf_numbers g wf nd (nth_error_In _ _ En)) as HNn. destruct (c_prev nd) as [|p ps] eqn:Ep.
    - destruct (fresh_ai (ends s) s numin HA) as (A0 & G0 & W0 & L0).
      destruct (fresh s numin) as [s0 t] eqn:Ef. cbn [fst snd] in *.
      assert (F0 : f_nodes s0 = f_nodes s) by (injection Ef as <- _; reflexivity).
      pose proof (wf_arity g wf nd (nth_error_In _ _ En)) as HAr. unfold arity_ok in HAr. rewrite Ep in HAr.
      assert (HI : exists c, c_kind nd = KInput c) by (destruct (c_kind nd); try congruence; try (destruct HAr; discriminate); eauto).
      destruct HI as [c HI]. pose proof (cf_nodes _ _ _ _ _ _ E1) as F1.
      assert (E1' : channel_forward s0 (c_kind nd) (channels_of (channel_table g) nd) [] = Ok (s1, tr)) by (rewrite HI in E1 |- *; exact E1).
      destruct (cf_ai (ends s) s0 (c_kind nd) (channels_of (channel_table g) nd) [] s1 tr A0) as (A1 & G1 & T1); [intros ? []|exact HKn|exact HNn|exact E1'|].
      split; [exact A1|]. split; [eapply grows_trans; eauto|]. split; [exact T1|congruence].
    - rewrite <- Ep in *. destruct (mapM (ret_of s) (c_prev nd)) as [ts|] eqn:Em; cbn [bind] in E1; [|discriminate].
      pose proof (cf_nodes _ _ _ _ _ _ E1) as F1. pose proof (rets_spec s _ _ Em) as HR.
      destruct (cf_ai (ends s) s (c_kind nd) (channels_of (channel_table g) nd) ts s1 tr HA) as (A1 & G1 & T1); [|exact HKn|exact HNn|exact E1|].
      + intros t Ht. destruct (Forall2_In_r _ _ _ _ HR Ht) as (q & _ & Hq & ->). apply (HT q Hq).
      + split; [exact A1|]. split; [exact G1|]. split; [exact T1|exact F1]. }
  destruct HX as (A1 & G1 & T1 & F1).
  assert (LN : length (f_nodes (add_trip s1 tr)) = S (length (f_nodes s))) by (cbn; rewrite app_length, F1; cbn; lia).
  split; [|exact LN]. split.
  - change (AI (ends (add_trip s1 tr)) s1). apply (AI_more (fun a => ends s a \/ (c_kind nd = KEnd /\ t_in tr = [a]))); [|exact A1].
    intros a [(i & ni & Hi & Eni & Ki & Ti)|[Ki Ti]].
    + exists i, ni. split; [lia|]. split; [exact Eni|]. split; [exact Ki|]. rewrite trip_of_add by (rewrite F1; exact Hi). rewrite (trip_of_nodes s s1 i F1). exact Ti.
    + exists (length (f_nodes s)), nd. split; [lia|]. split; [exact En|]. split; [exact Ki|]. rewrite <- F1, trip_of_last. exact Ti.
  - intros i Hi. rewrite LN in Hi. change (twh s1 (trip_of (add_trip s1 tr) i)). destruct (Nat.eq_dec i (length (f_nodes s))) as [->|Hne].
    + rewrite <- F1, trip_of_last. exact T1.
    + rewrite trip_of_add by (rewrite F1; lia). rewrite (trip_of_nodes s s1 i F1). eapply twh_grows; [apply HA|exact G1|apply HT; lia].
Qed.
Lemma nodes_ai : forall l s s', NI s -> (forall k nd, nth_error l k = Some nd -> nth_error g (length (f_nodes s) + k) = Some nd) ->
  foldM (forward_node numin (channel_table g)) l s = Ok s' -> NI s' /\ length (f_nodes s') = length (f_nodes s) + length l.
Proof.
  induction l as [|nd l IH]; intros s s' HN Hl E; cbn [foldM] in E; [apply Ok_inj in E; subst; split; [exact HN|cbn; lia]|].
  destruct (forward_node numin (channel_table g) s nd) as [s1|] eqn:E1; cbn [bind] in E; [|discriminate].
  assert (En : nth_error g (length (f_nodes s)) = Some nd) by (rewrite <- (Nat.add_0_r (length _)); apply Hl; reflexivity).
  destruct (node_ai s nd s1 HN En E1) as [N1 L1].
  destruct (IH s1 s' N1) as [N2 L2]; [|exact E|].
  - intros k nd' Hk. rewrite L1. replace (S (length (f_nodes s)) + k) with (length (f_nodes s) + S k) by lia. apply Hl. exact Hk.
  - split; [exact N2|]. rewrite L2, L1. cbn. lia.
Qed.
Lemma merge_two_ai s i j s' : NI s -> i < length (f_nodes s) -> j < length (f_nodes s) -> merge_two s i j = Ok s' -> NI s' /\ f_nodes s' = f_nodes s.
Proof.
  intros [HA HT] Hi Hj E. unfold merge_two in E. destruct (f_union s _ _) as [s1|] eqn:E1; cbn [bind] in E; [|discriminate].
  destruct (HT i Hi) as (I1 & I2 & _). destruct (HT j Hj) as (J1 & J2 & _).
  destruct (union_ai _ s _ _ s1 HA (proj1 I1) (proj1 J1) (proj2 I1) (proj2 J1) E1) as [A1 G1].
  pose proof (wh_grows s s1 _ (proj1 (proj2 HA)) G1 I2) as I2'. pose proof (wh_grows s s1 _ (proj1 (proj2 HA)) G1 J2) as J2'.
  destruct (union_ai _ s1 _ _ s' A1 (proj1 I2') (proj1 J2') (proj2 I2') (proj2 J2') E) as [A2 G2].
  assert (F : f_nodes s' = f_nodes s) by (rewrite (union_nodes _ _ _ _ E), (union_nodes _ _ _ _ E1); reflexivity).
  split; [|exact F]. split.
  - apply (AI_more (ends s)); [|exact A2]. intros a (k & nd & A & B & C & D). exists k, nd. rewrite F, (trip_of_nodes s s' k F). auto.
  - intros k Hk. rewrite F in Hk. rewrite (trip_of_nodes s s' k F). eapply twh_grows; [apply HA|eapply grows_trans; eauto|apply HT; exact Hk].
Qed.
Lemma forward_ai s : forward g numin = Ok s -> NI s /\ length (f_nodes s) = length g.
Proof.
  intros E. unfold forward, forward_nodes in E. destruct (foldM _ g f_init) as [s0|] eqn:E0; cbn [bind] in E; [|discriminate].
  destruct (nodes_ai g f_init s0) as [N0 L0]; [|intros k nd Hk; exact Hk|exact E0|].
  { split; [|cbn; lia]. split; [exact inv_empty|]. split; [split; [reflexivity|cbn; lia]|]. intros x y H. rewrite (eqv_new _ x y inv_empty (Nat.le_0_l x) H). apply Q_refl. exact inv_empty. }
  cbn in L0. unfold merge_same_module in E.
  assert (HM : forall l i s s', NI s -> length (f_nodes s) = length g -> i < length g -> (forall j, In j l -> j < length g) ->
     foldM (fun s j => merge_two s i j) l s = Ok s' -> NI s' /\ length (f_nodes s') = length g).
  { induction l as [|j l IH]; intros i s1 s2 HN HL Hi Hl E1; cbn [foldM] in E1; [apply Ok_inj in E1; subst; auto|].
    destruct (merge_two s1 i j) as [s3|] eqn:E3; cbn [bind] in E1; [|discriminate].
    destruct (merge_two_ai s1 i j s3 HN) as [N3 F3]; [lia|rewrite HL; apply Hl; left; reflexivity|exact E3|].
    apply (IH i s3 s2 N3); [congruence|exact Hi|intros x Hx; apply Hl; right; exact Hx|exact E1]. }
  assert (HMM : forall ms s s', NI s -> length (f_nodes s) = length g -> foldM (merge_module g) ms s = Ok s' -> NI s' /\ length (f_nodes s') = length g).
  { induction ms as [|m ms IH]; intros s1 s2 HN HL E1; cbn [foldM] in E1; [apply Ok_inj in E1; subst; auto|].
    destruct (merge_module g s1 m) as [s3|] eqn:E3; cbn [bind] in E1; [|discriminate].
    assert (H3 : NI s3 /\ length (f_nodes s3) = length g).
    { unfold merge_module in E3. destruct (nodes_of g m) as [|i r] eqn:En; [apply Ok_inj in E3; subst; auto|].
      assert (Hin : forall j, In j (i :: r) -> j < length g) by (intros j Hj; rewrite <- En in Hj; unfold nodes_of in Hj; apply filter_In in Hj as [Hj _]; apply in_seq in Hj; lia).
      apply (HM r i s1 s3 HN HL); [apply Hin; left; reflexivity|intros j Hj; apply Hin; right; exact Hj|exact E3]. }
    destruct H3 as [N3 L3]. exact (IH s3 s2 N3 L3 E1). }
  exact (HMM (modules g []) s0 s N0 L0 E).
Qed.
End Aligned.
