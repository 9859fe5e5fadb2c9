(** The weights of a deployed model (C200). *)
From Coq Require Import String QArith Qround Qminmax Qabs Lqa.
From Verif Require Import Prelude Gptq_Model Onnx_Model Deploy_Model.
Local Open Scope list_scope.
Local Open Scope Z_scope.

(** ** C200 *)
(** *** Specification *)
(** The weights a QAT module computes with: its weights through its weight_fake_quant. *)
Definition used (s : scheme) (t : dmod) : option (list (list Q)) :=
  match t with DQat _ w p => Some (map (fun cp => map (fq (lo s) (hi s) (snd cp)) (fst cp)) (combine w p)) | _ => None end.
Definition same (a b : list (list Q)) : Prop := Forall2 (Forall2 Qeq) a b.
(** The schemes a configuration can give (C49). *)
Definition valid (s : scheme) : Prop := exists b, 2 <= b /\
  ((signed s = true /\ hi s = 2 ^ (b - 1) - 1 /\ (lo s = - 2 ^ (b - 1) \/ lo s = - 2 ^ (b - 1) + 1)) \/ (signed s = false /\ lo s = 0 /\ hi s = 2 ^ b - 1)).
(** Parameters a weight_fake_quant of the scheme can have. *)
Definition fits (eps : Q) (s : scheme) (p : Q * Z) : Prop := (eps <= fst p)%Q /\ lo s <= snd p <= hi s /\ (symmetric s = true -> signed s = true -> snd p = 0).
(** Deploying with update_weight_with_fakequant and keep_w_fake_quant, as get_deploy_model does, gives modules that compute with the weights of the quantized
    model (with their batch norms folded). *)
Definition kept_weights (params : Q -> scheme -> list Q -> Q * Z -> Prop) : Prop := forall eps s fcl fold_bn merge cls w p, (0 < eps)%Q -> valid s -> length p = length (fold_bn cls w) ->
  (forall c x, In (c, x) (combine (fold_bn cls w) p) -> fits eps s x /\ params eps s c x) ->
  exists u, used s (deploy1 eps s fcl fold_bn merge true true cls w p) = Some u /\ same u (map (fun cp => map (fq (lo s) (hi s) (snd cp)) (fst cp)) (combine (fold_bn cls w) p)).
Definition C200_claim : Prop := kept_weights (fun _ _ _ _ => True).

(** *** Refutations *)
Definition signed8 (sym : bool) : scheme := {| symmetric := sym; signed := true; lo := -128; hi := 127 |}.
Lemma valid8 sym : valid (signed8 sym).
Proof. exists 8. split; [lia|]. left. repeat split. left. reflexivity. Qed.
Definition symmetric8 : scheme := {| symmetric := true; signed := true; lo := -127; hi := 127 |}.
Lemma valid8s : valid symmetric8.
Proof. exists 8. split; [lia|]. left. repeat split. right. reflexivity. Qed.
Ltac refute s ch x := let H := fresh "H" in intros H; specialize (H (1 # 1000)%Q s (fun n => n) (fun _ ww => ww) (fun _ => None) ""%string [ch] [x] ltac:(reflexivity)).
(** In a symmetric scheme whose range is not symmetric (the default), even with the parameters observed on the weights. *)
Theorem C200_range_refuted : ~ kept_weights (fun eps s c x => x = qparams_of eps s c).
Proof.
  refute (signed8 true) [1; -(1#2)]%Q (qparams_of (1 # 1000) (signed8 true) [1; -(1#2)]%Q). destruct (H (valid8 true) eq_refl) as (u & U & S).
  - intros c x [E|[]]. injection E as <- <-. repeat split; try reflexivity; vm_compute; congruence.
  - injection U as <-. inversion S as [|a b l l' A B]; subst. inversion A as [|a' b' m m' C D]; subst. vm_compute in C. discriminate C.
Qed.
(** With a symmetric range, for learned scales that do not use all of it. *)
Theorem C200_learned_refuted : ~ kept_weights (fun _ s _ _ => symmetric s = true /\ lo s = - hi s).
Proof.
  refute symmetric8 [3; 1]%Q (1%Q, 0). destruct (H valid8s eq_refl) as (u & U & S).
  - intros c x [E|[]]. injection E as <- <-. repeat split; try reflexivity; vm_compute; congruence.
  - injection U as <-. inversion S as [|a b l l' A B]; subst. inversion A as [|a' b' m m' C D]; subst. inversion D as [|a2 b2 m2 m2' C2 D2]; subst. vm_compute in C2. discriminate C2.
Qed.
(** In an affine scheme with observed parameters, when the smallest weight is halfway between two steps. *)
Theorem C200_halfway_refuted : ~ kept_weights (fun eps s c x => symmetric s = false /\ x = qparams_of eps s c).
Proof.
  refute (signed8 false) [-(1#2); 509#2; 100]%Q (qparams_of (1 # 1000) (signed8 false) [-(1#2); 509#2; 100]%Q). destruct (H (valid8 false) eq_refl) as (u & U & S).
  - intros c x [E|[]]. injection E as <- <-. repeat split; try reflexivity; vm_compute; congruence.
  - injection U as <-. inversion S as [|a b l l' A B]; subst. inversion A as [|a' b' m m' C D]; subst. inversion D as [|a2 b2 m2 m2' C2 D2]; subst. inversion D2 as [|a3 b3 m3 m3' C3 D3]; subst. vm_compute in C3. discriminate C3.
Qed.

Theorem C200_keeps_refuted : ~ C200_claim.
Proof. intros H. apply C200_range_refuted. intros eps s fcl fb mg cls w p EP VA LEN FIT. apply H; try assumption. intros c x I0. split; [exact (proj1 (FIT c x I0))|exact I]. Qed.

(** *** Rounding *)
Definition halfway (x : Q) : Prop := exists n, (x == inject_Z n + (1 # 2))%Q.
Lemma rnd_comp x y : (x == y)%Q -> rnd x = rnd y.
Proof. intros E. unfold rnd. rewrite (Qfloor_comp _ _ E). destruct (_ ?= _)%Q eqn:A, (y - inject_Z (Qfloor y) ?= 1 # 2)%Q eqn:B; try reflexivity; exfalso; rewrite E in A; congruence. Qed.
Lemma rnd_near x : (inject_Z (rnd x) - x <= 1 # 2)%Q /\ (x - inject_Z (rnd x) <= 1 # 2)%Q /\ (~ halfway x -> inject_Z (rnd x) - x < 1 # 2 /\ x - inject_Z (rnd x) < 1 # 2)%Q.
Proof.
  unfold rnd. pose proof (Qfloor_le x) as A. pose proof (Qlt_floor x) as B. set (f := Qfloor x) in *. rewrite inject_Z_plus in B. change (inject_Z 1) with 1%Q in B.
  destruct (x - inject_Z f ?= 1 # 2)%Q eqn:E.
  - apply Qeq_alt in E. assert (H : halfway x) by (exists f; lra). destruct (Z.even f); [|rewrite inject_Z_plus; change (inject_Z 1) with 1%Q]; repeat split; try lra; contradiction.
  - apply Qlt_alt in E. repeat split; try lra.
  - apply Qgt_alt in E. rewrite inject_Z_plus. change (inject_Z 1) with 1%Q. repeat split; try lra.
Qed.
Lemma inj_lt a b : (inject_Z a < inject_Z b + 1)%Q -> a <= b.
Proof. intros H. change 1%Q with (inject_Z 1) in H. rewrite <- inject_Z_plus in H. rewrite <- Zlt_Qlt in H. lia. Qed.
Lemma rnd_unique x n : (x - inject_Z n < 1 # 2)%Q -> (inject_Z n - x < 1 # 2)%Q -> rnd x = n.
Proof. intros A B. destruct (rnd_near x) as (C & D & _). apply Z.le_antisymm; apply inj_lt; lra. Qed.
Lemma rnd_Z x n : (x == inject_Z n)%Q -> rnd x = n.
Proof. intros E. apply rnd_unique; rewrite E; lra. Qed.
Lemma rnd_le x n : (x <= inject_Z n)%Q -> rnd x <= n.
Proof. intros A. destruct (rnd_near x) as (C & D & _). apply inj_lt. lra. Qed.
Lemma rnd_ge x n : (inject_Z n <= x)%Q -> n <= rnd x.
Proof. intros A. destruct (rnd_near x) as (C & D & _). apply inj_lt. lra. Qed.

(** *** Least and greatest *)
Lemma fold_min l : (fold_right Qmin 0 l <= 0)%Q /\ (forall x, In x l -> fold_right Qmin 0 l <= x)%Q /\ (fold_right Qmin 0 l == 0 \/ exists x, In x l /\ fold_right Qmin 0 l == x)%Q.
Proof.
  induction l as [|a l (A & B & C)]; cbn [fold_right In]; [repeat split; [lra|intros x []|left; reflexivity]|]. set (m := fold_right Qmin 0%Q l) in *. clearbody m. destruct (Q.min_spec a m) as [[L E]|[L E]]; (split; [|split]).
  - lra.
  - intros x [<-|X]; [lra|]. specialize (B x X). lra.
  - right. exists a. split; [auto|lra].
  - lra.
  - intros x [<-|X]; [lra|]. specialize (B x X). lra.
  - destruct C as [C|(x & X & C)]; [left; lra|right; exists x; split; [auto|lra]].
Qed.
Lemma fold_max l : (0 <= fold_right Qmax 0 l)%Q /\ (forall x, In x l -> x <= fold_right Qmax 0 l)%Q /\ (fold_right Qmax 0 l == 0 \/ exists x, In x l /\ fold_right Qmax 0 l == x)%Q.
Proof.
  induction l as [|a l (A & B & C)]; cbn [fold_right In]; [repeat split; [lra|intros x []|left; reflexivity]|]. set (m := fold_right Qmax 0%Q l) in *. clearbody m. destruct (Q.max_spec a m) as [[L E]|[L E]]; (split; [|split]).
  - lra.
  - intros x [<-|X]; [lra|]. specialize (B x X). lra.
  - destruct C as [C|(x & X & C)]; [left; lra|right; exists x; split; [auto|lra]].
  - lra.
  - intros x [<-|X]; [lra|]. specialize (B x X). lra.
  - right. exists a. split; [auto|lra].
Qed.
Lemma max_eps a eps b : (a == b)%Q -> (eps <= b)%Q -> (Qmax a eps == b)%Q.
Proof. intros E L. rewrite E. apply Q.max_l. exact L. Qed.

(** *** One channel *)
Section Channel.
Variables (l h : Z) (sc : Q) (z : Z).
Hypothesis LH : l <= h.
Hypothesis POS : (0 < sc)%Q.
(** The step a weight is put on. *)
Definition stepn (x : Q) : Z := zclamp l h (rnd (x / sc) + z).
Lemma stepn_range x : l <= stepn x <= h.
Proof. unfold stepn, zclamp. lia. Qed.
Lemma fq_eq x : (fq l h (sc, z) x == sc * inject_Z (stepn x - z))%Q.
Proof. reflexivity. Qed.
Lemma fq_again sc' x : (sc' == sc)%Q -> (fq l h (sc', z) (fq l h (sc, z) x) == fq l h (sc, z) x)%Q.
Proof.
  intros E. unfold fq at 1. cbn [fst snd]. assert (R : rnd (fq l h (sc, z) x / sc') = stepn x - z). { apply rnd_Z. rewrite fq_eq, E. field. lra. }
  rewrite R. replace (stepn x - z + z) with (stepn x) by lia. pose proof (stepn_range x). unfold zclamp. replace (Z.min (Z.max (stepn x) l) h) with (stepn x) by lia. rewrite E, fq_eq. reflexivity.
Qed.
End Channel.
Lemma mul_le (sc : Q) a b : (0 < sc)%Q -> a <= b -> (sc * inject_Z a <= sc * inject_Z b)%Q.
Proof. intros P L. apply Qmult_le_l; [exact P|]. rewrite <- Zle_Qle. exact L. Qed.
(** A symmetric range that is used up to one of its ends. *)
Lemma symmetric_again eps s h sc ws : symmetric s = true -> signed s = true -> lo s = - h -> hi s = h -> 0 < h -> (0 < eps)%Q -> (eps <= sc)%Q ->
  (exists x, In x ws /\ h <= Z.abs (rnd (x / sc))) -> forall x, In x ws ->
  (fq (lo s) (hi s) (qparams_of eps s (map (fq (lo s) (hi s) (sc, 0%Z)) ws)) (fq (lo s) (hi s) (sc, 0%Z) x) == fq (lo s) (hi s) (sc, 0%Z) x)%Q.
Proof.
  intros SY SG L H HP EP EL (e & Ie & He) x _. assert (P : (0 < sc)%Q) by lra. unfold qparams_of. rewrite SY, SG, L, H. apply fq_again; [lia|exact P|]. apply max_eps; [|exact EL].
  set (vs := map (fq (- h) h (sc, 0%Z)) ws). destruct (fold_min vs) as (A1 & A2 & A3). destruct (fold_max vs) as (B1 & B2 & B3). set (mn := fold_right Qmin 0%Q vs) in *. set (mx := fold_right Qmax 0%Q vs) in *. clearbody mn mx.
  assert (V : forall v, In v vs -> (- (sc * inject_Z h) <= v <= sc * inject_Z h)%Q).
  { intros v X. apply in_map_iff in X as (y & <- & _). rewrite fq_eq. pose proof (stepn_range (- h) h sc 0 ltac:(lia) y) as R. split; [|apply mul_le; [exact P|lia]].
    assert (Q0 : (- (sc * inject_Z h) == sc * inject_Z (- h))%Q) by (rewrite inject_Z_opp; ring). rewrite Q0. apply mul_le; [exact P|lia]. }
  assert (M : (Qmax (- mn) mx == sc * inject_Z h)%Q).
  { assert (PH : (0 <= sc * inject_Z h)%Q) by (apply Qmult_le_0_compat; [lra|change 0%Q with (inject_Z 0); rewrite <- Zle_Qle; lia]).
    apply Qle_antisym.
    - apply Q.max_lub.
      + destruct A3 as [A3|(v & Iv & A3)]; [lra|]. specialize (V v Iv). lra.
      + destruct B3 as [B3|(v & Iv & B3)]; [lra|]. specialize (V v Iv). lra.
    - assert (Iv : In (fq (- h) h (sc, 0%Z) e) vs) by (apply in_map; exact Ie). pose proof (fq_eq (- h) h sc 0 e) as F. destruct (Z_le_gt_dec 0 (rnd (e / sc))) as [G|G].
      + assert (S : stepn (- h) h sc 0 e - 0 = h) by (unfold stepn, zclamp; lia). rewrite S in F. specialize (B2 _ Iv). pose proof (Q.le_max_r (- mn) mx). lra.
      + assert (S : stepn (- h) h sc 0 e - 0 = - h) by (unfold stepn, zclamp; lia). rewrite S, inject_Z_opp in F. specialize (A2 _ Iv). pose proof (Q.le_max_l (- mn) mx). lra. }
  rewrite M. replace (h - - h) with (2 * h) by lia. rewrite inject_Z_mult. change (inject_Z 2) with 2%Q. field. intros Z0. change 0%Q with (inject_Z 0) in Z0. unfold Qeq in Z0. cbn in Z0. lia.
Qed.
(** An affine range both ends of which are used. *)
Lemma affine_again eps s sc z ws : symmetric s = false -> lo s < hi s -> lo s <= z <= hi s -> (0 < eps)%Q -> (eps <= sc)%Q ->
  (z = lo s \/ exists x, In x ws /\ rnd (x / sc) + z <= lo s) -> (z = hi s \/ exists x, In x ws /\ hi s <= rnd (x / sc) + z) -> forall x, In x ws ->
  (fq (lo s) (hi s) (qparams_of eps s (map (fq (lo s) (hi s) (sc, z)) ws)) (fq (lo s) (hi s) (sc, z) x) == fq (lo s) (hi s) (sc, z) x)%Q.
Proof.
  intros SY LH ZR EP EL HL HH x _. assert (P : (0 < sc)%Q) by lra. unfold qparams_of. rewrite SY. set (l := lo s) in *. set (h := hi s) in *.
  set (vs := map (fq l h (sc, z)) ws). destruct (fold_min vs) as (A1 & A2 & A3). destruct (fold_max vs) as (B1 & B2 & B3). set (mn := fold_right Qmin 0%Q vs) in *. set (mx := fold_right Qmax 0%Q vs) in *. clearbody mn mx.
  assert (V : forall v, In v vs -> (sc * inject_Z (l - z) <= v <= sc * inject_Z (h - z))%Q).
  { intros v X. apply in_map_iff in X as (y & <- & _). rewrite fq_eq. pose proof (stepn_range l h sc z ltac:(lia) y) as R. split; apply mul_le; try exact P; lia. }
  assert (L0 : (sc * inject_Z (l - z) <= 0)%Q). { setoid_replace 0%Q with (sc * inject_Z 0)%Q by ring. apply mul_le; [exact P|lia]. }
  assert (H0 : (0 <= sc * inject_Z (h - z))%Q). { setoid_replace 0%Q with (sc * inject_Z 0)%Q by ring. apply mul_le; [exact P|lia]. }
  assert (MN : (mn == sc * inject_Z (l - z))%Q).
  { apply Qle_antisym.
    - destruct HL as [->|(e & Ie & He)].
      + rewrite Z.sub_diag. setoid_replace (sc * inject_Z 0)%Q with 0%Q by ring. exact A1.
      + assert (Iv : In (fq l h (sc, z) e) vs) by (apply in_map; exact Ie). pose proof (fq_eq l h sc z e) as F. assert (S : stepn l h sc z e = l) by (unfold stepn, zclamp; lia). rewrite S in F. specialize (A2 _ Iv). lra.
    - destruct A3 as [A3|(v & Iv & A3)]; [lra|]. specialize (V v Iv). lra. }
  assert (MX : (mx == sc * inject_Z (h - z))%Q).
  { apply Qle_antisym.
    - destruct B3 as [B3|(v & Iv & B3)]; [lra|]. specialize (V v Iv). lra.
    - destruct HH as [->|(e & Ie & He)].
      + rewrite Z.sub_diag. setoid_replace (sc * inject_Z 0)%Q with 0%Q by ring. exact B1.
      + assert (Iv : In (fq l h (sc, z) e) vs) by (apply in_map; exact Ie). pose proof (fq_eq l h sc z e) as F. assert (S : stepn l h sc z e = h) by (unfold stepn, zclamp; lia). rewrite S in F. specialize (B2 _ Iv). lra. }
  assert (N0 : ~ (inject_Z (h - l) == 0)%Q) by (unfold Qeq; cbn; lia).
  assert (SC : (Qmax ((mx - mn) / inject_Z (h - l)) eps == sc)%Q).
  { apply max_eps; [|exact EL]. rewrite MN, MX. setoid_replace (sc * inject_Z (h - z) - sc * inject_Z (l - z))%Q with (sc * inject_Z (h - l))%Q.
    - field. exact N0.
    - unfold Z.sub. rewrite !inject_Z_plus, !inject_Z_opp. ring. }
  set (sc' := Qmax ((mx - mn) / inject_Z (h - l)) eps) in *. assert (R : rnd (mn / sc') = l - z). { apply rnd_Z. rewrite MN, SC. field. lra. }
  rewrite R. replace (zclamp l h (l - (l - z))) with z by (unfold zclamp; lia). apply fq_again; [lia|exact P|exact SC].
Qed.

(** *** Theorems *)
(** The ends of the range are used: both of an affine one, one of a symmetric one (which is symmetric). *)
Definition range_used (s : scheme) (c : list Q) (x : Q * Z) : Prop :=
  if symmetric s then signed s = true /\ lo s = - hi s /\ exists w, In w c /\ hi s <= Z.abs (rnd (w / fst x))
  else (snd x = lo s \/ exists w, In w c /\ rnd (w / fst x) + snd x <= lo s) /\ (snd x = hi s \/ exists w, In w c /\ hi s <= rnd (w / fst x) + snd x).
Lemma map_same {A} (f g : A -> Q) l : (forall x, In x l -> f x == g x)%Q -> Forall2 Qeq (map f l) (map g l).
Proof. induction l as [|a l IH]; intros H; constructor; [apply H; left; reflexivity|apply IH; intros x X; apply H; right; exact X]. Qed.
Theorem C200_used_partial : kept_weights (fun eps s c x => range_used s c x).
Proof.
  intros eps s fcl fb mg cls w p EP VA LEN FIT. unfold deploy1. cbn [used]. unfold fq_weights. eexists. split; [reflexivity|]. unfold same.
  assert (LH : lo s < hi s /\ (lo s = - hi s -> 0 < hi s)).
  { destruct VA as (b & B & [(_ & H & [L|L])|(_ & L & H)]); rewrite H, L.
    - assert (2 ^ 1 <= 2 ^ (b - 1)) by (apply Z.pow_le_mono_r; lia). change (2 ^ 1) with 2 in *. lia.
    - assert (2 ^ 1 <= 2 ^ (b - 1)) by (apply Z.pow_le_mono_r; lia). change (2 ^ 1) with 2 in *. lia.
    - assert (2 ^ 1 <= 2 ^ b) by (apply Z.pow_le_mono_r; lia). change (2 ^ 1) with 2 in *. lia. }
  revert LEN FIT. generalize (fb cls w). intros f. revert p. induction f as [|c f IH]; intros [|x p] LEN FIT; try discriminate LEN; cbn [combine map fst snd]; [constructor|].
  constructor; [|apply IH; [cbn in LEN; lia|intros c' x' I0; apply FIT; right; exact I0]]. rewrite map_map. apply map_same. intros y Y.
  destruct (FIT c x (or_introl eq_refl)) as [(F1 & F2 & F3) R]. destruct x as [sc z]. cbn [fst snd] in *. unfold range_used in R. destruct (symmetric s) eqn:SY.
  - destruct R as (SG & L & E). rewrite (F3 eq_refl SG) in *. apply symmetric_again with (h := hi s); auto; apply LH; exact L.
  - destruct R as [R1 R2]. apply affine_again; auto; apply LH.
Qed.
(** Parameters observed on the weights themselves: a symmetric range, or an affine scheme whose least weight is not halfway between two steps, and the weights spread
    enough for the scale to be at least [eps]. *)
Definition observed (eps : Q) (s : scheme) (c : list Q) (x : Q * Z) : Prop :=
  x = qparams_of eps s c /\
  if symmetric s then signed s = true /\ lo s = - hi s /\ exists w, In w c /\ (eps * inject_Z (hi s) <= Qabs w)%Q
  else ~ halfway (fold_right Qmin 0 c / fst x)%Q /\ (eps * inject_Z (hi s - lo s) <= fold_right Qmax 0 c - fold_right Qmin 0 c)%Q.
Lemma observed_used eps s c x : (0 < eps)%Q -> lo s < hi s -> observed eps s c x -> range_used s c x.
Proof.
  intros EP LH [E O]. unfold range_used, qparams_of in *. destruct (fold_min c) as (A1 & A2 & A3). destruct (fold_max c) as (B1 & B2 & B3). set (mn := fold_right Qmin 0%Q c) in *. set (mx := fold_right Qmax 0%Q c) in *. clearbody mn mx. destruct (symmetric s).
  - destruct O as (SG & L & w & Iw & W). split; [exact SG|]. split; [exact L|]. subst x. cbn [fst]. assert (HP : 0 < hi s) by lia. assert (HQ : (0 < inject_Z (hi s))%Q) by (change 0%Q with (inject_Z 0); rewrite <- Zlt_Qlt; exact HP).
    assert (M : (eps * inject_Z (hi s) <= Qmax (- mn) mx)%Q).
    { pose proof (Q.le_max_l (- mn) mx). pose proof (Q.le_max_r (- mn) mx). specialize (A2 w Iw). specialize (B2 w Iw). destruct (Qlt_le_dec w 0) as [N|N]; [rewrite Qabs_neg in W by lra|rewrite Qabs_pos in W by lra]; lra. }
    assert (SC : (Qmax (Qmax (- mn) mx / (inject_Z (hi s - lo s) / 2)) eps == Qmax (- mn) mx / inject_Z (hi s))%Q).
    { apply max_eps.
      - rewrite L. replace (hi s - - hi s) with (2 * hi s) by lia. rewrite inject_Z_mult. change (inject_Z 2) with 2%Q. field. lra.
      - apply Qle_shift_div_l; [exact HQ|exact M]. }
    set (sc := Qmax (Qmax (- mn) mx / (inject_Z (hi s - lo s) / 2)) eps) in *. clearbody sc.
    assert (PM : (0 < Qmax (- mn) mx)%Q). { assert (0 < eps * inject_Z (hi s))%Q by (apply Qmult_lt_0_compat; assumption). lra. }
    assert (AT : exists v, In v c /\ (v == mx \/ v == mn)%Q /\ (Qabs v == Qmax (- mn) mx)%Q).
    { destruct (Q.max_spec (- mn) mx) as [[L1 E1]|[L1 E1]].
      - destruct B3 as [B3|(v & Iv & B3)]; [lra|]. exists v. split; [exact Iv|]. split; [left; lra|]. rewrite Qabs_pos; lra.
      - destruct A3 as [A3|(v & Iv & A3)]; [lra|]. exists v. split; [exact Iv|]. split; [right; lra|]. rewrite Qabs_neg; lra. }
    destruct AT as (v & Iv & _ & AV). exists v. split; [exact Iv|]. destruct (Qlt_le_dec v 0) as [N|N].
    + rewrite Qabs_neg in AV by lra. assert (R : rnd (v / sc) = - hi s). { apply rnd_Z. rewrite SC, inject_Z_opp, <- AV. field. split; lra. } rewrite R. lia.
    + rewrite Qabs_pos in AV by lra. assert (R : rnd (v / sc) = hi s). { apply rnd_Z. rewrite SC, <- AV. field. split; lra. } rewrite R. lia.
  - destruct O as (NH & W). subst x. cbn [fst snd] in *. set (n := hi s - lo s) in *. assert (NP : 0 < n) by lia. assert (NQ : (0 < inject_Z n)%Q) by (change 0%Q with (inject_Z 0); rewrite <- Zlt_Qlt; exact NP).
    assert (SC : (Qmax ((mx - mn) / inject_Z n) eps == (mx - mn) / inject_Z n)%Q) by (apply max_eps; [reflexivity|apply Qle_shift_div_l; assumption]).
    set (sc := Qmax ((mx - mn) / inject_Z n) eps) in *. assert (SP : (0 < sc)%Q) by (pose proof (Q.le_max_r ((mx - mn) / inject_Z n) eps) as G; fold sc in G; lra). clearbody sc.
    assert (D : (mx - mn == sc * inject_Z n)%Q) by (rewrite SC; field; lra).
    assert (R1 : rnd (mn / sc) <= 0). { apply rnd_le. change (inject_Z 0) with 0%Q. apply Qle_shift_div_r; lra. }
    assert (R2 : - n <= rnd (mn / sc)). { apply rnd_ge. apply Qle_shift_div_l; [exact SP|]. rewrite inject_Z_opp. lra. }
    replace (zclamp (lo s) (hi s) (lo s - rnd (mn / sc))) with (lo s - rnd (mn / sc)) by (unfold zclamp; lia). split.
    + destruct A3 as [A3|(v & Iv & A3)].
      * left. replace (rnd (mn / sc)) with 0; [lia|]. symmetry. apply rnd_Z. rewrite A3. unfold Qdiv. ring.
      * right. exists v. split; [exact Iv|]. rewrite (rnd_comp (v / sc) (mn / sc)); [lia|]. rewrite A3. reflexivity.
    + destruct B3 as [B3|(v & Iv & B3)].
      * left. replace (rnd (mn / sc)) with (- n); [lia|]. symmetry. apply rnd_Z. assert (X : (mn == - (sc * inject_Z n))%Q) by lra. rewrite X, inject_Z_opp. field. lra.
      * right. exists v. split; [exact Iv|]. assert (R : rnd (v / sc) = rnd (mn / sc) + n); [|lia].
        destruct (rnd_near (mn / sc)) as (_ & _ & S). destruct (S NH) as [S1 S2]. assert (X : (v / sc == mn / sc + inject_Z n)%Q). { rewrite <- B3. assert (Y : (mx == mn + sc * inject_Z n)%Q) by lra. rewrite Y. field. lra. }
        apply rnd_unique; rewrite X, inject_Z_plus; lra.
Qed.
Theorem C200_observed_partial : kept_weights observed.
Proof.
  intros eps s fcl fb mg cls w p EP VA LEN FIT. apply C200_used_partial; try assumption. intros c x I0. destruct (FIT c x I0) as [F O]. split; [exact F|]. apply (observed_used eps); try assumption.
  destruct VA as (b & B & [(_ & H & [L|L])|(_ & L & H)]); rewrite H, L.
  - assert (2 ^ 1 <= 2 ^ (b - 1)) by (apply Z.pow_le_mono_r; lia). change (2 ^ 1) with 2 in *. lia.
  - assert (2 ^ 1 <= 2 ^ (b - 1)) by (apply Z.pow_le_mono_r; lia). change (2 ^ 1) with 2 in *. lia.
  - assert (2 ^ 1 <= 2 ^ b) by (apply Z.pow_le_mono_r; lia). change (2 ^ 1) with 2 in *. lia.
Qed.
(** Weights 5, -2 and 1 in 3 bits with a symmetric range: the scale is 5/3 and they become 5, -5/3 and 5/3, before and after. *)
Example C200_example : let s := {| symmetric := true; signed := true; lo := -3; hi := 3 |} in let w := [5; -2; 1]%Q in let p := qparams_of (1 # 1000) s w in
  valid s /\ fits (1 # 1000) s p /\ observed (1 # 1000) s w p /\ map Qred (map (fq (-3) 3 p) w) = [5; -(5#3); 5#3]%Q /\
  map Qred (map (fq (-3) 3 (qparams_of (1 # 1000) s (map (fq (-3) 3 p) w))) (map (fq (-3) 3 p) w)) = [5; -(5#3); 5#3]%Q.
Proof.
  cbv zeta. split; [exists 3; split; [lia|]; left; repeat split; right; reflexivity|]. split; [repeat split; try reflexivity; vm_compute; congruence|]. split; [|split; vm_compute; reflexivity].
  split; [reflexivity|]. cbn [symmetric]. repeat split. exists 5%Q. split; [left; reflexivity|vm_compute; congruence].
Qed.

Print Assumptions C200_keeps_refuted.
Print Assumptions C200_range_refuted.
Print Assumptions C200_learned_refuted.
Print Assumptions C200_halfway_refuted.
Print Assumptions C200_used_partial.
Print Assumptions C200_observed_partial.
