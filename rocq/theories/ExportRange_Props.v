(** C124 - the ranges of OpenVINO's FakeQuantize stand for the scales and zero points. *)
From Coq Require Import Reals Lra.
From Flocq Require Import Core.
From Verif Require Import Prelude ExportRange_Model.
Local Open Scope R_scope.

(** ** Specification *)
(** Fake quantization: [(clamp (round (x / scale) + zero_point) - zero_point) * scale]. *)
Definition clampZ (lo hi q : Z) : Z := Z.max lo (Z.min hi q).
Definition fake_quantize (rnd : R -> Z) (qmin qmax : Z) (s : R) (z : Z) (x : R) : R := IZR (clampZ qmin qmax (rnd (x / s) + z) - z) * s.
(** FakeQuantize of OpenVINO, with equal input and output ranges. *)
Definition openvino (rnd : R -> Z) (levels : Z) (low high x : R) : R :=
  if Rle_dec x low then low else if Rlt_dec high x then high
  else IZR (rnd ((x - low) / (high - low) * IZR (levels - 1))) / IZR (levels - 1) * (high - low) + low.
(** A rounding to a nearest integer; a number halfway between two integers. *)
Definition to_nearest (rnd : R -> Z) : Prop := forall x, Rabs (IZR (rnd x) - x) <= / 2.
Definition halfway (x : R) : Prop := exists k : Z, x = IZR k + / 2.
(** A learned zero point is rounded and clamped when used. *)
Definition used_zero (qmin qmax : Z) (z : R) : Z := clampZ qmin qmax (ZnearestE z).

(** ** Proof *)
Lemma nearest_unique rnd x k : to_nearest rnd -> Rabs (IZR k - x) < / 2 -> rnd x = k.
Proof.
  intros N H. specialize (N x). assert (A : Rabs (IZR (rnd x) - IZR k) < 1).
  { replace (IZR (rnd x) - IZR k) with ((IZR (rnd x) - x) - (IZR k - x)) by ring. eapply Rle_lt_trans; [apply Rabs_triang|]. rewrite Rabs_Ropp. lra. }
  rewrite <- minus_IZR, <- abs_IZR in A. apply lt_IZR in A. lia.
Qed.
Lemma nearest_off rnd x : to_nearest rnd -> ~ halfway x -> Rabs (IZR (rnd x) - x) < / 2.
Proof.
  intros N H. destruct (Rle_lt_or_eq_dec _ _ (N x)) as [L|E]; [exact L|exfalso]. apply H. unfold Rabs in E. destruct (Rcase_abs _) as [L|L].
  - exists (rnd x). lra.
  - exists (rnd x - 1)%Z. rewrite minus_IZR. lra.
Qed.
Lemma nearest_bounds rnd x a : to_nearest rnd -> (IZR a <= x -> (a <= rnd x)%Z) /\ (x <= IZR a -> (rnd x <= a)%Z).
Proof.
  intros N. specialize (N x). apply Rabs_le_inv in N. split; intros H.
  - assert (A : IZR (a - 1) < IZR (rnd x)) by (rewrite minus_IZR; lra). apply lt_IZR in A. lia.
  - assert (A : IZR (rnd x) < IZR (a + 1)) by (rewrite plus_IZR; lra). apply lt_IZR in A. lia.
Qed.
Lemma nearest_zero : ZnearestE 0 = 0%Z.
Proof. exact (Zrnd_IZR ZnearestE 0%Z). Qed.
Section Range.
Variable qmin qmax : Z.
Variable s z : R.
Hypothesis Hs : 0 < s.
Hypothesis Hq : (qmin < qmax)%Z.
Let zp := used_zero qmin qmax z.
Let lo := fst (low_high qmin qmax s z).
Let hi := snd (low_high qmin qmax s z).
Lemma qrange_pos : 0 < IZR (qmax - qmin).
Proof. apply (IZR_lt 0). lia. Qed.
Lemma hi_eq : hi = IZR (qmax - zp) * s.
Proof. unfold hi, low_high. cbn [fst snd]. rewrite Rabs_pos_eq by lra. change (zero_point_of qmin qmax z) with zp. field. pose proof qrange_pos. lra. Qed.
Lemma lo_eq : lo = IZR (qmin - zp) * s.
Proof. unfold lo. change (fst (low_high qmin qmax s z)) with (hi - Rabs s * IZR (qmax - qmin)). rewrite hi_eq, Rabs_pos_eq by lra. rewrite !minus_IZR. ring. Qed.
Variable rnd1 rnd2 : R -> Z.
Hypothesis N1 : to_nearest rnd1.
Hypothesis N2 : to_nearest rnd2.
(** The two computations for the same number of steps. *)
Lemma compare x d : (forall y, y = x / s -> IZR (qmin - zp) < y <= IZR (qmax - zp) -> (rnd2 (y - IZR (qmin - zp)) + (qmin - zp) = rnd1 y + d)%Z \/ (rnd2 (y - IZR (qmin - zp)) + (qmin - zp) = rnd1 y)%Z) ->
  (openvino rnd2 (qmax - qmin + 1) lo hi x = fake_quantize rnd1 qmin qmax s zp x + IZR d * s) \/ (openvino rnd2 (qmax - qmin + 1) lo hi x = fake_quantize rnd1 qmin qmax s zp x).
Proof.
  intros H. assert (Ex : x = x / s * s) by (field; lra). set (y := x / s) in *. unfold openvino, fake_quantize. fold y. rewrite lo_eq, hi_eq. unfold clampZ.
  destruct (Rle_dec x (IZR (qmin - zp) * s)) as [A|A].
  - right. assert (Ay : y <= IZR (qmin - zp)) by (apply Rmult_le_reg_r with s; lra). pose proof (proj2 (nearest_bounds rnd1 y (qmin - zp) N1) Ay). f_equal. f_equal. lia.
  - assert (Ay : IZR (qmin - zp) < y) by (apply Rmult_lt_reg_r with s; lra). destruct (Rlt_dec (IZR (qmax - zp) * s) x) as [B|B].
    + right. assert (By : IZR (qmax - zp) <= y) by (apply Rmult_le_reg_r with s; lra). pose proof (proj1 (nearest_bounds rnd1 y (qmax - zp) N1) By). f_equal. f_equal. lia.
    + assert (By : y <= IZR (qmax - zp)) by (apply Rmult_le_reg_r with s; lra).
      pose proof (proj2 (nearest_bounds rnd1 y (qmax - zp) N1) By). pose proof (proj1 (nearest_bounds rnd1 y (qmin - zp) N1) ltac:(lra)).
      pose proof qrange_pos. replace (qmax - qmin + 1 - 1)%Z with (qmax - qmin)%Z by lia.
      replace (IZR (qmax - zp) * s - IZR (qmin - zp) * s) with (s * IZR (qmax - qmin)) by (rewrite !minus_IZR; ring).
      replace ((x - IZR (qmin - zp) * s) / (s * IZR (qmax - qmin)) * IZR (qmax - qmin)) with (y - IZR (qmin - zp)) by (rewrite Ex; field; lra).
      replace (IZR (rnd2 (y - IZR (qmin - zp))) / IZR (qmax - qmin) * (s * IZR (qmax - qmin)) + IZR (qmin - zp) * s) with (IZR (rnd2 (y - IZR (qmin - zp)) + (qmin - zp)) * s) by (rewrite plus_IZR; field; lra).
      replace (Z.max qmin (Z.min qmax (rnd1 y + zp)) - zp)%Z with (rnd1 y) by lia. destruct (H y eq_refl (conj Ay By)) as [E|E]; rewrite E; [left; rewrite plus_IZR; ring|right; reflexivity].
Qed.
End Range.

(** ** Theorems *)
(** Claim: FakeQuantize over the range does what fake quantization does, for every number. *)
Definition C124_claim : Prop := forall qmin qmax s z x, 0 < s -> (qmin < qmax)%Z ->
  openvino ZnearestE (qmax - qmin + 1) (fst (low_high qmin qmax s z)) (snd (low_high qmin qmax s z)) x = fake_quantize ZnearestE qmin qmax s (used_zero qmin qmax z) x.
(** It does except for numbers halfway between two steps, whatever way each of them rounds. *)
Theorem C124_same_partial rnd1 rnd2 qmin qmax s z x : to_nearest rnd1 -> to_nearest rnd2 -> 0 < s -> (qmin < qmax)%Z -> ~ halfway (x / s) ->
  openvino rnd2 (qmax - qmin + 1) (fst (low_high qmin qmax s z)) (snd (low_high qmin qmax s z)) x = fake_quantize rnd1 qmin qmax s (used_zero qmin qmax z) x.
Proof.
  intros N1 N2 Hs Hq Hh. destruct (compare qmin qmax s z Hs Hq rnd1 rnd2 N1 x 0) as [E|E]; [|rewrite E; ring|exact E].
  intros y -> _. right. set (k := (qmin - used_zero qmin qmax z)%Z). rewrite (nearest_unique rnd2 (x / s - IZR k) (rnd1 (x / s) - k) N2); [lia|].
  rewrite minus_IZR. replace (IZR (rnd1 (x / s)) - IZR k - (x / s - IZR k)) with (IZR (rnd1 (x / s)) - x / s) by ring. apply nearest_off; assumption.
Qed.
(** Rounding half to even, it does for every number if the lowest value and the zero point are both
    even or both odd. *)
Theorem C124_even_partial qmin qmax s z x : 0 < s -> (qmin < qmax)%Z -> Z.even (qmin - used_zero qmin qmax z) = true ->
  openvino ZnearestE (qmax - qmin + 1) (fst (low_high qmin qmax s z)) (snd (low_high qmin qmax s z)) x = fake_quantize ZnearestE qmin qmax s (used_zero qmin qmax z) x.
Proof.
  intros Hs Hq He. assert (N : to_nearest ZnearestE) by (intros y; rewrite Rabs_minus_sym; apply Znearest_half).
  destruct (compare qmin qmax s z Hs Hq ZnearestE ZnearestE N x 0) as [E|E]; [|rewrite E; ring|exact E].
  intros y _ _. right. set (k := (qmin - used_zero qmin qmax z)%Z) in *. unfold Znearest. assert (Fl : Zfloor (y - IZR k) = (Zfloor y - k)%Z) by (apply Zfloor_imp; rewrite plus_IZR, minus_IZR; pose proof (Zfloor_lb y); pose proof (Zfloor_ub y); lra).
  assert (Cl : Zceil (y - IZR k) = (Zceil y - k)%Z). { unfold Zceil. replace (- (y - IZR k)) with (- y - IZR (- k)) by (rewrite opp_IZR; ring). assert (F2 : Zfloor (- y - IZR (- k)) = (Zfloor (- y) + k)%Z) by (apply Zfloor_imp; rewrite !plus_IZR, opp_IZR; pose proof (Zfloor_lb (- y)); pose proof (Zfloor_ub (- y)); lra). rewrite F2. lia. }
  rewrite Fl, Cl. replace (y - IZR k - IZR (Zfloor y - k)) with (y - IZR (Zfloor y)) by (rewrite minus_IZR; ring). rewrite Z.even_sub, He. destruct (Rcompare _ _); [|lia|lia]. destruct (Z.even (Zfloor y)); cbn; lia.
Qed.
(** For every number, the two differ by one step at most. *)
Theorem C124_close rnd1 rnd2 qmin qmax s z x : to_nearest rnd1 -> to_nearest rnd2 -> 0 < s -> (qmin < qmax)%Z ->
  Rabs (openvino rnd2 (qmax - qmin + 1) (fst (low_high qmin qmax s z)) (snd (low_high qmin qmax s z)) x - fake_quantize rnd1 qmin qmax s (used_zero qmin qmax z) x) <= s.
Proof.
  intros N1 N2 Hs Hq. set (k := (qmin - used_zero qmin qmax z)%Z). assert (Dd : exists d : Z, (d = 1 \/ d = -1 \/ d = 0)%Z /\ (rnd2 (x / s - IZR k)%R + k = rnd1 (x / s)%R + d)%Z).
  { exists (rnd2 (x / s - IZR k)%R + k - rnd1 (x / s)%R)%Z. split; [|lia]. pose proof (N1 (x / s)) as A. pose proof (N2 (x / s - IZR k)) as B. apply Rabs_le_inv in A, B.
    assert (L : IZR (rnd2 (x / s - IZR k)%R + k - rnd1 (x / s)%R) <= IZR 1) by (rewrite minus_IZR, plus_IZR; lra). assert (G : IZR (-1) <= IZR (rnd2 (x / s - IZR k)%R + k - rnd1 (x / s)%R)) by (rewrite minus_IZR, plus_IZR; lra). apply le_IZR in L, G. lia. }
  destruct Dd as (d & Hd & E). destruct (compare qmin qmax s z Hs Hq rnd1 rnd2 N1 x d) as [E1|E1].
  - intros y -> _. left. exact E.
  - rewrite E1. replace (fake_quantize rnd1 qmin qmax s (used_zero qmin qmax z) x + IZR d * s - fake_quantize rnd1 qmin qmax s (used_zero qmin qmax z) x) with (IZR d * s) by ring. unfold Rabs. destruct Hd as [-> |[-> | ->]]; destruct (Rcase_abs _); lra.
  - rewrite E1. rewrite Rminus_diag_eq by reflexivity. rewrite Rabs_R0. lra.
Qed.
(** With the range -127 to 127, half a step is quantized to 0 before and to one step afterwards. *)
Theorem C124_halfway_refuted : ~ C124_claim.
Proof.
  intros H. specialize (H (-127)%Z 127%Z 1 0 (/ 2) ltac:(lra) ltac:(lia)). assert (Z0 : used_zero (-127) 127 0 = 0%Z) by (unfold used_zero; rewrite nearest_zero; reflexivity).
  rewrite Z0 in H. pose proof (hi_eq (-127) 127 1 0 ltac:(lra) ltac:(lia)) as Hh. pose proof (lo_eq (-127) 127 1 0 ltac:(lra) ltac:(lia)) as Hl. rewrite Z0 in Hh, Hl. change (127 - 0)%Z with 127%Z in Hh. change (-127 - 0)%Z with (-127)%Z in Hl. rewrite Hh, Hl in H.
  assert (R1 : ZnearestE (/ 2 / 1) = 0%Z). { assert (F : Zfloor (/ 2 / 1) = 0%Z) by (apply Zfloor_imp; cbn; lra). unfold Znearest. rewrite F. rewrite Rcompare_Eq by lra. reflexivity. }
  unfold fake_quantize, openvino in H. rewrite R1 in H. replace (127 - -127 + 1 - 1)%Z with 254%Z in H by lia.
  destruct (Rle_dec _ _) as [A|_]; [lra|]. destruct (Rlt_dec _ _) as [A|_]; [lra|].
  replace ((/ 2 - -127 * 1) / (127 * 1 - -127 * 1) * 254) with (127 + / 2) in H by field.
  assert (R2 : ZnearestE (127 + / 2) = 128%Z). { assert (F : Zfloor (127 + / 2) = 127%Z) by (apply Zfloor_imp; cbn; lra). assert (C : Zceil (127 + / 2) = 128%Z) by (apply Zceil_imp; cbn; lra). unfold Znearest. rewrite F, C. rewrite Rcompare_Eq by lra. reflexivity. }
  rewrite R2 in H. cbn in H. lra.
Qed.
(** Arrays: each channel has its own range. *)
Theorem C124_channels qmin qmax scale zero l : input_ranges qmin qmax scale zero = Ok l ->
  (length scale = length zero \/ length scale = 1%nat \/ length zero = 1%nat) /\ length l = (if Nat.eqb (length scale) 1 then length zero else length scale) /\
  forall c s z, nth_error scale (if Nat.eqb (length scale) 1 then 0 else c) = Some s -> nth_error zero (if Nat.eqb (length zero) 1 then 0 else c) = Some z -> (c < length l)%nat ->
    nth_error l c = Some (low_high qmin qmax s z).
Proof.
  intros H. unfold input_ranges in H. destruct scale as [|s0 scale]; [|destruct scale as [|s1 scale]].
  - destruct zero as [|z0 zero]; [|destruct zero]; cbn in H; try discriminate H; apply Ok_inj in H; subst l; (split; [auto|]; split; [reflexivity|]; cbn; intros c s z _ _ L; lia).
  - apply Ok_inj in H. subst l. split; [auto|]. split; [apply map_length|]. cbn [length Nat.eqb nth_error]. intros c s z Es Ez L. injection Es as <-. rewrite map_length in L. destruct zero as [|z0 [|z1 zero]]; cbn [length Nat.eqb] in *; [lia| |].
    + destruct c; [|lia]. cbn in *. congruence.
    + rewrite nth_error_map, Ez. reflexivity.
  - destruct zero as [|z0 [|z1 zero]].
    + cbn in H. discriminate H.
    + apply Ok_inj in H. subst l. split; [auto|]. split; [apply map_length|]. intros c s z Es Ez L. cbn [length Nat.eqb] in Es, Ez. cbn in Ez. injection Ez as <-. rewrite nth_error_map, Es. reflexivity.
    + destruct (Nat.eqb_spec (length (s0 :: s1 :: scale)) (length (z0 :: z1 :: zero))) as [E|_]; [|discriminate H]. apply Ok_inj in H. subst l. split; [auto|]. split; [rewrite map_length, combine_length, E, Nat.min_id; cbn [length Nat.eqb]; congruence|].
      intros c s z Es Ez L. cbn [length Nat.eqb] in Es, Ez. rewrite nth_error_map. assert (Ec : forall (a b : list R) c, nth_error a c = Some s -> nth_error b c = Some z -> nth_error (combine a b) c = Some (s, z)).
      { clear. induction a as [|x a IH]; intros [|y b] [|c] A B; try discriminate; [cbn in *; congruence|]. cbn in *. apply IH; assumption. }
      rewrite (Ec _ _ c Es Ez). reflexivity.
Qed.
(** int8 with the range -128 to 127, scale 1/2 and zero point 0: the number 3/4 is halfway. *)
Example C124_case : openvino ZnearestE 256 (fst (low_high (-128) 127 (/ 2) 0)) (snd (low_high (-128) 127 (/ 2) 0)) (3 / 4) = fake_quantize ZnearestE (-128) 127 (/ 2) 0 (3 / 4) /\ halfway (3 / 4 / (/ 2)).
Proof.
  assert (Z0 : used_zero (-128) 127 0 = 0%Z) by (unfold used_zero; rewrite nearest_zero; reflexivity). split.
  - pose proof (C124_even_partial (-128) 127 (/ 2) 0 (3 / 4) ltac:(lra) ltac:(lia)) as H. rewrite Z0 in H. apply H. reflexivity.
  - exists 1%Z. field.
Qed.
Example C124_off : openvino ZnearestE 255 (fst (low_high (-127) 127 1 0)) (snd (low_high (-127) 127 1 0)) (/ 3) = fake_quantize ZnearestE (-127) 127 1 (used_zero (-127) 127 0) (/ 3).
Proof.
  apply (C124_same_partial ZnearestE ZnearestE (-127) 127); [intros y; rewrite Rabs_minus_sym; apply Znearest_half|intros y; rewrite Rabs_minus_sym; apply Znearest_half|lra|lia|].
  intros [k E]. assert (A : IZR (-1) < IZR k) by lra. assert (B : IZR k < IZR 0) by lra. apply lt_IZR in A, B. lia.
Qed.
Example C124_two : exists l, input_ranges (-128) 127 [1; 2] [0] = Ok l /\ nth_error l 1 = Some (low_high (-128) 127 2 0).
Proof. eexists. split; reflexivity. Qed.
Print Assumptions C124_same_partial.
Print Assumptions C124_even_partial.
Print Assumptions C124_close.
Print Assumptions C124_halfway_refuted.
Print Assumptions C124_channels.
