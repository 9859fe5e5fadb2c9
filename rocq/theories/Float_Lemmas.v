(** Binary64 arithmetic of PyNum.v related to real arithmetic with rounding, through Flocq.
    No mmrazor code is modelled in this file. *)
From Coq Require Import Reals Psatz.
From Flocq Require Import Core BinarySingleNaN.
From Verif Require Import Prelude PyNum.
Open Scope Z_scope.

Definition hp : Prec_gt_0 53 := eq_refl.
Definition hm : Prec_lt_emax 53 1024 := eq_refl.
#[global] Existing Instance hp.
#[global] Existing Instance hm.
Notation fexp64 := (SpecFloat.fexp 53 1024).
Definition rnd (x : R) : R := round radix2 fexp64 ZnearestE x.
Definition maxr : R := bpow radix2 1024.

(** The real value of a float, and well-formed finite floats. *)
Definition fr (x : spec_float) : R := SF2R radix2 x.
Definition fin (x : spec_float) : Prop := valid_binary 53 1024 x = true /\ is_finite_SF x = true.

#[global] Instance vexp : Valid_exp fexp64 := fexp_correct 53 1024 hp.
#[global] Instance mexp : Monotone_exp fexp64 := fexp_monotone 53 1024.

Lemma rnd_le x y : (x <= y)%R -> (rnd x <= rnd y)%R.
Proof. apply round_le; auto with typeclass_instances. Qed.

(** Flocq's operations coincide with the specification functions of the standard library. *)
Lemma rne_equiv s m l : SpecFloat.round_nearest_even m l = choice_mode mode_NE s m l.
Proof. unfold SpecFloat.round_nearest_even, choice_mode. destruct l; [reflexivity|]. destruct c; try reflexivity. simpl. unfold Round.cond_incr. destruct (Z.even m); reflexivity. Qed.
Lemma round_aux_equiv sx mx ex lx : SpecFloat.binary_round_aux 53 1024 sx mx ex lx = BinarySingleNaN.binary_round_aux 53 1024 mode_NE sx mx ex lx.
Proof. unfold SpecFloat.binary_round_aux, BinarySingleNaN.binary_round_aux. destruct (SpecFloat.shr_fexp 53 1024 mx ex lx) as [mrs' e']. rewrite <- (rne_equiv sx). reflexivity. Qed.
Lemma round_equiv s m e : SpecFloat.binary_round 53 1024 s m e = BinarySingleNaN.binary_round 53 1024 mode_NE s m e.
Proof. unfold SpecFloat.binary_round, BinarySingleNaN.binary_round, shl_align_fexp. destruct (shl_align _ _ _) as [mz ez]. apply round_aux_equiv. Qed.
Lemma normalize_equiv m e sz : SpecFloat.binary_normalize 53 1024 m e sz = B2SF (BinarySingleNaN.binary_normalize 53 1024 hp hm mode_NE m e sz).
Proof. destruct m as [|p|p]; [reflexivity| |]; simpl; rewrite B2SF_SF2B; apply round_equiv. Qed.
Lemma mul_equiv x y : SFmul 53 1024 (B2SF x) (B2SF y) = B2SF (Bmult (prec_gt_0_ := hp) (prec_lt_emax_ := hm) mode_NE x y).
Proof.
  destruct x as [sx|sx| |sx mx ex Bx], y as [sy|sy| |sy my ey By]; try reflexivity. simpl. rewrite B2SF_SF2B. apply round_aux_equiv.
Qed.
Lemma add_equiv x y : SFadd 53 1024 (B2SF x) (B2SF y) = B2SF (Bplus (prec_gt_0_ := hp) (prec_lt_emax_ := hm) mode_NE x y).
Proof.
  destruct x as [sx|sx| |sx mx ex Bx], y as [sy|sy| |sy my ey By]; try reflexivity; try (simpl; destruct (Bool.eqb sx sy); reflexivity). apply normalize_equiv.
Qed.
Lemma sub_equiv x y : SFsub 53 1024 (B2SF x) (B2SF y) = B2SF (Bminus (prec_gt_0_ := hp) (prec_lt_emax_ := hm) mode_NE x y).
Proof.
  destruct x as [sx|sx| |sx mx ex Bx], y as [sy|sy| |sy my ey By]; try reflexivity; try (simpl; destruct (Bool.eqb sx (negb sy)); reflexivity).
  simpl. unfold Zminus. rewrite <- cond_Zopp_negb. apply normalize_equiv.
Qed.
Lemma div_equiv x y : SFdiv 53 1024 (B2SF x) (B2SF y) = B2SF (Bdiv (prec_gt_0_ := hp) (prec_lt_emax_ := hm) mode_NE x y).
Proof.
  destruct x as [sx|sx| |sx mx ex Bx], y as [sy|sy| |sy my ey By]; try reflexivity. simpl. rewrite B2SF_SF2B.
  destruct (SFdiv_core_binary 53 1024 (Zpos mx) ex (Zpos my) ey) as [[mz ez] lz]. apply round_aux_equiv.
Qed.

Lemma fin_B x : fin x -> exists b : binary_float 53 1024, x = B2SF b /\ is_finite b = true.
Proof. intros [V F]. exists (SF2B x V). rewrite B2SF_SF2B, is_finite_SF2B. auto. Qed.
Lemma B_fin (b : binary_float 53 1024) : is_finite b = true -> fin (B2SF b).
Proof. intros H. split; [apply valid_binary_B2SF|rewrite is_finite_SF_B2SF; exact H]. Qed.
Lemma fr_B (b : binary_float 53 1024) : fr (B2SF b) = B2R b.
Proof. apply SF2R_B2SF. Qed.

Lemma f64mul_ok x y : fin x -> fin y -> (Rabs (rnd (fr x * fr y)) < maxr)%R -> fin (f64mul x y) /\ fr (f64mul x y) = rnd (fr x * fr y).
Proof.
  intros Hx Hy H. apply fin_B in Hx as (a & -> & Ha). apply fin_B in Hy as (b & -> & Hb). unfold f64mul. rewrite mul_equiv, !fr_B in *.
  pose proof (Bmult_correct 53 1024 hp hm mode_NE a b) as C. cbv zeta in C. rewrite Rlt_bool_true in C by exact H. destruct C as (C1 & C2 & _).
  split; [apply B_fin; rewrite C2, Ha, Hb; reflexivity|exact C1].
Qed.
Lemma f64add_ok x y : fin x -> fin y -> (Rabs (rnd (fr x + fr y)) < maxr)%R -> fin (f64add x y) /\ fr (f64add x y) = rnd (fr x + fr y).
Proof.
  intros Hx Hy H. apply fin_B in Hx as (a & -> & Ha). apply fin_B in Hy as (b & -> & Hb). unfold f64add. rewrite add_equiv, !fr_B in *.
  pose proof (Bplus_correct 53 1024 hp hm mode_NE a b Ha Hb) as C. cbv zeta in C. rewrite Rlt_bool_true in C by exact H. destruct C as (C1 & C2 & _).
  split; [apply B_fin; exact C2|exact C1].
Qed.
Lemma f64sub_ok x y : fin x -> fin y -> (Rabs (rnd (fr x - fr y)) < maxr)%R -> fin (f64sub x y) /\ fr (f64sub x y) = rnd (fr x - fr y).
Proof.
  intros Hx Hy H. apply fin_B in Hx as (a & -> & Ha). apply fin_B in Hy as (b & -> & Hb). unfold f64sub. rewrite sub_equiv, !fr_B in *.
  pose proof (Bminus_correct 53 1024 hp hm mode_NE a b Ha Hb) as C. cbv zeta in C. rewrite Rlt_bool_true in C by exact H. destruct C as (C1 & C2 & _).
  split; [apply B_fin; exact C2|exact C1].
Qed.
Lemma f64div_ok x y : fin x -> fin y -> fr y <> 0%R -> (Rabs (rnd (fr x / fr y)) < maxr)%R -> fin (f64div x y) /\ fr (f64div x y) = rnd (fr x / fr y).
Proof.
  intros Hx Hy N H. apply fin_B in Hx as (a & -> & Ha). apply fin_B in Hy as (b & -> & Hb). unfold f64div. rewrite div_equiv, !fr_B in *.
  pose proof (Bdiv_correct 53 1024 hp hm mode_NE a b N) as C. cbv zeta in C. rewrite Rlt_bool_true in C by exact H. destruct C as (C1 & C2 & _).
  split; [apply B_fin; rewrite C2; exact Ha|exact C1].
Qed.
Lemma f64_of_Z_ok z : (Rabs (rnd (IZR z)) < maxr)%R -> fin (f64_of_Z z) /\ fr (f64_of_Z z) = rnd (IZR z).
Proof.
  intros H. unfold f64_of_Z. rewrite normalize_equiv, fr_B. pose proof (binary_normalize_correct 53 1024 hp hm mode_NE z 0 false) as C. cbv zeta in C.
  assert (E : F2R (Float radix2 z 0) = IZR z) by (unfold F2R; cbn; ring). rewrite E in C. rewrite Rlt_bool_true in C by exact H. destruct C as (C1 & C2 & _).
  split; [apply B_fin; exact C2|exact C1].
Qed.

(** Values that are representable round to themselves. *)
Lemma fr_format x : fin x -> generic_format radix2 fexp64 (fr x).
Proof. intros H. apply fin_B in H as (a & -> & _). rewrite fr_B. apply generic_format_B2R. Qed.
Lemma rnd_fr x : fin x -> rnd (fr x) = fr x.
Proof. intros H. apply round_generic; auto with typeclass_instances. apply fr_format. exact H. Qed.
Definition small (z : Z) : Prop := Z.abs z <= 2 ^ 53.
Lemma int_format z : small z -> generic_format radix2 fexp64 (IZR z).
Proof.
  intros H. unfold small in H. destruct (Z.eq_dec (Z.abs z) (2 ^ 53)) as [E|N].
  - assert (G : generic_format radix2 fexp64 (bpow radix2 53)). { apply generic_format_bpow. unfold SpecFloat.fexp, SpecFloat.emin. lia. }
    assert (B : bpow radix2 53 = IZR (2 ^ 53)) by reflexivity. destruct (Z.abs_spec z) as [[_ Z1]|[_ Z1]].
    + replace z with (2 ^ 53) by lia. rewrite <- B. exact G.
    + replace z with (- (2 ^ 53)) by lia. rewrite opp_IZR, <- B. apply generic_format_opp. exact G.
  - apply generic_format_FLT. exists (Float radix2 z 0).
    + unfold F2R. cbn. ring.
    + cbn [Fnum]. change (Zpower radix2 53) with (2 ^ 53). lia.
    + cbn. unfold SpecFloat.emin. lia.
Qed.
Lemma rnd_int z : small z -> rnd (IZR z) = IZR z.
Proof. intros H. apply round_generic; auto with typeclass_instances. apply int_format. exact H. Qed.
Lemma small_max z : small z -> (Rabs (IZR z) < maxr)%R.
Proof.
  intros H. unfold small in H. rewrite <- abs_IZR. apply Rle_lt_trans with (IZR (2 ^ 53)); [apply IZR_le; exact H|].
  unfold maxr. change (IZR (2 ^ 53)) with (bpow radix2 53). apply bpow_lt. lia.
Qed.
Lemma rnd_max x z : small z -> (Rabs x <= IZR z)%R -> (Rabs (rnd x) < maxr)%R.
Proof.
  intros S H. assert (Hz : 0 <= z) by (apply le_IZR; eapply Rle_trans; [apply Rabs_pos|exact H]).
  apply Rle_lt_trans with (IZR z); [|rewrite <- (Rabs_pos_eq (IZR z)) by (apply IZR_le; exact Hz); apply small_max; exact S].
  apply Rabs_le. apply Rabs_le_inv in H as [H1 H2]. split.
  - rewrite <- opp_IZR. rewrite <- (rnd_int (- z)) by (unfold small in *; rewrite Z.abs_opp; exact S). apply rnd_le. rewrite opp_IZR. exact H1.
  - rewrite <- (rnd_int z S). apply rnd_le. exact H2.
Qed.
Lemma f64_int z : small z -> fin (f64_of_Z z) /\ fr (f64_of_Z z) = IZR z.
Proof. intros H. rewrite <- (rnd_int z H). apply f64_of_Z_ok. rewrite rnd_int by exact H. apply small_max. exact H. Qed.

(** [int(f)] truncates. *)
Lemma py_int_ok x : is_finite_SF x = true -> py_int x = Ok (Ztrunc (fr x)).
Proof.
  destruct x as [s|s| |s m e]; cbn [is_finite_SF]; intros F; try discriminate F; clear F.
  - cbn. rewrite Ztrunc_IZR. reflexivity.
  - unfold py_int, fr, SF2R. f_equal. destruct e as [|e|e].
    + unfold F2R. cbn [Fnum Fexp bpow]. rewrite Rmult_1_r, Ztrunc_IZR. destruct s; reflexivity.
    + unfold F2R. cbn [Fnum Fexp bpow]. rewrite <- mult_IZR, Ztrunc_IZR. change (Z.pow_pos radix2 e) with (2 ^ Zpos e). destruct s; cbn [cond_Zopp]; lia.
    + unfold F2R. cbn [Fnum Fexp bpow]. change (Z.pow_pos radix2 e) with (2 ^ Zpos e).
      assert (P : 0 < 2 ^ Zpos e) by (apply Z.pow_pos_nonneg; lia). change (IZR (cond_Zopp s (Zpos m)) * / IZR (2 ^ Zpos e))%R with (IZR (cond_Zopp s (Zpos m)) / IZR (2 ^ Zpos e))%R.
      assert (T : Ztrunc (IZR (Zpos m) / IZR (2 ^ Zpos e)) = Zpos m / 2 ^ Zpos e).
      { rewrite Ztrunc_floor by (apply Rmult_le_pos; [apply IZR_le; lia|apply Rlt_le, Rinv_0_lt_compat, IZR_lt; exact P]). apply Zfloor_div. lia. }
      destruct s; cbn [cond_Zopp]; [|symmetry; exact T]. replace (- Zpos m) with (- (Zpos m)) by reflexivity.
      change (Z.neg m) with (- Zpos m). rewrite opp_IZR. unfold Rdiv. rewrite Ropp_mult_distr_l_reverse. rewrite Ztrunc_opp. f_equal. symmetry. exact T.
Qed.
