(** C92: attention transfer (ATLoss) and factor transfer (FTLoss). *)
From Verif Require Import Prelude Loss_Model Loss_Lemmas Regress_Model Regress_Lemmas Regress_Props.
From Coq Require Import Reals Lra.
Open Scope R_scope.

(** * Specification *)
(** Attention at each position: mean over the channels of the squared activations. *)
Definition attention_at (P : nat) (x : list (list R)) : list R :=
  map (fun i => rsum (map (fun ch => nth i ch 0 * nth i ch 0) x) / INR (length x)) (seq 0 P).
(** A vector that is not vanishingly small. *)
Definition strong (r : list R) : Prop := / (10 ^ 12) <= norm2 r.
(** The unit vector in the direction of [r]. *)
Definition unit (r : list R) : list R := map (fun x => x / norm2 r) r.

Lemma tiny_pos : 0 < tiny.
Proof. unfold tiny. apply Rinv_0_lt_compat. apply pow_lt. lra. Qed.
Lemma rmax_pos r : 0 < Rmax (norm2 r) tiny.
Proof. pose proof tiny_pos. pose proof (Rmax_r (norm2 r) tiny). lra. Qed.
Lemma f_normalize_scale r : f_normalize r = map (Rmult (/ Rmax (norm2 r) tiny)) r.
Proof. unfold f_normalize. apply map_ext. intros x. unfold Rdiv. ring. Qed.
Lemma f_normalize_length r : length (f_normalize r) = length r.
Proof. apply map_length. Qed.
Lemma f_normalize_strong r : strong r -> f_normalize r = unit r.
Proof. intros H. unfold f_normalize, unit. rewrite Rmax_left; [reflexivity|]. exact H. Qed.
Lemma strong_pos r : strong r -> 0 < norm2 r.
Proof. unfold strong. fold tiny. pose proof tiny_pos. lra. Qed.
Lemma unit_scale r : unit r = map (Rmult (/ norm2 r)) r.
Proof. apply map_ext. intros x. unfold Rdiv. ring. Qed.
Lemma f_normalize_le r : norm2 (f_normalize r) <= 1.
Proof.
  rewrite f_normalize_scale, norm2_scale. pose proof (rmax_pos r) as P.
  rewrite Rabs_right by (apply Rle_ge, Rlt_le, Rinv_0_lt_compat; auto).
  apply (Rmult_le_reg_l (Rmax (norm2 r) tiny)); auto. rewrite <- Rmult_assoc, Rinv_r by lra.
  pose proof (Rmax_l (norm2 r) tiny). lra.
Qed.
Lemma attention_spec P x : attention P x = f_normalize (attention_at P x).
Proof.
  unfold attention, attention_at. f_equal. apply map_ext. intros i. unfold rmean, rlen. rewrite map_length. reflexivity.
Qed.
Lemma attention_len P x : length (attention_at P x) = P.
Proof. unfold attention_at. rewrite map_length, seq_length. reflexivity. Qed.
Lemma attention_nonneg P x : Forall (Rle 0) (attention_at P x).
Proof.
  apply Forall_forall. intros v V. unfold attention_at in V. apply in_map_iff in V. destruct V as (i & <- & _).
  assert (E : rsum (map (fun ch => nth i ch 0 * nth i ch 0) x) / INR (length x) = rmean (map (fun ch => sq (nth i ch 0)) x)).
  { unfold rmean, rlen. rewrite map_length. reflexivity. }
  rewrite E. apply rmean_nonneg. apply Forall_forall. intros v V. apply in_map_iff in V. destruct V as (ch & <- & _). apply sq_nonneg.
Qed.
Lemma dot_nonneg a b : Forall (Rle 0) a -> Forall (Rle 0) b -> 0 <= dot a b.
Proof.
  intros A. revert b. induction A as [|x a X _ IH]; intros [|y b] B; try (unfold dot; cbn; lra).
  inversion B; subst. unfold dot in *. rewrite zipw_cons, rsum_cons. specialize (IH b H2). nra.
Qed.
Lemma concat_const_length (P : nat) (l : list (list R)) : Forall (fun r => length r = P) l -> length (concat l) = (length l * P)%nat.
Proof. induction 1; cbn; [auto|]. rewrite app_length. lia. Qed.
Lemma at_rewrite P w s t : length s = length t ->
  at_loss P w s t = w * (rsum (zipw (fun a b => rsum (zipw (fun x y => sq (x - y)) (attention P a) (attention P b))) s t)
                         / (INR (length s) * INR P)).
Proof.
  intros L. unfold at_loss. f_equal. unfold rmean. rewrite rsum_concat. unfold rlen. f_equal; [|f_equal].
  - rewrite zipw_map. unfold zipw. rewrite map_map. reflexivity.
  - rewrite <- mult_INR. f_equal. rewrite (concat_const_length P).
    + rewrite zipw_length; rewrite !map_length; auto.
    + rewrite zipw_map. unfold zipw at 1. apply Forall_forall. intros r V. apply in_map_iff in V.
      destruct V as ([a b] & <- & _). cbn [fst snd].
      rewrite zipw_length; rewrite !attention_spec, !f_normalize_length, !attention_len; auto.
Qed.

(** The loss compares directions of the attention only: 2 - 2 cos per sample. *)
Theorem C92_at_value (P : nat) (w : R) (s t : list (list (list R))) :
  length s = length t -> Forall (fun x => strong (attention_at P x)) s -> Forall (fun x => strong (attention_at P x)) t ->
  at_loss P w s t = w * (rsum (zipw (fun a b => 2 - 2 * cosine (attention_at P a) (attention_at P b)) s t)
                         / (INR (length s) * INR P)).
Proof.
  intros L A B. rewrite at_rewrite by auto. do 2 f_equal.
  rewrite Forall_forall in A, B. f_equal. apply zipw_ext. intros x y I.
  pose proof (A x (in_combine_l _ _ _ _ I)) as X. pose proof (B y (in_combine_r _ _ _ _ I)) as Y.
  rewrite !attention_spec, !f_normalize_strong, !unit_scale by auto. rewrite unit_dist by (rewrite ?attention_len; auto using strong_pos).
  reflexivity.
Qed.
(** For all features, dead ones included, the loss is between 0 and 2 / (H * W). *)
Theorem C92_at_bounds (P : nat) (w : R) (s t : list (list (list R))) :
  0 <= w -> s <> [] -> (0 < P)%nat -> length s = length t ->
  0 <= at_loss P w s t <= w * (2 / INR P).
Proof.
  intros W N PP L. rewrite at_rewrite by auto. apply lt_0_INR in PP.
  assert (NN : 0 < INR (length s)) by (apply (rlen_pos s N)).
  set (f := fun a b => rsum (zipw (fun x y => sq (x - y)) (attention P a) (attention P b))).
  assert (F : forall a b, 0 <= f a b <= 2).
  { intros a b. unfold f. split; [apply rsum_zipw_nonneg; intros; apply sq_nonneg|].
    rewrite !attention_spec. rewrite dist_expand by (rewrite !f_normalize_length, !attention_len; auto).
    rewrite <- !norm2_sq. pose proof (f_normalize_le (attention_at P a)). pose proof (f_normalize_le (attention_at P b)).
    pose proof (norm2_nonneg (f_normalize (attention_at P a))). pose proof (norm2_nonneg (f_normalize (attention_at P b))).
    assert (0 <= dot (f_normalize (attention_at P a)) (f_normalize (attention_at P b))).
    { rewrite !f_normalize_scale, dot_scale. repeat apply Rmult_le_pos; try (apply Rlt_le, Rinv_0_lt_compat, rmax_pos).
      apply dot_nonneg; apply attention_nonneg. }
    nra. }
  assert (G : 0 <= rsum (zipw f s t) <= 2 * INR (length s)).
  { split; [apply rsum_zipw_nonneg; intros; apply F|].
    replace (INR (length s)) with (INR (length (combine s t))) by (rewrite combine_length; f_equal; lia).
    rewrite Rmult_comm, <- (rsum_const 2 (combine s t)). unfold zipw. apply rsum_le. intros [a b] _. apply F. }
  assert (K : 0 < / (INR (length s) * INR P)) by (apply Rinv_0_lt_compat, Rmult_lt_0_compat; auto).
  split.
  - apply Rmult_le_pos; auto. apply Rmult_le_pos; [apply G|lra].
  - apply Rmult_le_compat_l; auto. unfold Rdiv.
    apply Rle_trans with (2 * INR (length s) * / (INR (length s) * INR P)); [apply Rmult_le_compat_r; [lra|apply G]|].
    right. field. split; lra.
Qed.
(** It vanishes exactly when the attention of every sample is a positive multiple of the teacher's. *)
Theorem C92_at_zero (P : nat) (w : R) (s t : list (list (list R))) :
  w <> 0 -> s <> [] -> (0 < P)%nat -> length s = length t ->
  Forall (fun x => strong (attention_at P x)) s -> Forall (fun x => strong (attention_at P x)) t ->
  (at_loss P w s t = 0 <->
   Forall2 (fun a b => exists k, 0 < k /\ attention_at P a = map (Rmult k) (attention_at P b)) s t).
Proof.
  intros W N PP L A B. rewrite at_rewrite by auto. apply lt_0_INR in PP.
  assert (NN : 0 < INR (length s)) by (apply (rlen_pos s N)).
  set (f := fun a b => rsum (zipw (fun x y => sq (x - y)) (attention P a) (attention P b))).
  assert (F : forall a b, In (a, b) (combine s t) -> f a b = 0 <-> exists k, 0 < k /\ attention_at P a = map (Rmult k) (attention_at P b)).
  { intros a b I. rewrite Forall_forall in A, B.
    pose proof (A a (in_combine_l _ _ _ _ I)) as X. pose proof (B b (in_combine_r _ _ _ _ I)) as Y.
    unfold f. rewrite dist_zero by (rewrite !attention_spec, !f_normalize_length, !attention_len; auto).
    rewrite !attention_spec, !f_normalize_strong, !unit_scale by auto.
    apply unit_equal; rewrite ?attention_len; auto using strong_pos. }
  assert (Z : rsum (zipw f s t) = 0 <-> forall a b, In (a, b) (combine s t) -> f a b = 0).
  { apply rsum_zipw_zero. intros. apply rsum_zipw_nonneg. intros. apply sq_nonneg. }
  rewrite <- combine_Forall2 by auto. split.
  - intros E. destruct (Rmult_integral _ _ E) as [E1|E1]; [congruence|].
    destruct (Rmult_integral _ _ E1) as [E2|E2].
    + intros a b I. apply F; auto. apply Z; auto.
    + exfalso. revert E2. apply Rinv_neq_0_compat. apply Rmult_integral_contrapositive. split; lra.
  - intros H. rewrite (proj2 Z); [unfold Rdiv; ring|]. intros a b I. apply F; auto.
Qed.
(** Scaling all activations of a sample does not change its attention vector. *)
Theorem C92_at_scale (P : nat) (k : R) (x : list (list R)) :
  k <> 0 -> strong (attention_at P x) -> strong (attention_at P (map (map (Rmult k)) x)) ->
  attention P (map (map (Rmult k)) x) = attention P x.
Proof.
  intros K A B. assert (E : attention_at P (map (map (Rmult k)) x) = map (Rmult (k * k)) (attention_at P x)).
  { unfold attention_at. rewrite map_map. apply map_ext. intros i. rewrite map_length, map_map.
    rewrite (map_ext _ (fun ch => k * k * (nth i ch 0 * nth i ch 0))).
    - rewrite rsum_map_scale. unfold Rdiv. ring.
    - intros ch. assert (M : nth i (map (Rmult k) ch) 0 = k * nth i ch 0).
      { transitivity (nth i (map (Rmult k) ch) (k * 0)); [f_equal; ring|apply (map_nth (Rmult k))]. }
      rewrite M. ring. }
  rewrite !attention_spec, !f_normalize_strong, !unit_scale by auto. rewrite E.
  apply unit_equal.
  - rewrite map_length. reflexivity.
  - rewrite <- E. apply strong_pos; auto.
  - apply strong_pos; auto.
  - exists (k * k). split; [nra|reflexivity].
Qed.
Lemma norm2_pair x y n : 0 <= n -> x * x + y * y = n * n -> norm2 [x; y] = n.
Proof. intros N E. unfold norm2, rsum, sq. cbn. replace (x * x + (y * y + 0)) with (n * n) by lra. apply sqrt_square. auto. Qed.
Lemma tiny_le1 : / (10 ^ 12) <= 1.
Proof.
  assert (H : 1 <= 10 ^ 12) by (apply pow_R1_Rle; lra).
  apply (Rmult_le_reg_l (10 ^ 12)); [lra|]. rewrite Rinv_r by lra. lra.
Qed.
(** One sample, two student channels and one teacher channel, two positions. *)
Example C92_at_case :
  at_loss 2 1 [[[2; 2]; [sqrt 2; 2]]] [[[2; sqrt 3]]] = 1 * ((2 - 2 * (24 / 25)) / (1 * 2)) /\
  at_loss 2 1 [[[2; sqrt 3]]] [[[2; sqrt 3]; [2; sqrt 3]]] = 0 /\
  attention 2 (map (map (Rmult 3)) [[2; sqrt 3]]) = attention 2 [[2; sqrt 3]].
Proof.
  assert (S2 : sqrt 2 * sqrt 2 = 2) by (apply sqrt_sqrt; lra). assert (S3 : sqrt 3 * sqrt 3 = 3) by (apply sqrt_sqrt; lra).
  assert (A : attention_at 2 [[2; 2]; [sqrt 2; 2]] = [3; 4]).
  { unfold attention_at, rsum. cbn. repeat f_equal; nra. }
  assert (B : attention_at 2 [[2; sqrt 3]] = [4; 3]).
  { unfold attention_at, rsum. cbn. repeat f_equal; nra. }
  assert (C : attention_at 2 [[2; sqrt 3]; [2; sqrt 3]] = [4; 3]).
  { unfold attention_at, rsum. cbn. repeat f_equal; nra. }
  assert (D : attention_at 2 (map (map (Rmult 3)) [[2; sqrt 3]]) = [36; 27]).
  { unfold attention_at, rsum. cbn. repeat f_equal; nra. }
  assert (NA : norm2 [3; 4] = 5) by (apply norm2_pair; lra). assert (NB : norm2 [4; 3] = 5) by (apply norm2_pair; lra).
  assert (ND : norm2 [36; 27] = 45) by (apply norm2_pair; lra). pose proof tiny_le1.
  repeat split.
  - rewrite C92_at_value; [|reflexivity| |].
    + cbn [zipw combine map fst snd length]. unfold zipw. cbn [combine map fst snd]. rewrite A, B. unfold cosine. rewrite NA, NB.
      unfold zipw, rsum. cbn. lra.
    + repeat constructor. rewrite A. unfold strong. rewrite NA. lra.
    + repeat constructor. rewrite B. unfold strong. rewrite NB. lra.
  - apply C92_at_zero; try lra; try lia; try discriminate; try reflexivity.
    + repeat constructor. rewrite B. unfold strong. rewrite NB. lra.
    + repeat constructor. rewrite C. unfold strong. rewrite NB. lra.
    + repeat constructor. exists 1. rewrite B, C. split; [lra|]. cbn. repeat f_equal; lra.
  - apply C92_at_scale; [lra| |].
    + rewrite B. unfold strong. rewrite NB. lra.
    + rewrite D. unfold strong. rewrite ND. lra.
Qed.
Example C92_at_dead_case : 0 <= at_loss 2 3 [[[0; 0]]] [[[1; 2]]] <= 3 * (2 / INR 2).
Proof. apply C92_at_bounds; [lra|discriminate|lia|reflexivity]. Qed.

(** * Factor transfer *)
Lemma ft_rewrite w D s t : Forall2 (fun a b => length a = D /\ length b = D) s t ->
  ft_loss w s t = w * (rsum (zipw (fun a b => rsum (zipw (fun x y => Rabs (x - y)) (f_normalize a) (f_normalize b))) s t)
                       / (INR (length s) * INR D)).
Proof.
  intros A. pose proof (Forall2_len _ _ _ A) as L. unfold ft_loss. f_equal. unfold rmean. rewrite rsum_concat. unfold rlen. f_equal; [|f_equal].
  - rewrite zipw_map. unfold zipw. rewrite map_map. reflexivity.
  - rewrite <- mult_INR. f_equal. rewrite (concat_const_length D).
    + rewrite zipw_length; rewrite !map_length; auto.
    + rewrite zipw_map. unfold zipw at 1. apply Forall_forall. intros r V. apply in_map_iff in V.
      destruct V as ([a b] & <- & I). cbn [fst snd].
      assert (X : length a = D /\ length b = D).
      { revert a b I. apply combine_Forall2; auto. }
      destruct X. rewrite zipw_length; rewrite !f_normalize_length; lia.
Qed.
(** The loss is the mean absolute difference of the unit vectors. *)
Theorem C92_ft_value (D : nat) (w : R) (s t : list (list R)) :
  Forall2 (fun a b => length a = D /\ length b = D) s t -> Forall strong s -> Forall strong t ->
  ft_loss w s t = w * (rsum (zipw (fun a b => rsum (zipw (fun x y => Rabs (x - y)) (unit a) (unit b))) s t)
                       / (INR (length s) * INR D)).
Proof.
  intros A P Q. rewrite (ft_rewrite w D) by auto. do 3 f_equal. apply zipw_ext. intros a b I.
  rewrite Forall_forall in P, Q. rewrite !f_normalize_strong; [reflexivity| |].
  - apply Q. apply in_combine_r in I. auto.
  - apply P. apply in_combine_l in I. auto.
Qed.
Lemma abs_sum_zero : forall a b, length a = length b -> (rsum (zipw (fun x y => Rabs (x - y)) a b) = 0 <-> a = b).
Proof.
  intros a b L. rewrite rsum_zipw_zero by (intros; apply Rabs_pos).
  rewrite (combine_Forall2 (fun x y => Rabs (x - y) = 0)) by auto. split.
  - induction 1 as [|x y a b E _ IH]; [reflexivity|]. cbn in L. f_equal; [|apply IH; lia].
    destruct (Req_dec (x - y) 0) as [Z|Z]; [lra|]. apply Rabs_no_R0 in Z. contradiction.
  - intros ->. clear L. induction b; constructor; auto. rewrite Rminus_diag_eq by auto. apply Rabs_R0.
Qed.
(** It vanishes exactly when every student row is a positive multiple of the teacher's. *)
Theorem C92_ft_zero (D : nat) (w : R) (s t : list (list R)) :
  w <> 0 -> s <> [] -> (0 < D)%nat -> Forall2 (fun a b => length a = D /\ length b = D) s t -> Forall strong s -> Forall strong t ->
  (ft_loss w s t = 0 <-> Forall2 (fun a b => exists k, 0 < k /\ a = map (Rmult k) b) s t).
Proof.
  intros W N DD A P Q. rewrite (C92_ft_value D) by auto. apply lt_0_INR in DD.
  assert (NN : 0 < INR (length s)) by (apply (rlen_pos s N)).
  pose proof (Forall2_len _ _ _ A) as L. rewrite <- combine_Forall2 by auto. rewrite <- combine_Forall2 in A by auto.
  set (f := fun a b => rsum (zipw (fun x y => Rabs (x - y)) (unit a) (unit b))).
  assert (F : forall a b, In (a, b) (combine s t) -> f a b = 0 <-> exists k, 0 < k /\ a = map (Rmult k) b).
  { intros a b I. rewrite Forall_forall in P, Q. destruct (A a b I) as [LA LB].
    pose proof (P a (in_combine_l _ _ _ _ I)) as X. pose proof (Q b (in_combine_r _ _ _ _ I)) as Y.
    unfold f. rewrite abs_sum_zero by (unfold unit; rewrite !map_length; lia).
    rewrite !unit_scale. apply unit_equal; auto using strong_pos. lia. }
  assert (Z : rsum (zipw f s t) = 0 <-> forall a b, In (a, b) (combine s t) -> f a b = 0).
  { apply rsum_zipw_zero. intros. apply rsum_zipw_nonneg. intros. apply Rabs_pos. }
  split.
  - intros E. destruct (Rmult_integral _ _ E) as [E1|E1]; [congruence|].
    destruct (Rmult_integral _ _ E1) as [E2|E2].
    + intros a b I. apply F; auto. apply Z; auto.
    + exfalso. revert E2. apply Rinv_neq_0_compat. apply Rmult_integral_contrapositive. split; lra.
  - intros H. rewrite (proj2 Z); [unfold Rdiv; ring|]. intros a b I. apply F; auto.
Qed.
Example C92_ft_case :
  ft_loss 1 [[3; 4]] [[-6; 8]] = 1 * ((6 / 5) / (1 * 2)) /\ ft_loss 1 [[3; 4]] [[6; 8]] = 0.
Proof.
  assert (NA : norm2 [3; 4] = 5) by (apply norm2_pair; lra). assert (NB : norm2 [-6; 8] = 10) by (apply norm2_pair; lra).
  assert (NC : norm2 [6; 8] = 10) by (apply norm2_pair; lra). pose proof tiny_le1.
  split.
  - rewrite (C92_ft_value 2); [|repeat constructor| |].
    + unfold unit, zipw, rsum. cbn. rewrite NA, NB. rewrite (Rabs_right (3 / 5 - -6 / 10)) by lra.
      rewrite Rabs_right by lra. lra.
    + repeat constructor. unfold strong. rewrite NA. lra.
    + repeat constructor. unfold strong. rewrite NB. lra.
  - apply (C92_ft_zero 2); [lra|discriminate|lia|repeat constructor| | |].
    + repeat constructor. unfold strong. rewrite NA. lra.
    + repeat constructor. unfold strong. rewrite NC. lra.
    + repeat constructor. exists (1/2). split; [lra|]. cbn. repeat f_equal; lra.
Qed.
Print Assumptions C92_at_zero.
Print Assumptions C92_ft_zero.
