(** C90 (ABLoss and OFDLoss) and C91 (L1Loss, L2Loss, MGDLoss). *)
From Verif Require Import Prelude Loss_Model Loss_Lemmas Regress_Model Regress_Lemmas.
From Coq Require Import Reals Lra.
Open Scope R_scope.

(** * Specification *)
(** Two feature maps of one shape: the entries of each sample correspond. *)
Definition aligned (s t : list (list R)) : Prop := Forall2 (fun a b => length a = length b) s t.
(** Every pair of corresponding entries satisfies [P]. *)
Definition entrywise (P : R -> R -> Prop) (s t : list (list R)) : Prop := Forall2 (Forall2 P) s t.
(** How far the student is from being on the teacher's side of the boundary by [m]. *)
Definition shortfall (m s t : R) : R := if Rle_dec t 0 then Rmax 0 (s + m) else Rmax 0 (m - s).

Lemma aligned_concat s t : aligned s t -> length (concat s) = length (concat t).
Proof. induction 1; cbn; auto. rewrite !app_length. lia. Qed.
Lemma entrywise_concat P s t : aligned s t -> (Forall2 P (concat s) (concat t) <-> entrywise P s t).
Proof.
  induction 1 as [|a b s t L _ IH]; [split; constructor|]. cbn [concat]. split.
  - intros F. enough (Forall2 P a b /\ Forall2 P (concat s) (concat t)) by (constructor; tauto).
    clear IH. revert b L F. induction a as [|x a IH]; intros [|y b] L F; try discriminate; [split; [constructor|auto]|].
    inversion F; subst. injection L as L. destruct (IH b L H4). auto.
  - intros F. inversion F; subst. apply Forall2_app; [auto|apply IH; auto].
Qed.
Lemma entry_sum (f : R -> R -> R) s t : aligned s t -> (forall x y, 0 <= f x y) ->
  0 <= rsum (zipw f (concat s) (concat t)) /\
  (rsum (zipw f (concat s) (concat t)) = 0 <-> entrywise (fun x y => f x y = 0) s t).
Proof.
  intros A N. split; [apply rsum_zipw_nonneg; auto|].
  rewrite rsum_zipw_zero by auto. rewrite (combine_Forall2 (fun x y => f x y = 0)) by (apply aligned_concat; auto).
  apply entrywise_concat; auto.
Qed.
Lemma entrywise_iff (P Q : R -> R -> Prop) s t : (forall x y, P x y <-> Q x y) -> (entrywise P s t <-> entrywise Q s t).
Proof.
  intros H. assert (G : forall a b, Forall2 P a b <-> Forall2 Q a b).
  { intros a b. split; induction 1; constructor; auto; apply H; auto. }
  split; induction 1; constructor; auto; apply G; auto.
Qed.

(** * C90 *)
Lemma ab_point_value m s t : ab_point m s t = sq (shortfall m s t).
Proof.
  unfold ab_point, shortfall, gtb, rleb, flag.
  pose proof (sq_nonneg (s + m)). pose proof (sq_nonneg (s - m)).
  destruct (Rgt_dec s (- m)), (Rle_dec t 0), (Rle_dec s m), (Rgt_dec t 0); cbn [andb]; try lra;
    rewrite ?Rmult_1_r, ?Rmult_0_r, ?Rplus_0_l, ?Rplus_0_r; rewrite Rabs_right by lra.
  all: first [ rewrite Rmax_right by lra; unfold sq; ring
             | rewrite Rmax_left by lra; unfold sq; ring ].
Qed.
Theorem C90_ab_value (m w : R) (s t : list (list R)) : aligned s t ->
  ab_loss m w s t = w * (3 / 1000) * (rsum (zipw (fun a b => rsum (zipw (fun x y => sq (shortfall m x y)) a b)) s t) / INR (length s)).
Proof.
  intros A. unfold ab_loss. rewrite (zipw_ext _ (fun x y => sq (shortfall m x y))) by (intros; apply ab_point_value).
  rewrite rsum_zipw_concat by exact A. unfold rlen, Rdiv. ring.
Qed.
(** The loss vanishes exactly when every student entry is on the teacher's side by the margin. *)
Theorem C90_ab_zero (m w : R) (s t : list (list R)) : 0 < w -> s <> [] -> aligned s t ->
  0 <= ab_loss m w s t /\
  (ab_loss m w s t = 0 <-> entrywise (fun x y => (y <= 0 -> x <= - m) /\ (0 < y -> m <= x)) s t).
Proof.
  intros W N A. destruct (entry_sum (ab_point m) s t A) as [P Z].
  { intros. rewrite ab_point_value. apply sq_nonneg. }
  pose proof (rlen_pos s N) as L. unfold ab_loss. set (v := rsum _) in *.
  assert (E : w * (v / rlen s / 1000 * 3) = (w * 3 / 1000 * / rlen s) * v) by (field; lra).
  assert (K : 0 < w * 3 / 1000 * / rlen s) by (apply Rmult_lt_0_compat; [lra|apply Rinv_0_lt_compat; auto]).
  rewrite E. split; [nra|]. split.
  - intros H. destruct (Rmult_integral _ _ H) as [H1|H1]; [lra|]. apply Z in H1. revert H1. apply entrywise_iff.
    intros x y. rewrite ab_point_value, sq_zero. unfold shortfall. destruct (Rle_dec y 0); unfold Rmax; destruct (Rle_dec _ _); split; intros; lra.
  - intros H. rewrite (proj2 Z); [ring|]. revert H. apply entrywise_iff.
    intros x y. rewrite ab_point_value, sq_zero. unfold shortfall. destruct (Rle_dec y 0); unfold Rmax; destruct (Rle_dec _ _); split; intros; lra.
Qed.
Example C90_ab_case :
  ab_loss 1 2 [[-2; 1/2]; [3; -3]] [[-1; 4]; [0; 1]] = 2 * (3 / 1000) * ((1/4 + (16 + 16)) / 2) /\
  ab_loss 1 2 [[-2; 3]] [[-1; 4]] = 0.
Proof.
  split.
  - rewrite C90_ab_value by (repeat constructor). cbn. unfold rsum, zipw, sq, shortfall. cbn.
    destruct (Rle_dec (-1) 0), (Rle_dec 4 0), (Rle_dec 0 0), (Rle_dec 1 0); try lra.
    unfold Rmax. repeat (destruct (Rle_dec _ _); try lra).
  - apply C90_ab_zero; [lra|discriminate|repeat constructor|]. repeat constructor; lra.
Qed.
(** OFD: a difference counts only where the student is above the teacher or the teacher is
    positive; the loss vanishes exactly when the student equals the positive entries and stays
    below the others. *)
Theorem C90_ofd (mf w : R) (s t : list (list R)) : 0 < w -> 0 < mf -> s <> [] -> aligned s t ->
  ofd_loss mf w s t
    = w / mf * (rsum (zipw (fun a b => rsum (zipw (fun x y => if Rle_dec y 0 then sq (Rmax 0 (x - y)) else sq (x - y)) a b)) s t) / INR (length s)) /\
  0 <= ofd_loss mf w s t /\
  (ofd_loss mf w s t = 0 <-> entrywise (fun x y => (0 < y -> x = y) /\ (y <= 0 -> x <= y)) s t).
Proof.
  intros W M N A.
  assert (V : forall x y, ofd_point x y = if Rle_dec y 0 then sq (Rmax 0 (x - y)) else sq (x - y)).
  { intros x y. unfold ofd_point, gtb, flag. destruct (Rgt_dec x y), (Rgt_dec y 0), (Rle_dec y 0); cbn [orb]; try lra;
    first [rewrite Rmax_right by lra; ring | rewrite Rmax_left by lra; unfold sq; ring]. }
  destruct (entry_sum ofd_point s t A) as [P Z].
  { intros x y. rewrite V. destruct (Rle_dec y 0); apply sq_nonneg. }
  pose proof (rlen_pos s N) as L. split; [|split].
  - unfold ofd_loss. rewrite (zipw_ext _ _ _ _ (fun x y _ => V x y)). rewrite rsum_zipw_concat by exact A.
    unfold rlen, Rdiv. ring.
  - unfold ofd_loss. apply Rmult_le_pos; [lra|]. unfold Rdiv. repeat apply Rmult_le_pos; auto; apply Rlt_le, Rinv_0_lt_compat; auto.
  - assert (E : ofd_loss mf w s t = (w * / rlen s * / mf) * rsum (zipw ofd_point (concat s) (concat t))).
    { unfold ofd_loss, Rdiv. ring. }
    assert (K : 0 < w * / rlen s * / mf) by (repeat apply Rmult_lt_0_compat; auto; apply Rinv_0_lt_compat; auto).
    assert (EQ : forall x y, ofd_point x y = 0 <-> (0 < y -> x = y) /\ (y <= 0 -> x <= y)).
    { intros x y. rewrite V. destruct (Rle_dec y 0); rewrite sq_zero; unfold Rmax; try destruct (Rle_dec _ _); split; intros; lra. }
    rewrite E. split.
    + intros H. destruct (Rmult_integral _ _ H) as [H1|H1]; [lra|]. apply Z in H1. revert H1. apply entrywise_iff. intros; symmetry; apply EQ.
    + intros H. rewrite (proj2 Z); [ring|]. revert H. apply entrywise_iff. exact EQ.
Qed.
Example C90_ofd_case :
  ofd_loss 1000 1 [[-2; 1]; [3; -3]] [[-1; 4]; [-5; -1]] = 1 / 1000 * ((9 + 64) / 2) /\
  ofd_loss 1000 1 [[-2; 4]] [[-1; 4]] = 0.
Proof.
  split.
  - rewrite (proj1 (C90_ofd 1000 1 [[-2; 1]; [3; -3]] [[-1; 4]; [-5; -1]] ltac:(lra) ltac:(lra) ltac:(discriminate) ltac:(repeat constructor))).
    unfold rsum, zipw, sq. cbn.
    destruct (Rle_dec (-1) 0), (Rle_dec 4 0), (Rle_dec (-5) 0); try lra.
    unfold Rmax. repeat (destruct (Rle_dec _ _); try lra).
  - apply C90_ofd; [lra|lra|discriminate|repeat constructor|]. repeat constructor; lra.
Qed.

(** * C91 *)
(** The absolute differences of two tensors of one shape. *)
Definition abs_diff (s t : list R) : list R := map (fun p => Rabs (fst p - snd p)) (combine s t).
(** What each documented configuration of [L1Loss] yields. *)
Theorem C91_l1 (w : R) (size_average reduce : option bool) (red : reduction) (s t : list R) :
  length s = length t ->
  (reduce = Some false -> l1_loss w size_average reduce red s t = Ok (Elems (map (Rmult w) (abs_diff s t)))) /\
  (reduce <> Some false -> size_average = Some false -> l1_loss w size_average reduce red s t = Ok (Scalar (w * rsum (abs_diff s t)))) /\
  (reduce <> Some false -> size_average = Some true \/ (size_average = None /\ reduce = Some true) ->
     l1_loss w size_average reduce red s t = Ok (Scalar (w * (rsum (abs_diff s t) / INR (length s))))) /\
  (reduce = None -> size_average = None ->
     (red = RMean -> l1_loss w size_average reduce red s t = Ok (Scalar (w * (rsum (abs_diff s t) / INR (length s))))) /\
     (red = RSum -> l1_loss w size_average reduce red s t = Ok (Scalar (w * rsum (abs_diff s t)))) /\
     (red = RNone -> l1_loss w size_average reduce red s t = Ok (Elems (map (Rmult w) (abs_diff s t))))).
Proof.
  intros L. assert (E : rlen (abs_diff s t) = INR (length s)).
  { unfold rlen, abs_diff. rewrite map_length, combine_length. f_equal. lia. }
  unfold l1_loss, l1_reduction, rmean. fold (abs_diff s t).
  change (zipw (fun s0 t0 => Rabs (s0 - t0)) s t) with (abs_diff s t). rewrite E.
  repeat split; intros; subst; cbn [andb]; try reflexivity;
    try (destruct size_average as [[]|]); try (destruct reduce as [[]|]); try congruence; try reflexivity;
    match goal with H : _ \/ _ |- _ => destruct H as [|[]]; congruence end.
Qed.
Example C91_l1_case : l1_loss 2 None None RMean [1; -3] [2; 3] = Ok (Scalar (2 * ((1 + 6) / 2))).
Proof.
  rewrite (proj1 (proj2 (proj2 (proj2 (C91_l1 2 None None RMean [1; -3] [2; 3] eq_refl))) eq_refl eq_refl) eq_refl).
  unfold abs_diff. cbn. do 2 f_equal. rewrite !Rabs_left by lra. lra.
Qed.
(** The claim that every reduction the constructor accepts can be used. *)
Definition C91_batchmean_claim : Prop := forall (w : R) (red : reduction) (s t : list R),
  length s = length t -> exists v, l1_loss w None None red s t = Ok v.
Theorem C91_batchmean_refuted : ~ C91_batchmean_claim.
Proof. intros H. destruct (H 1 RBatchmean [1] [2] eq_refl) as [v E]. discriminate. Qed.

(** Cosine of the angle between two vectors. *)
Definition cosine (a b : list R) : R := rsum (zipw Rmult a b) / (norm2 a * norm2 b).
Definition nonzero (r : list R) : Prop := exists x, In x r /\ x <> 0.
Lemma nonzero_norm r : nonzero r -> 0 < norm2 r.
Proof. intros (x & I & X). apply norm2_pos. intros F. rewrite Forall_forall in F. apply X, F, I. Qed.
Lemma normalize_ok mult l : Forall nonzero l ->
  all_some (map (normalize_feature mult) l) = Some (map (fun r => map (Rmult mult) (map (Rmult (/ norm2 r)) r)) l).
Proof.
  induction 1 as [|r l P _ IH]; [reflexivity|]. cbn [map all_some]. unfold normalize_feature at 1.
  destruct (Req_EM_T (norm2 r) 0) as [Z|Z]; [apply nonzero_norm in P; lra|]. rewrite IH. do 2 f_equal.
  rewrite map_map. apply map_ext. intros x. unfold Rdiv. ring.
Qed.
Lemma zipw_scale_sq c : forall a b, rsum (zipw (fun x y => sq (x - y)) (map (Rmult c) a) (map (Rmult c) b)) = sq c * rsum (zipw (fun x y => sq (x - y)) a b).
Proof.
  intros a b. rewrite zipw_map. unfold zipw. rewrite <- rsum_map_scale. f_equal. apply map_ext. intros [x y]. cbn. unfold sq. ring.
Qed.
Lemma l2_sum mult s t : aligned s t -> Forall nonzero s -> Forall nonzero t ->
  rsum (zipw (fun a b => sq (a - b)) (concat (map (fun r => map (Rmult mult) (map (Rmult (/ norm2 r)) r)) s))
                                     (concat (map (fun r => map (Rmult mult) (map (Rmult (/ norm2 r)) r)) t)))
  = sq mult * rsum (zipw (fun a b => 2 - 2 * cosine a b) s t).
Proof.
  intros A P Q. rewrite rsum_zipw_concat.
  2:{ clear - A. induction A; constructor; auto. rewrite !map_length. auto. }
  rewrite zipw_map. induction A as [|a b s t L _ IH]; [cbn; ring|].
  inversion P; inversion Q; subst. rewrite !zipw_cons, !rsum_cons, IH by auto.
  rewrite zipw_scale_sq, unit_dist by auto using nonzero_norm. unfold cosine, dot. ring.
Qed.
Lemma l2_len mult s t : aligned s t ->
  length (concat (map (fun r => map (Rmult mult) (map (Rmult (/ norm2 r)) r)) s)) = length (concat s).
Proof. induction 1; auto. cbn. rewrite !app_length, !map_length. lia. Qed.
(** With normalisation the loss depends on the angles only: 2 - 2 cos per sample. *)
Theorem C91_l2_normalized (mult w : R) (div_element dist : bool) (s t : list (list R)) :
  aligned s t -> Forall nonzero s -> Forall nonzero t ->
  let total := mult * mult * rsum (zipw (fun a b => 2 - 2 * cosine a b) s t) in
  l2_loss true mult div_element dist w s t
  = Some (w * (if dist then sqrt total
               else total / INR (if div_element then length (concat s) else length s))).
Proof.
  intros A P Q total. unfold l2_loss. rewrite !normalize_ok by auto. unfold l2_value.
  rewrite (l2_sum mult s t A P Q). fold (sq mult) in total. fold total. do 2 f_equal.
  destruct dist; [reflexivity|]. unfold rlen. rewrite (l2_len mult s t A), map_length. destruct div_element; reflexivity.
Qed.
(** Without normalisation: the squared distance. *)
Theorem C91_l2_plain (mult w : R) (div_element dist : bool) (s t : list (list R)) : aligned s t ->
  let total := rsum (zipw (fun a b => rsum (zipw (fun x y => (x - y) * (x - y)) a b)) s t) in
  l2_loss false mult div_element dist w s t
  = Some (w * (if dist then sqrt total
               else total / INR (if div_element then length (concat s) else length s))).
Proof.
  intros A total. unfold l2_loss, l2_value. rewrite rsum_zipw_concat by exact A. fold total. do 2 f_equal.
  destruct dist, div_element; reflexivity.
Qed.
(** The loss vanishes exactly when every student row is a positive multiple of the teacher's. *)
Theorem C91_l2_zero (mult w : R) (div_element dist : bool) (s t : list (list R)) :
  w <> 0 -> mult <> 0 -> s <> [] -> aligned s t -> Forall nonzero s -> Forall nonzero t ->
  (l2_loss true mult div_element dist w s t = Some 0 <->
   Forall2 (fun a b => exists k, 0 < k /\ a = map (Rmult k) b) s t).
Proof.
  intros W M N A P Q. rewrite C91_l2_normalized by auto.
  set (total := mult * mult * _).
  assert (T : 0 <= total /\ (total = 0 <-> Forall2 (fun a b => exists k, 0 < k /\ a = map (Rmult k) b) s t)).
  { assert (D : forall a b, In (a, b) (combine s t) -> length a = length b /\ 0 < norm2 a /\ 0 < norm2 b).
    { intros a b I. split; [|split].
      - revert a b I. apply combine_Forall2; [apply (Forall2_len _ _ _ A)|exact A].
      - rewrite Forall_forall in P. apply nonzero_norm, P. apply in_combine_l in I. auto.
      - rewrite Forall_forall in Q. apply nonzero_norm, Q. apply in_combine_r in I. auto. }
    assert (G : forall a b, In (a, b) (combine s t) -> 0 <= 2 - 2 * cosine a b /\
      (2 - 2 * cosine a b = 0 <-> exists k, 0 < k /\ a = map (Rmult k) b)).
    { intros a b I. destruct (D a b I) as (L & X & Y). unfold cosine. fold (dot a b). rewrite <- unit_dist by auto.
      split; [apply rsum_zipw_nonneg; intros; apply sq_nonneg|].
      rewrite dist_zero by (rewrite !map_length; auto). apply unit_equal; auto. }
    assert (MM : 0 < mult * mult) by nra.
    pose proof (rsum_zipw_nonneg (fun a b => 2 - 2 * cosine a b) s t (fun a b I => proj1 (G a b I))) as NN.
    split; [unfold total; nra|].
    rewrite <- combine_Forall2 by (apply (Forall2_len _ _ _ A)). split.
    - intros Z. unfold total in Z. destruct (Rmult_integral _ _ Z) as [Z1|Z1]; [lra|].
      pose proof (proj1 (rsum_zipw_zero (fun a b => 2 - 2 * cosine a b) s t (fun a b I => proj1 (G a b I))) Z1) as Z2. intros a b I. apply (G a b I). apply Z2. auto.
    - intros H. unfold total. replace (rsum _) with 0; [ring|]. symmetry.
      apply (proj2 (rsum_zipw_zero (fun a b => 2 - 2 * cosine a b) s t (fun a b I => proj1 (G a b I)))). intros a b I. apply (G a b I). apply H. auto. }
  destruct T as [T0 T1]. rewrite <- T1.
  assert (LEN : 0 < INR (if div_element then length (concat s) else length s)).
  { apply lt_0_INR. destruct s as [|r s]; [congruence|]. destruct div_element; cbn; [|lia].
    inversion P; subst. destruct H1 as (x & I & _). destruct r; [destruct I|]. cbn. lia. }
  split.
  - intros E. injection E as E. destruct (Rmult_integral _ _ E) as [E1|E1]; [congruence|].
    destruct dist; [apply sqrt_eq_0; auto|]. destruct (Rmult_integral _ _ E1) as [E2|E2]; auto.
    apply Rinv_neq_0_compat in E2; [contradiction|lra].
  - intros ->. f_equal. destruct dist; [rewrite sqrt_0|unfold Rdiv]; ring.
Qed.
Example C91_l2_case :
  l2_loss true 1 false false 3 [[3; 4]] [[4; 3]] = Some (3 * (2 / 25)) /\
  l2_loss true 1 false false 3 [[3; 4]; [0; -2]] [[6; 8]; [0; -1]] = Some 0.
Proof.
  assert (N : forall x y, x <> 0 \/ y <> 0 -> nonzero [x; y]).
  { intros x y [H|H]; [exists x|exists y]; cbn; auto. }
  split.
  - rewrite C91_l2_normalized; [|repeat constructor|repeat constructor; apply N; lra|repeat constructor; apply N; lra].
    f_equal. unfold cosine, norm2, zipw, rsum, sq. cbn.
    replace (3 * 3 + (4 * 4 + 0)) with (5 * 5) by ring. replace (4 * 4 + (3 * 3 + 0)) with (5 * 5) by ring.
    rewrite sqrt_square by lra. lra.
  - apply C91_l2_zero; [lra|lra|discriminate|repeat constructor| | |].
    1,2: repeat constructor; apply N; lra.
    repeat constructor; [exists (1/2)|exists 2]; split; try lra; cbn; repeat f_equal; lra.
Qed.
(** The claim that the loss is a number for all features. *)
Definition C91_nan_claim : Prop := forall (mult w : R) (div_element dist : bool) (s t : list (list R)),
  aligned s t -> s <> [] -> exists v, l2_loss true mult div_element dist w s t = Some v.
(** A sample whose features are all zero (a dead ReLU) makes the loss NaN. *)
Theorem C91_nan_refuted : ~ C91_nan_claim.
Proof.
  intros H. destruct (H 1 1 false false [[0; 0]] [[1; 2]]) as [v E]; [repeat constructor|discriminate|].
  unfold l2_loss in E. cbn [map all_some] in E. unfold normalize_feature at 1 in E.
  destruct (Req_EM_T (norm2 [0; 0]) 0) as [Z|Z]; [discriminate|]. apply Z. apply norm2_zero. repeat constructor.
Qed.
(** Exactly then: one sample, student's or teacher's, all zero. *)
Theorem C91_nan (mult w : R) (div_element dist : bool) (s t : list (list R)) :
  l2_loss true mult div_element dist w s t = None <->
  exists r, In r (s ++ t) /\ Forall (fun x => x = 0) r.
Proof.
  assert (G : forall l, all_some (map (normalize_feature mult) l) = None <-> exists r, In r l /\ Forall (fun x => x = 0) r).
  { induction l as [|r l IH]; [split; [discriminate|intros (? & [] & _)]|].
    cbn [map all_some]. unfold normalize_feature at 1. destruct (Req_EM_T (norm2 r) 0) as [Z|Z].
    - split; [intros _|reflexivity]. exists r. split; [left; auto|apply norm2_zero; auto].
    - destruct (all_some _) as [l'|] eqn:E.
      + split; [discriminate|]. intros (q & [->|I] & F); [apply norm2_zero in F; contradiction|].
        assert (X : Some l' = None) by (apply IH; exists q; auto). discriminate.
      + split; [|auto]. intros _. destruct (proj1 IH eq_refl) as (q & I & F). exists q. split; [right|]; auto. }
  unfold l2_loss. destruct (all_some (map (normalize_feature mult) s)) as [s'|] eqn:ES.
  - destruct (all_some (map (normalize_feature mult) t)) as [t'|] eqn:ET.
    + split; [discriminate|]. intros (r & I & F). apply in_app_or in I. destruct I as [I|I].
      * rewrite (proj2 (G s)) in ES; [discriminate|exists r; auto].
      * rewrite (proj2 (G t)) in ET; [discriminate|exists r; auto].
    + split; [|auto]. intros _. destruct (proj1 (G t) ET) as (r & I & F). exists r. split; [apply in_or_app|]; auto.
  - split; [|auto]. intros _. destruct (proj1 (G s) ES) as (r & I & F). exists r. split; [apply in_or_app|]; auto.
Qed.
Example C91_nan_case : l2_loss true 1 false false 1 [[1; 2]; [0; 0]] [[3; 4]; [5; 6]] = None.
Proof. apply C91_nan. exists [0; 0]. split; [cbn; auto|repeat constructor]. Qed.
(** MGD: squared distance over the batch size; features of different shapes are rejected. *)
Theorem C91_mgd (alpha : R) (N C H W : nat) (shape_S : list nat) (s t : list R) :
  length s = length t ->
  (shape_S = [N; C; H; W] -> (0 < N)%nat -> 0 < alpha ->
    mgd_loss alpha shape_S [N; C; H; W] s t = Ok (alpha * (rsum (map (fun p => (fst p - snd p) * (fst p - snd p)) (combine s t)) / INR N)) /\
    (mgd_loss alpha shape_S [N; C; H; W] s t = Ok 0 <-> s = t)) /\
  (shape_S <> [N; C; H; W] -> mgd_loss alpha shape_S [N; C; H; W] s t = Raise AssertionError).
Proof.
  intros L. unfold mgd_loss. split.
  - intros -> P A. destruct (list_eq_dec _ _ _) as [_|F]; [|congruence]. cbn [nth].
    fold (sq 0). change (map (fun p => (fst p - snd p) * (fst p - snd p)) (combine s t)) with (zipw (fun a b => sq (a - b)) s t).
    apply lt_0_INR in P. split; [f_equal; unfold Rdiv; ring|].
    rewrite <- (dist_zero s t L). set (v := rsum _). split.
    + intros E. apply Ok_inj in E. destruct (Rmult_integral _ _ E) as [E1|E1]; [|lra].
      destruct (Rmult_integral _ _ E1) as [E2|E2]; auto. apply Rinv_neq_0_compat in E2; [contradiction|lra].
    + intros ->. f_equal. unfold Rdiv. ring.
  - intros F. destruct (list_eq_dec _ _ _); congruence.
Qed.
Example C91_mgd_case : mgd_loss 2 [2; 1; 1; 1]%nat [2; 1; 1; 1]%nat [1; 5] [3; 5] = Ok (2 * (4 / 2)) /\
  mgd_loss 2 [1; 2; 1; 1]%nat [2; 1; 1; 1]%nat [1; 5] [3; 5] = Raise AssertionError.
Proof.
  destruct (C91_mgd 2 2 1 1 1 [2; 1; 1; 1]%nat [1; 5] [3; 5] eq_refl) as [A _].
  destruct (C91_mgd 2 2 1 1 1 [1; 2; 1; 1]%nat [1; 5] [3; 5] eq_refl) as [_ B].
  split; [|apply B; discriminate].
  rewrite (proj1 (A eq_refl ltac:(lia) ltac:(lra))). unfold rsum. cbn. f_equal. lra.
Qed.
Print Assumptions C90_ab_zero.
Print Assumptions C91_l2_zero.
