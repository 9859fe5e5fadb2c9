(** C94: DISTLoss. *)
From Verif Require Import Prelude Loss_Model Loss_Lemmas Loss_Props Regress_Model Regress_Lemmas.
From Coq Require Import Reals Lra.
Open Scope R_scope.

(** * Specification *)
Definition avg (l : list R) : R := rsum l / INR (length l).
Definition devs (l : list R) : list R := map (fun x => x - avg l) l.
(** Correlation of two vectors, with 1e-8 added to the denominator. *)
Definition correlation (a b : list R) : R :=
  rsum (map (fun p => fst p * snd p) (combine (devs a) (devs b)))
  / (sqrt (rsum (map (fun x => x * x) (devs a))) * sqrt (rsum (map (fun x => x * x) (devs b))) + / (10 ^ 8)).
(** The distribution of one sample over the classes, and of one class over the samples. *)
Definition sample_probs (tau : R) (r : list R) : list R := map (prob tau r) (seq 0 (length r)).
Definition class_probs (tau : R) (logits : list (list R)) (c : nat) : list R := map (fun r => prob tau r c) logits.
Definition inter (tau : R) (S T : list (list R)) : R :=
  avg (zipw (fun s t => 1 - correlation (sample_probs tau s) (sample_probs tau t)) S T).
Definition intra (C : nat) (tau : R) (S T : list (list R)) : R :=
  avg (map (fun c => 1 - correlation (class_probs tau S c) (class_probs tau T c)) (seq 0 C)).
Definition rows (C : nat) (S : list (list R)) : Prop := Forall (fun r => length r = C) S.

Lemma softmax_probs tau r : softmax (divide tau r) = sample_probs tau r.
Proof.
  unfold sample_probs. apply (nth_ext _ _ 0 (prob tau r 0)).
  - rewrite softmax_length, divide_length, map_length, seq_length. reflexivity.
  - rewrite softmax_length, divide_length. intros i I. rewrite prob_softmax by auto.
    rewrite (map_nth (prob tau r)). rewrite seq_nth by auto. reflexivity.
Qed.
Lemma pearson_spec a b : pearson_correlation a b = correlation a b.
Proof. reflexivity. Qed.
Lemma one_minus_mean {A} (f : A -> R) l : l <> [] -> 1 - rmean (map f l) = avg (map (fun x => 1 - f x) l).
Proof.
  intros N. unfold rmean, rlen, avg. rewrite !map_length.
  assert (E : rsum (map (fun x => 1 - f x) l) = INR (length l) - rsum (map f l)).
  { rewrite (map_ext _ (fun x => 1 + (-1) * f x)) by (intros; ring). rewrite rsum_map_plus, rsum_map_scale, rsum_const. ring. }
  rewrite E. field. apply Rgt_not_eq. apply (rlen_pos l N).
Qed.
Lemma combine_nonnil {A B} (l : list A) (m : list B) : length l = length m -> l <> [] -> combine l m <> [].
Proof. destruct l, m; try discriminate; congruence. Qed.

(** Value of the loss. *)
Theorem C94_value (C : nat) (iw aw tau w : R) (S T : list (list R)) :
  (0 < C)%nat -> S <> [] -> length S = length T -> rows C S -> rows C T ->
  dist_loss C iw aw tau w S T = w * (tau * tau) * (iw * inter tau S T + aw * intra C tau S T).
Proof.
  intros CP N L A B. unfold dist_loss.
  assert (E1 : inter_class_relation (map (fun r => softmax (divide tau r)) S) (map (fun r => softmax (divide tau r)) T) = inter tau S T).
  { unfold inter_class_relation, inter. rewrite zipw_map. unfold zipw at 1.
    rewrite one_minus_mean by (apply combine_nonnil; auto). unfold zipw. f_equal. apply map_ext. intros [s t]. cbn [fst snd].
    rewrite pearson_spec, !softmax_probs. reflexivity. }
  assert (E2 : intra_class_relation C (map (fun r => softmax (divide tau r)) S) (map (fun r => softmax (divide tau r)) T) = intra C tau S T).
  { unfold intra_class_relation, inter_class_relation, intra, transpose.
    assert (Z : zipw pearson_correlation (map (fun c => map (fun r => nth c r 0) (map (fun r => softmax (divide tau r)) S)) (seq 0 C))
                  (map (fun c => map (fun r => nth c r 0) (map (fun r => softmax (divide tau r)) T)) (seq 0 C))
                = map (fun c => correlation (class_probs tau S c) (class_probs tau T c)) (seq 0 C)).
    { rewrite zipw_map. assert (ZS : forall (f : nat -> nat -> R) l, zipw f l l = map (fun x => f x x) l).
      { intros f. induction l as [|x l IH]; [reflexivity|]. rewrite zipw_cons, IH. reflexivity. }
      rewrite ZS. apply map_ext_in. intros c I. apply in_seq in I. rewrite pearson_spec. unfold class_probs, rows in *.
      rewrite !map_map. rewrite Forall_forall in A, B. f_equal; apply map_ext_in; intros r IR; apply prob_softmax.
      - rewrite (A r IR). lia.
      - rewrite (B r IR). lia. }
    rewrite Z. apply one_minus_mean. destruct C; [lia|discriminate]. }
  rewrite E1, E2. ring.
Qed.
Lemma eps8 : 0 < / (10 ^ 8).
Proof. apply Rinv_0_lt_compat, pow_lt. lra. Qed.
Lemma correlation_range a b : length a = length b -> -1 < correlation a b < 1.
Proof.
  intros L. pose proof (cs_abs (devs a) (devs b)) as H. unfold devs in H at 1 2. rewrite !map_length in H. specialize (H L).
  unfold dot, zipw, norm2, sq in H. unfold correlation.
  set (d := rsum _) in *. set (q := _ * _) in *. pose proof eps8.
  assert (Q : 0 <= q) by (apply Rmult_le_pos; apply sqrt_pos).
  assert (D : - q <= d <= q) by (unfold Rabs in H; destruct (Rcase_abs _); lra).
  split; apply (Rmult_lt_reg_r (q + / 10 ^ 8)); try lra; unfold Rdiv; rewrite Rmult_assoc, Rinv_l by lra; lra.
Qed.
Lemma avg_range (l : list R) lo hi : l <> [] -> Forall (fun x => lo < x < hi) l -> lo < avg l < hi.
Proof.
  intros N F. unfold avg. pose proof (rlen_pos l N) as P. unfold rlen in P.
  assert (G : lo * INR (length l) < rsum l < hi * INR (length l)).
  { clear P. induction F as [|x l H F IH]; [congruence|]. rewrite rsum_cons. replace (INR (length (x :: l))) with (INR (length l) + 1) by (rewrite <- S_INR; reflexivity).
    destruct l as [|y l]; [rewrite rsum_nil; cbn; lra|]. specialize (IH ltac:(discriminate)). lra. }
  split; apply (Rmult_lt_reg_r (INR (length l))); try lra; unfold Rdiv; rewrite Rmult_assoc, Rinv_l by lra; lra.
Qed.
Lemma parts_range (C : nat) (tau : R) (S T : list (list R)) :
  (0 < C)%nat -> S <> [] -> length S = length T -> rows C S -> rows C T ->
  0 < inter tau S T < 2 /\ 0 < intra C tau S T < 2.
Proof.
  intros CP N L A B. split; apply avg_range.
  - unfold zipw. intros E. apply map_eq_nil in E. revert E. apply combine_nonnil; auto.
  - apply Forall_forall. intros x X. unfold zipw in X. apply in_map_iff in X. destruct X as ([s t] & <- & I). cbn [fst snd].
    unfold rows in *. rewrite Forall_forall in A, B.
    pose proof (A s (in_combine_l _ _ _ _ I)). pose proof (B t (in_combine_r _ _ _ _ I)).
    pose proof (correlation_range (sample_probs tau s) (sample_probs tau t)) as R1.
    unfold sample_probs in R1 at 1 2. rewrite !map_length, !seq_length in R1. specialize (R1 ltac:(congruence)). lra.
  - destruct C; [lia|discriminate].
  - apply Forall_forall. intros x X. apply in_map_iff in X. destruct X as (c & <- & I).
    pose proof (correlation_range (class_probs tau S c) (class_probs tau T c)) as R1.
    unfold class_probs in R1 at 1 2. rewrite !map_length in R1. specialize (R1 L). lra.
Qed.
(** The loss is strictly positive and below twice the weights. *)
Theorem C94_range (C : nat) (iw aw tau w : R) (S T : list (list R)) :
  (0 < C)%nat -> S <> [] -> length S = length T -> rows C S -> rows C T ->
  0 < iw -> 0 < aw -> 0 < w -> tau <> 0 ->
  0 < dist_loss C iw aw tau w S T < 2 * w * (tau * tau) * (iw + aw).
Proof.
  intros CP N L A B IW AW W TT. rewrite C94_value by auto.
  destruct (parts_range C tau S T CP N L A B) as [P Q].
  assert (K : 0 < w * (tau * tau)) by (apply Rmult_lt_0_compat; nra).
  set (k := w * (tau * tau)) in *. replace (2 * w * (tau * tau)) with (2 * k) by (unfold k; ring).
  assert (V : 0 < iw * inter tau S T + aw * intra C tau S T < 2 * (iw + aw)) by nra.
  split; [apply Rmult_lt_0_compat; lra|]. nra.
Qed.
(** Adding a constant to the logits of a sample changes nothing. *)
Theorem C94_shift (C : nat) (iw aw tau w : R) (S S' T T' : list (list R)) : tau <> 0 ->
  Forall2 (fun s s' => exists c, s' = map (fun x => x + c) s) S S' ->
  Forall2 (fun s s' => exists c, s' = map (fun x => x + c) s) T T' ->
  dist_loss C iw aw tau w S' T' = dist_loss C iw aw tau w S T.
Proof.
  intros TT A B. unfold dist_loss.
  assert (G : forall X X', Forall2 (fun s s' => exists c, s' = map (fun x => x + c) s) X X' ->
     map (fun r => softmax (divide tau r)) X' = map (fun r => softmax (divide tau r)) X).
  { induction 1 as [|s s' X X' (c & ->) _ IH]; [reflexivity|]. cbn [map]. rewrite IH. f_equal.
    apply softmax_shift; [unfold divide; rewrite !map_length; reflexivity|]. apply shifted_divide; auto. exists c. reflexivity. }
  rewrite (G S S'), (G T T') by auto. reflexivity.
Qed.
Lemma correlation_self a : correlation a a = 1 - / (10 ^ 8) / (rsum (map (fun x => x * x) (devs a)) + / (10 ^ 8)).
Proof.
  unfold correlation. pose proof eps8. change (map (fun x => x * x) (devs a)) with (map sq (devs a)).
  pose proof (sumsq_nonneg (devs a)).
  change (rsum (map (fun p => fst p * snd p) (combine (devs a) (devs a)))) with (dot (devs a) (devs a)).
  rewrite dot_self. rewrite sqrt_sqrt by auto. field. lra.
Qed.
(** At identical logits every correlation falls short of 1 by 1e-8 over the variance. *)
Theorem C94_identical (C : nat) (iw aw tau w : R) (S : list (list R)) :
  (0 < C)%nat -> S <> [] -> rows C S ->
  dist_loss C iw aw tau w S S
  = w * (tau * tau) * (iw * avg (map (fun r => / (10 ^ 8) / (rsum (map (fun x => x * x) (devs (sample_probs tau r))) + / (10 ^ 8))) S)
     + aw * avg (map (fun c => / (10 ^ 8) / (rsum (map (fun x => x * x) (devs (class_probs tau S c))) + / (10 ^ 8))) (seq 0 C))).
Proof.
  intros CP N A. rewrite C94_value by auto. do 2 f_equal.
  - f_equal. unfold inter. f_equal. assert (ZS : forall (f : list R -> list R -> R) l, zipw f l l = map (fun x => f x x) l).
    { intros f. induction l as [|x l IH]; [reflexivity|]. rewrite zipw_cons, IH. reflexivity. }
    rewrite ZS. apply map_ext. intros r. rewrite correlation_self. ring.
  - f_equal. unfold intra. f_equal. apply map_ext. intros c. rewrite correlation_self. ring.
Qed.
(** The claim that a student equal to the teacher has loss 0. *)
Definition C94_identical_claim : Prop := forall (C : nat) (S : list (list R)),
  (0 < C)%nat -> S <> [] -> rows C S -> dist_loss C 1 1 1 1 S S = 0.
Theorem C94_identical_refuted : ~ C94_identical_claim.
Proof.
  intros H. assert (RC : rows 2 [[0; 1]]) by (repeat constructor).
  specialize (H 2%nat [[0; 1]] ltac:(lia) ltac:(discriminate) RC).
  pose proof (C94_range 2 1 1 1 1 [[0; 1]] [[0; 1]] ltac:(lia) ltac:(discriminate) eq_refl RC RC ltac:(lra) ltac:(lra) ltac:(lra) ltac:(lra)). lra.
Qed.
Lemma devs_one x : devs [x] = [0].
Proof. unfold devs, avg, rsum. cbn. f_equal. field. Qed.
(** With one sample the intra-class part carries no information: it is the constant 1. *)
Theorem C94_one_sample (C : nat) (iw aw tau w : R) (s t : list R) : (0 < C)%nat -> length s = C -> length t = C ->
  dist_loss C iw aw tau w [s] [t] = w * (tau * tau) * (iw * (1 - correlation (sample_probs tau s) (sample_probs tau t)) + aw).
Proof.
  intros CP A B. rewrite C94_value; [|auto|discriminate|reflexivity|repeat constructor; auto|repeat constructor; auto].
  assert (E1 : inter tau [s] [t] = 1 - correlation (sample_probs tau s) (sample_probs tau t)).
  { unfold inter, zipw. cbn [combine map fst snd]. unfold avg at 1. cbn [length]. rewrite rsum_cons, rsum_nil. change (INR 1) with 1. field. }
  assert (E2 : intra C tau [s] [t] = 1).
  { unfold intra. rewrite (map_ext _ (fun _ => 1)).
    - unfold avg. rewrite rsum_const, map_length, seq_length. field. apply Rgt_not_eq, lt_0_INR. auto.
    - intros c. unfold class_probs. cbn [map]. unfold correlation.
      rewrite (devs_one (prob tau s c)), (devs_one (prob tau t c)). cbn [combine map fst snd]. unfold rsum. cbn [fold_right].
      replace (0 * 0 + 0) with 0 by ring. unfold Rdiv. ring. }
  rewrite E1, E2. ring.
Qed.
Example C94_case : 0 < dist_loss 2 1 1 4 1 [[0; 1]; [2; 0]] [[1; 1]; [3; 0]] < 2 * 1 * (4 * 4) * (1 + 1) /\
  dist_loss 2 1 1 4 1 [[5; 6]; [2; 0]] [[1; 1]; [3; 0]] = dist_loss 2 1 1 4 1 [[0; 1]; [2; 0]] [[1; 1]; [3; 0]] /\
  dist_loss 2 1 3 1 1 [[0; 1]] [[2; 5]] = 1 * (1 * 1) * (1 * (1 - correlation (sample_probs 1 [0; 1]) (sample_probs 1 [2; 5])) + 3).
Proof.
  split; [|split].
  - apply C94_range; try lia; try lra; try discriminate; repeat constructor.
  - apply C94_shift; [lra| |]; repeat constructor; [exists 5|exists 0|exists 0|exists 0]; cbn; repeat f_equal; lra.
  - apply C94_one_sample; auto.
Qed.
Print Assumptions C94_value.
Print Assumptions C94_range.
