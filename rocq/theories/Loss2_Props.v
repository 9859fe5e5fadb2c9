(** C87 (DKDLoss). *)
From Verif Require Import Prelude Loss_Model Loss_Lemmas Loss_Props.
From Coq Require Import Reals Lra.
Open Scope R_scope.

(** * Specification *)
(** The row without the entry of class [g]. *)
Definition without {A} (g : nat) (l : list A) : list A := firstn g l ++ skipn (S g) l.
(** Divergence of two distributions over {target, not target}. *)
Definition binary (p q : R) : R := p * ln (p / q) + (1 - p) * ln ((1 - p) / (1 - q)).
Definition tckd_spec (tau : R) (s t : list R) (g : nat) : R := binary (prob tau t g) (prob tau s g).
Definition nckd_spec (tau : R) (s t : list R) (g : nat) : R := divergence tau (without g s) (without g t).
(** The probability that the masked row leaves to the target. *)
Definition leak (tau : R) (r : list R) (g : nat) : R :=
  let e := exp (nth g r 0 / tau - 1000) in
  e / (e + rsum (map (fun x => exp (x / tau)) (without g r))).
(** A batch of [c]-class rows and labels. *)
Definition rows_ok (S T : list (list R)) (G : list nat) : Prop :=
  length S = length T /\ length S = length G /\
  forall s t g, In ((s, t), g) (combine (combine S T) G) ->
    length s = length t /\ (2 <= length s)%nat /\ (g < length s)%nat.
Definition total (f : list R -> list R -> nat -> R) (S T : list (list R)) (G : list nat) : R :=
  rsum (map (fun x => f (fst (fst x)) (snd (fst x)) (snd x)) (combine (combine S T) G)).

(** * Lemmas *)
Lemma without_map {A B} (f : A -> B) g l : map f (without g l) = without g (map f l).
Proof. unfold without. rewrite map_app, firstn_map, skipn_map. reflexivity. Qed.
Lemma without_cons {A} (x : A) g l : without (S g) (x :: l) = x :: without g l.
Proof. reflexivity. Qed.
Lemma without_length {A} g (l : list A) : (g < length l)%nat -> length (without g l) = (length l - 1)%nat.
Proof. intros H. unfold without. rewrite app_length, firstn_length, skipn_length. lia. Qed.
Lemma rsum_without g : forall l, (g < length l)%nat -> rsum l = nth g l 0 + rsum (without g l).
Proof.
  induction g as [|g IH]; intros [|x l] H; cbn [length] in H; try lia.
  - reflexivity.
  - rewrite without_cons, !rsum_cons. cbn [nth]. rewrite (IH l) by lia. lra.
Qed.
Lemma kl_cons a p b q : kl (a :: p) (b :: q) = a * (ln a - ln b) + kl p q.
Proof. unfold kl. rewrite zipw_cons, rsum_cons. reflexivity. Qed.
Lemma kl_without g : forall p q, length p = length q -> (g < length p)%nat ->
  kl p q = nth g p 0 * (ln (nth g p 0) - ln (nth g q 0)) + kl (without g p) (without g q).
Proof.
  induction g as [|g IH]; intros [|x p] [|y q] L H; cbn [length] in *; try lia.
  - rewrite kl_cons. reflexivity.
  - rewrite !without_cons, !kl_cons. cbn [nth]. rewrite (IH p q) by lia. lra.
Qed.
Lemma kl_scale c d : 0 < c -> 0 < d -> forall p q, length p = length q -> Forall (Rlt 0) p -> Forall (Rlt 0) q ->
  kl (map (Rmult c) p) (map (Rmult d) q) = c * (ln c - ln d) * rsum p + c * kl p q.
Proof.
  intros C D. induction p as [|a p IH]; intros [|b q] L P Q; try discriminate.
  - unfold kl, zipw, rsum. cbn. lra.
  - inversion P; inversion Q; subst. cbn [map]. rewrite !kl_cons, rsum_cons, IH by auto.
    rewrite !ln_mult by auto. ring.
Qed.
Lemma nth_softmax g l : (g < length l)%nat -> nth g (softmax l) 0 = exp (nth g l 0) / z l.
Proof.
  intros H. unfold softmax. fold (z l). set (f := fun x => exp x / z l).
  rewrite (nth_indep _ 0 (f 0)) by (rewrite map_length; auto). rewrite (map_nth f). reflexivity.
Qed.
Lemma z_without g l : (g < length l)%nat -> z l = exp (nth g l 0) + z (without g l).
Proof.
  intros H. unfold z. rewrite (rsum_without g (map exp l)) by (rewrite map_length; auto). rewrite without_map. f_equal.
  rewrite (nth_indep _ 0 (exp 0)) by (rewrite map_length; auto). rewrite map_nth. reflexivity.
Qed.
Lemma softmax_without g l : (g < length l)%nat -> (2 <= length l)%nat ->
  without g (softmax l) = map (Rmult (1 - nth g (softmax l) 0)) (softmax (without g l)) /\
  0 < nth g (softmax l) 0 < 1.
Proof.
  intros H H2. rewrite nth_softmax by auto. rewrite (z_without g l) by auto.
  assert (P : 0 < z (without g l)).
  { apply z_pos. intros E. apply (f_equal (@length R)) in E. rewrite without_length in E by auto. cbn in E. lia. }
  pose proof (exp_pos (nth g l 0)) as PE. split.
  - unfold softmax. fold (z l) (z (without g l)). rewrite <- without_map, map_map. apply map_ext. intros x.
    rewrite (z_without g l) by auto. field. lra.
  - split; [apply Rdiv_lt_0_compat; lra|]. apply (Rmult_lt_reg_r (exp (nth g l 0) + z (without g l))); [lra|].
    unfold Rdiv. rewrite Rmult_assoc, Rinv_l by lra. lra.
Qed.
Lemma ln_ratio a b : 0 < a -> 0 < b -> ln (a / b) = ln a - ln b.
Proof. intros A B. unfold Rdiv. rewrite ln_mult; [rewrite ln_Rinv; auto|auto|apply Rinv_0_lt_compat; auto]. Qed.
(** The divergence splits into the part of the target and the rest. *)
Lemma kl_split g s t : length s = length t -> (g < length t)%nat -> (2 <= length t)%nat ->
  kl (softmax t) (softmax s) = binary (nth g (softmax t) 0) (nth g (softmax s) 0)
    + (1 - nth g (softmax t) 0) * kl (softmax (without g t)) (softmax (without g s)).
Proof.
  intros L H H2.
  destruct (softmax_without g t) as [Et Pt]; auto. destruct (softmax_without g s) as [Es Ps]; try lia.
  rewrite (kl_without g) by (rewrite ?softmax_length; lia). rewrite Et, Es.
  rewrite kl_scale; auto using softmax_pos; try lra.
  2: { rewrite !softmax_length, !without_length; lia. }
  rewrite softmax_sum.
  2: { intros E. apply (f_equal (@length R)) in E. rewrite without_length in E by auto. cbn in E. lia. }
  unfold binary. rewrite !ln_ratio by lra. ring.
Qed.

Lemma mask_zero g : forall p k, (g < k)%nat -> rsum (zipw Rmult p (map (fun j => if Nat.eqb j g then 1 else 0) (seq k (length p)))) = 0.
Proof.
  induction p as [|x p IH]; intros k H; [reflexivity|]. cbn [length seq map]. rewrite zipw_cons, rsum_cons, IH by lia.
  destruct (Nat.eqb_spec k g); [lia|]. lra.
Qed.
Lemma mask_pick g : forall p k, (k <= g < k + length p)%nat ->
  rsum (zipw Rmult p (map (fun j => if Nat.eqb j g then 1 else 0) (seq k (length p)))) = nth (g - k) p 0.
Proof.
  induction p as [|x p IH]; intros k H; cbn [length] in *; [lia|]. cbn [seq map]. rewrite zipw_cons, rsum_cons.
  destruct (Nat.eqb_spec k g).
  - subst. rewrite mask_zero by lia. rewrite Nat.sub_diag. cbn [nth]. lra.
  - rewrite IH by lia. replace (g - k)%nat with (S (g - S k)) by lia. cbn [nth]. lra.
Qed.
Lemma mask_both g : forall p k,
  rsum (zipw Rmult p (map (fun j => if Nat.eqb j g then 1 else 0) (seq k (length p)))) +
  rsum (zipw Rmult p (map (fun j => if Nat.eqb j g then 0 else 1) (seq k (length p)))) = rsum p.
Proof.
  induction p as [|x p IH]; intros k; [unfold zipw, rsum; cbn; lra|]. cbn [length seq map]. rewrite !zipw_cons, !rsum_cons.
  rewrite <- (IH (S k)). destruct (Nat.eqb k g); lra.
Qed.
Lemma cat_mask_softmax l g : (g < length l)%nat -> cat_mask (softmax l) g = [nth g (softmax l) 0; 1 - nth g (softmax l) 0].
Proof.
  intros H. unfold cat_mask, gt_mask, non_gt_mask.
  pose proof (mask_both g (softmax l) 0) as E. rewrite softmax_sum in E by (intros ->; cbn in H; lia).
  pose proof (mask_pick g (softmax l) 0) as E2. rewrite Nat.sub_0_r in E2. rewrite softmax_length in *.
  rewrite E2 in * by lia. f_equal. f_equal. lra.
Qed.
Lemma masked_length tau g r : length (masked tau g r) = length r.
Proof. unfold masked, gt_mask. rewrite zipw_length; rewrite ?divide_length, ?map_length, ?seq_length; auto. Qed.
Lemma masked_gen tau g : forall r k,
  let m := zipw (fun x m => x - 1000 * m) (divide tau r) (map (fun j => if Nat.eqb j g then 1 else 0) (seq k (length r))) in
  ((g < k)%nat -> m = divide tau r) /\
  ((k <= g < k + length r)%nat -> nth (g - k) m 0 = nth (g - k) r 0 / tau - 1000 /\ without (g - k) m = divide tau (without (g - k) r)).
Proof.
  induction r as [|x r IH]; intros k m; [split; [reflexivity|cbn [length]; lia]|].
  destruct (IH (S k)) as [A B]. unfold m in *. cbn [length seq map] in *. unfold divide in *. cbn [map]. rewrite zipw_cons.
  split.
  - intros G. rewrite A by lia. destruct (Nat.eqb_spec k g); [lia|]. f_equal. lra.
  - intros G. destruct (Nat.eqb_spec k g).
    + subst. rewrite Nat.sub_diag. split; [cbn [nth]; lra|]. unfold without. cbn [firstn skipn app]. apply A. lia.
    + replace (g - k)%nat with (S (g - S k)) by lia. rewrite !without_cons. cbn [nth map]. destruct B as [B1 B2]; [lia|].
      rewrite B1, B2. split; [reflexivity|]. f_equal. lra.
Qed.
Lemma masked_without tau g r : (g < length r)%nat ->
  nth g (masked tau g r) 0 = nth g r 0 / tau - 1000 /\ without g (masked tau g r) = divide tau (without g r).
Proof.
  intros H. destruct (masked_gen tau g r 0) as [_ B]. rewrite Nat.sub_0_r in B. apply B. lia.
Qed.
Lemma leak_masked tau g r : (g < length r)%nat -> nth g (softmax (masked tau g r)) 0 = leak tau r g.
Proof.
  intros H. rewrite nth_softmax by (rewrite masked_length; auto).
  rewrite (z_without g) by (rewrite masked_length; auto). destruct (masked_without tau g r H) as [-> ->].
  unfold leak, z, divide. rewrite map_map. reflexivity.
Qed.

(** The value of [kl_div] on a batch with one row per sample. *)
Lemma kl_div_rows (f h : list R -> nat -> list R) (row : list R -> list R -> nat -> R) red S T G :
  rows_ok S T G -> S <> [] -> (forall s t g, In ((s, t), g) (combine (combine S T) G) -> rsum (zipw kl_point (f s g) (h t g)) = row s t g) ->
  forall v, kl_div (Some false) red (map (fun r => [r]) (zipw f S G)) (map (fun r => [r]) (zipw h T G)) = v ->
  v = Scalar (match red with RBatchmean => / rlen S | _ => 1 end * total row S T G).
Proof.
  intros (L1 & L2 & _) NE E v <-.
  assert (X : rsum (entries (map (fun r => [r]) (zipw f S G)) (map (fun r => [r]) (zipw h T G))) = total row S T G).
  { clear NE. unfold total, entries. rewrite zipw_map. revert T G L1 L2 E.
    induction S as [|s S IH]; intros [|t T] [|g G] L1 L2 E; try discriminate; [reflexivity|].
    rewrite !zipw_cons. cbn [combine map concat]. rewrite concat_app, rsum_app, rsum_cons. cbn [fst snd].
    rewrite IH by (try (cbn in *; lia); intros; apply E; right; auto). f_equal.
    change (zipw (zipw kl_point) [f s g] [h t g]) with [zipw kl_point (f s g) (h t g)]. cbn [concat]. rewrite app_nil_r.
    apply E. left. reflexivity. }
  assert (XL : rlen (map (fun r : list R => [r]) (zipw f S G)) = rlen S).
  { unfold rlen. rewrite map_length, zipw_length by auto. reflexivity. }
  unfold kl_div. rewrite X, XL.
  destruct red; try (destruct (map _ _); cbn [scale]; rewrite Rmult_1_l; reflexivity).
  destruct (map (fun r : list R => [r]) (zipw f S G)) eqn:Em; [|reflexivity].
  exfalso. destruct S; [congruence|]. destruct G; [discriminate|]. discriminate.
Qed.

(** * Theorems *)
Lemma tckd_row tau s t g : length s = length t -> (2 <= length s)%nat -> (g < length s)%nat ->
  rsum (zipw kl_point (map ln (cat_mask (softmax (divide tau s)) g)) (cat_mask (softmax (divide tau t)) g)) = tckd_spec tau s t g.
Proof.
  intros L L2 H. rewrite !cat_mask_softmax by (rewrite divide_length; lia).
  destruct (softmax_without g (divide tau t)) as [_ Pt]; try (rewrite divide_length; lia).
  destruct (softmax_without g (divide tau s)) as [_ Ps]; try (rewrite divide_length; lia).
  rewrite !prob_softmax in * by lia. cbn [map]. rewrite !zipw_cons, !rsum_cons.
  change (zipw kl_point [] []) with (@nil R). rewrite rsum_nil. unfold kl_point, tckd_spec, binary.
  destruct (Rlt_dec 0 (prob tau t g)); [|lra]. destruct (Rlt_dec 0 (1 - prob tau t g)); [|lra].
  rewrite !ln_ratio by lra. ring.
Qed.
Lemma nckd_row tau s t g : length s = length t -> (2 <= length s)%nat -> (g < length s)%nat ->
  rsum (zipw kl_point (log_softmax (masked tau g s)) (softmax (masked tau g t))) =
  binary (leak tau t g) (leak tau s g) + (1 - leak tau t g) * nckd_spec tau s t g.
Proof.
  intros L L2 H. rewrite kl_row by (rewrite !masked_length; auto).
  rewrite (kl_split g) by (rewrite !masked_length; lia). rewrite !leak_masked by lia.
  destruct (masked_without tau g s) as [_ ->]; [lia|]. destruct (masked_without tau g t) as [_ ->]; [lia|].
  rewrite kl_divergence by (rewrite !without_length; lia). reflexivity.
Qed.

(** The target part: [tau]^2 times the divergence between the student's and the teacher's
    probabilities of {target, not target}, summed, or summed and divided by the batch size. *)
Theorem C87_tckd :
  forall tau S T G, rows_ok S T G -> S <> [] ->
    tckd tau RSum S T G = Scalar (tau * tau * total (tckd_spec tau) S T G) /\
    tckd tau RBatchmean S T G = Scalar (tau * tau * (total (tckd_spec tau) S T G / INR (length S))).
Proof.
  intros tau S T G H NE.
  assert (E : forall s t g, In ((s, t), g) (combine (combine S T) G) ->
     rsum (zipw kl_point (map ln (cat_mask (softmax (divide tau s)) g)) (cat_mask (softmax (divide tau t)) g)) = tckd_spec tau s t g).
  { intros s t g I. destruct H as (_ & _ & H). destruct (H s t g I) as (A & B & C). apply tckd_row; auto. }
  unfold tckd, dkd_kl. split;
    rewrite (kl_div_rows (fun r g => map ln (cat_mask (softmax (divide tau r)) g)) (fun r g => cat_mask (softmax (divide tau r)) g)
              (tckd_spec tau) _ S T G H NE E _ eq_refl); cbn [scale]; f_equal; unfold rlen, Rdiv; ring.
Qed.
Print Assumptions C87_tckd.

(** Full claim for the other part: [tau]^2 times the divergence among the other classes. *)
Definition C87_claim : Prop :=
  forall tau S T G, rows_ok S T G -> S <> [] -> tau <> 0 ->
    nckd tau RSum S T G = Scalar (tau * tau * total (nckd_spec tau) S T G).
(** What holds: each row adds (1 - l_t) times that divergence and the divergence between the
    probabilities l_t and l_s that the masked rows leave to the target. *)
Theorem C87_nckd_partial :
  forall tau S T G, rows_ok S T G -> S <> [] ->
    let row s t g := binary (leak tau t g) (leak tau s g) + (1 - leak tau t g) * nckd_spec tau s t g in
    nckd tau RSum S T G = Scalar (tau * tau * total row S T G) /\
    nckd tau RBatchmean S T G = Scalar (tau * tau * (total row S T G / INR (length S))).
Proof.
  intros tau S T G H NE row.
  assert (E : forall s t g, In ((s, t), g) (combine (combine S T) G) ->
     rsum (zipw kl_point (log_softmax (masked tau g s)) (softmax (masked tau g t))) = row s t g).
  { intros s t g I. destruct H as (_ & _ & H). destruct (H s t g I) as (A & B & C). apply nckd_row; auto. }
  unfold nckd, dkd_kl. split;
    rewrite (kl_div_rows (fun r g => log_softmax (masked tau g r)) (fun r g => softmax (masked tau g r)) row _ S T G H NE E _ eq_refl);
    cbn [scale]; f_equal; unfold rlen, Rdiv; ring.
Qed.
(** These probabilities are at most exp (d - 1000) where d is the scaled gap between the
    target's logit and any other. *)
Theorem C87_leak :
  forall tau r g j, (g < length r)%nat -> (j < length r)%nat -> j <> g ->
    0 < leak tau r g <= exp ((nth g r 0 - nth j r 0) / tau - 1000).
Proof.
  intros tau r g j Hg Hj NE. unfold leak. set (e := exp (nth g r 0 / tau - 1000)).
  assert (PE : 0 < e) by apply exp_pos. set (rest := rsum _).
  assert (PR : exp (nth j r 0 / tau) <= rest).
  { unfold rest. rewrite without_map.
    assert (I : In (exp (nth j r 0 / tau)) (without g (map (fun x => exp (x / tau)) r))).
    { set (f := fun x => exp (x / tau)). change (exp (nth j r 0 / tau)) with (f (nth j r 0)).
      rewrite <- without_map. apply in_map. clear - Hj NE. unfold without. apply in_or_app. revert g r Hj NE.
      induction j as [|j IH]; intros g r Hj NE.
      - destruct r as [|x r]; [cbn in Hj; lia|]. destruct g; [congruence|]. left. cbn. auto.
      - destruct r as [|x r]; [cbn in Hj; lia|]. cbn [length] in Hj. destruct g as [|g].
        + right. cbn [skipn nth]. apply nth_In. lia.
        + destruct (IH g r) as [I|I]; [lia|lia|left; right; exact I|right; exact I]. }
    revert I. assert (P : Forall (Rlt 0) (without g (map (fun x => exp (x / tau)) r))).
    { rewrite <- without_map. apply Forall_forall. intros x I. apply in_map_iff in I as (y & <- & _). apply exp_pos. }
    generalize (exp (nth j r 0 / tau)). induction P as [|x l P F IH]; intros y I; [destruct I|].
    assert (0 <= rsum l) by (apply rsum_nonneg; eapply Forall_impl; [|exact F]; intros; cbn; lra).
    rewrite rsum_cons. destruct I as [<-|I]; [lra|]. specialize (IH y I). lra. }
  pose proof (exp_pos (nth j r 0 / tau)) as PJ. split; [apply Rdiv_lt_0_compat; lra|].
  replace (exp ((nth g r 0 - nth j r 0) / tau - 1000)) with (e / exp (nth j r 0 / tau)).
  - unfold Rdiv. apply Rmult_le_compat_l; [lra|]. apply Rinv_le_contravar; lra.
  - unfold e, Rdiv. rewrite <- exp_Ropp, <- exp_plus. f_equal. ring.
Qed.
Print Assumptions C87_nckd_partial.
Print Assumptions C87_leak.
Lemma ex_rows_ok : rows_ok [[0; 0]] [[1000; 0]] [0%nat].
Proof. split; [reflexivity|]. split; [reflexivity|]. intros s t g [E|[]]. inversion E. cbn. lia. Qed.
(** A teacher that is 1000 ahead on the target: two classes, so the other classes cannot
    differ, but the loss is positive. *)
Theorem C87_mask_refuted : ~ C87_claim.
Proof.
  intros H. specialize (H 1 [[0; 0]] [[1000; 0]] [0%nat] ex_rows_ok). 
  destruct (C87_nckd_partial 1 [[0; 0]] [[1000; 0]] [0%nat] ex_rows_ok) as [E _]; [discriminate|].
  rewrite H in E by (try discriminate; lra). injection E as E. unfold total in E. cbn [combine map fst snd] in E.
  rewrite !rsum_cons, !rsum_nil in E.
  assert (Z : nckd_spec 1 [0; 0] [1000; 0] 0 = 0).
  { unfold nckd_spec. change (without 0 [0; 0]) with [0]. change (without 0 [1000; 0]) with [0].
    apply (divergence_facts 1 [0] [0]); [lra|reflexivity|]. exists 0. cbn. f_equal. lra. }
  rewrite Z in E.
  assert (K : rsum (zipw kl_point (log_softmax (masked 1 0 [0; 0])) (softmax (masked 1 0 [1000; 0])))
             = binary (leak 1 [1000; 0] 0) (leak 1 [0; 0] 0) + (1 - leak 1 [1000; 0] 0) * nckd_spec 1 [0; 0] [1000; 0] 0).
  { apply nckd_row; cbn; lia. }
  rewrite Z, kl_row in K by reflexivity.
  destruct (kl_softmax (masked 1 0 [0; 0]) (masked 1 0 [1000; 0])) as [_ F]; [reflexivity|].
  assert (X : kl (softmax (masked 1 0 [1000; 0])) (softmax (masked 1 0 [0; 0])) = 0) by lra.
  apply F in X. destruct X as [c X]. unfold masked, divide, gt_mask, zipw in X. cbn in X. inversion X. lra.
Qed.
Print Assumptions C87_mask_refuted.

(** The paper's decomposition: the plain loss on a row is the target part plus (1 - p_t)
    times the other part. *)
Theorem C87_decomposition :
  forall tau s t g, rows_ok [s] [t] [g] ->
    exists k a, kl_loss tau RSum 1 [[s]] [[t]] = Scalar k /\ tckd tau RSum [s] [t] [g] = Scalar a /\
      k = a + (1 - prob tau t g) * (tau * tau * nckd_spec tau s t g).
Proof.
  intros tau s t g H. assert (H' := H). destruct H' as (_ & _ & R). destruct (R s t g) as (L & L2 & Hg); [left; reflexivity|].
  destruct (C85_value tau 1 [[s]] [[t]]) as (V & _); [repeat constructor; auto|discriminate|].
  destruct (C87_tckd tau [s] [t] [g] H) as (A & _); [discriminate|].
  eexists. eexists. split; [exact V|]. split; [exact A|].
  unfold divergences, total. change (zipw (zipw (divergence tau)) [[s]] [[t]]) with [[divergence tau s t]].
  cbn [concat app combine map fst snd]. rewrite !rsum_cons, !rsum_nil. rewrite <- kl_divergence by auto.
  rewrite (kl_split g) by (rewrite !divide_length; lia). unfold divide. rewrite <- !without_map.
  fold (divide tau (without g s)) (divide tau (without g t)) (divide tau s) (divide tau t).
  rewrite kl_divergence by (rewrite !without_length; lia). rewrite !prob_softmax by lia. unfold tckd_spec, nckd_spec. ring.
Qed.
Print Assumptions C87_decomposition.
Example C87_decomposition_case : rows_ok [[1; 2; 3]] [[0; 2; 5]] [1%nat].
Proof. split; [reflexivity|]. split; [reflexivity|]. intros s t g [E|[]]. inversion E. cbn. lia. Qed.

(** Full claim about the reductions: 'mean' divides the sum by the number of entries, 'none'
    returns one value per entry. *)
Definition C87_claim_reduction : Prop :=
  forall tau S T G, rows_ok S T G -> S <> [] ->
    (exists x y, nckd tau RSum S T G = Scalar x /\ nckd tau RMean S T G = Scalar y /\ y * INR (length (concat S)) = x) /\
    (exists l, nckd tau RNone S T G = Elems l /\ length l = length (concat S)).
(** Both give the undivided sum, for every input. *)
Theorem C87_reduction_partial :
  forall tau alpha beta w S T G,
    dkd_loss tau alpha beta RMean w S T G = dkd_loss tau alpha beta RSum w S T G /\
    dkd_loss tau alpha beta RNone w S T G = dkd_loss tau alpha beta RSum w S T G.
Proof. intros. split; reflexivity. Qed.
Theorem C87_reduction_refuted : ~ C87_claim_reduction.
Proof.
  intros H. destruct (H 1 [[0; 0]] [[1000; 0]] [0%nat] ex_rows_ok) as [_ (l & E & _)]; [discriminate|].
  unfold nckd, dkd_kl, kl_div in E. cbn [scale] in E. discriminate.
Qed.
Print Assumptions C87_reduction_partial.
Print Assumptions C87_reduction_refuted.

(** With positive weights the loss is never negative, and it is 0 exactly when every student
    row is the teacher row plus a constant. *)
Lemma total_zero f S T G (P : list R -> list R -> Prop) : length S = length T -> length S = length G ->
  (forall s t g, In ((s, t), g) (combine (combine S T) G) -> 0 <= f s t g /\ (f s t g = 0 <-> P s t)) ->
  0 <= total f S T G /\ (total f S T G = 0 <-> Forall2 P S T).
Proof.
  unfold total. revert T G. induction S as [|s S IH]; intros [|t T] [|g G] L1 L2 H; try discriminate.
  - cbn. split; [unfold rsum; cbn; lra|]. split; auto.
  - cbn [combine map]. rewrite rsum_cons. cbn [fst snd]. destruct (H s t g) as [A B]; [left; reflexivity|].
    destruct (IH T G) as [C D]; [cbn in *; lia|cbn in *; lia|intros; apply H; right; auto|].
    split; [lra|]. split.
    + intros E. constructor; [apply B; lra|apply D; lra].
    + intros E. inversion E; subst. apply B in H3. apply D in H5. lra.
Qed.
Lemma masked_shift tau g s t : tau <> 0 -> length s = length t ->
  (shifted (masked tau g s) (masked tau g t) <-> shifted s t).
Proof.
  intros T L. rewrite <- (shifted_divide tau s t T). unfold masked, gt_mask, shifted. rewrite L.
  assert (K : forall ks c s t, length s = length t -> length ks = length s ->
     zipw (fun x m => x - 1000 * m) (divide tau s) (map (fun j => if Nat.eqb j g then 1 else 0) ks)
     = map (fun x => x + c) (zipw (fun x m => x - 1000 * m) (divide tau t) (map (fun j => if Nat.eqb j g then 1 else 0) ks))
     <-> divide tau s = map (fun x => x + c) (divide tau t)).
  { clear. induction ks as [|k ks IH]; intros c [|x s] [|y t] L1 L2; try discriminate; [tauto|].
    unfold divide in *. cbn [map length] in *. rewrite !zipw_cons. cbn [map].
    split; intros E; inversion E.
    - f_equal; [lra|]. apply (IH c); try lia. assumption.
    - f_equal; [lra|]. apply (IH c); try lia. assumption. }
  split; intros [c E]; exists c; apply (K (seq 0 (length t)) c s t); auto; rewrite seq_length; auto.
Qed.
Lemma binary_nonneg p q : 0 < p < 1 -> 0 < q < 1 -> 0 <= binary p q.
Proof.
  intros P Q. destruct (gibbs [p; 1 - p] [q; 1 - q]) as [G _].
  - repeat constructor; lra.
  - repeat constructor; lra.
  - reflexivity.
  - unfold rsum. cbn. lra.
  - rewrite !kl_cons in G. unfold kl, zipw, rsum in G. cbn in G. unfold binary. rewrite !ln_ratio by lra. lra.
Qed.
Lemma binary_same p : 0 < p < 1 -> binary p p = 0.
Proof. intros P. unfold binary. rewrite !ln_ratio by lra. ring. Qed.
Theorem C87_minimum :
  forall tau alpha beta red w S T G, rows_ok S T G -> S <> [] -> tau <> 0 -> 0 <= alpha -> 0 < beta -> 0 < w ->
    exists x, dkd_loss tau alpha beta red w S T G = Scalar x /\ 0 <= x /\
      (x = 0 <-> Forall2 (fun s t => exists c, s = map (fun v => v + c) t) S T).
Proof.
  intros tau alpha beta red w S T G H NE TAU A B W.
  assert (E1 : forall s t g, In ((s, t), g) (combine (combine S T) G) ->
     rsum (zipw kl_point (map ln (cat_mask (softmax (divide tau s)) g)) (cat_mask (softmax (divide tau t)) g)) = tckd_spec tau s t g).
  { intros s t g I. destruct H as (_ & _ & H). destruct (H s t g I) as (X & Y & Z). apply tckd_row; auto. }
  set (row := fun s t g => kl (softmax (masked tau g t)) (softmax (masked tau g s))).
  assert (E2 : forall s t g, In ((s, t), g) (combine (combine S T) G) ->
     rsum (zipw kl_point (log_softmax (masked tau g s)) (softmax (masked tau g t))) = row s t g).
  { intros s t g I. destruct H as (_ & _ & H). destruct (H s t g I) as (X & Y & Z). apply kl_row. rewrite !masked_length. auto. }
  set (c := match red with RBatchmean => / rlen S | _ => 1 end).
  assert (C : 0 < c).
  { unfold c. destruct red; try lra. apply Rinv_0_lt_compat. apply rlen_pos. exact NE. }
  assert (V : dkd_loss tau alpha beta red w S T G =
    Scalar (w * (alpha * (tau * tau * (c * total (tckd_spec tau) S T G)) + beta * (tau * tau * (c * total row S T G))))).
  { unfold dkd_loss, tckd, nckd, dkd_kl.
    rewrite (kl_div_rows (fun r g => map ln (cat_mask (softmax (divide tau r)) g)) (fun r g => cat_mask (softmax (divide tau r)) g)
              (tckd_spec tau) red S T G H NE E1 _ eq_refl).
    rewrite (kl_div_rows (fun r g => log_softmax (masked tau g r)) (fun r g => softmax (masked tau g r)) row red S T G H NE E2 _ eq_refl).
    reflexivity. }
  assert (H' := H). destruct H' as (L1 & L2 & R).
  destruct (total_zero row S T G shifted L1 L2) as [N0 NZ].
  { intros s t g I. destruct (R s t g I) as (X & Y & Z). unfold row.
    destruct (kl_softmax (masked tau g s) (masked tau g t)) as [P Q]; [rewrite !masked_length; auto|].
    split; [exact P|]. rewrite Q. apply masked_shift; auto. }
  assert (T0 : forall s t g, In ((s, t), g) (combine (combine S T) G) ->
     0 <= tckd_spec tau s t g /\ (shifted s t -> tckd_spec tau s t g = 0)).
  { intros s t g I. destruct (R s t g I) as (X & Y & Z). unfold tckd_spec. rewrite <- !prob_softmax by lia.
    destruct (softmax_without g (divide tau t)) as [_ Pt]; try (rewrite divide_length; lia).
    destruct (softmax_without g (divide tau s)) as [_ Ps]; try (rewrite divide_length; lia).
    split; [apply binary_nonneg; auto|]. intros D.
    assert (Q : softmax (divide tau s) = softmax (divide tau t)).
    { apply softmax_shift; [rewrite !divide_length; auto|]. apply shifted_divide; auto. }
    rewrite Q. apply binary_same. exact Pt. }
  assert (T1 : 0 <= total (tckd_spec tau) S T G /\ (Forall2 shifted S T -> total (tckd_spec tau) S T G = 0)).
  { clear - T0 L1 L2. unfold total. revert T G T0 L1 L2. induction S as [|s S IH]; intros [|t T] [|g G] T0 L1 L2; try discriminate.
    - unfold rsum; cbn. split; [lra|auto].
    - cbn [combine map]. rewrite rsum_cons. cbn [fst snd]. destruct (T0 s t g) as [P Q]; [left; reflexivity|].
      destruct (IH T G) as [P' Q']; [intros; apply T0; right; auto|cbn in *; lia|cbn in *; lia|].
      split; [lra|]. intros F. inversion F; subst. rewrite Q, Q' by auto. lra. }
  destruct T1 as [T1 T2].
  eexists. split; [exact V|]. set (a := total (tckd_spec tau) S T G) in *. set (b := total row S T G) in *.
  assert (TT : 0 < tau * tau) by nra.
  assert (PA : 0 <= alpha * (tau * tau * (c * a))).
  { apply Rmult_le_pos; [exact A|]. apply Rmult_le_pos; [lra|]. apply Rmult_le_pos; lra. }
  assert (PB : 0 < beta * (tau * tau * c)) by (apply Rmult_lt_0_compat; [|apply Rmult_lt_0_compat]; auto).
  assert (EB : beta * (tau * tau * (c * b)) = (beta * (tau * tau * c)) * b) by ring.
  assert (PB' : 0 <= beta * (tau * tau * (c * b))) by (rewrite EB; apply Rmult_le_pos; lra).
  split; [apply Rmult_le_pos; lra|].
  change (fun s t => exists c0, s = map (fun v => v + c0) t) with shifted.
  rewrite <- NZ. split.
  - intros E. apply Rmult_integral in E. destruct E as [E|E]; [lra|].
    assert (E' : (beta * (tau * tau * c)) * b = 0) by lra. apply Rmult_integral in E'. destruct E'; [lra|auto].
  - intros E. assert (F : Forall2 shifted S T) by (apply NZ; exact E). rewrite (T2 F), E. ring.
Qed.
Print Assumptions C87_minimum.
(** The hypotheses hold for three classes and two samples; the second sample differs. *)
Example C87_minimum_case :
  exists x, dkd_loss 4 1 8 RBatchmean 1 [[0; 1; 2]; [0; 0; 0]] [[1; 2; 3]; [0; 0; 1]] [2; 0]%nat = Scalar x /\ 0 < x.
Proof.
  destruct (C87_minimum 4 1 8 RBatchmean 1 [[0; 1; 2]; [0; 0; 0]] [[1; 2; 3]; [0; 0; 1]] [2; 0]%nat) as (x & E & P & Z); try lra.
  - split; [reflexivity|]. split; [reflexivity|]. intros s t g [I|[I|[]]]; inversion I; cbn; lia.
  - discriminate.
  - exists x. split; [exact E|]. destruct P as [P|P]; [exact P|]. exfalso. symmetry in P. apply Z in P.
    inversion P as [|? ? ? ? _ Q]; subst. inversion Q as [|? ? ? ? [c Ec] _]; subst. inversion Ec. lra.
Qed.
Example C87_leak_case : leak 1 [0; 5] 0 <= exp (-1005) .
Proof.
  destruct (C87_leak 1 [0; 5] 0 1) as [_ H]; cbn; try lia. cbn [nth] in H.
  replace ((0 - 5) / 1 - 1000) with (-1005) in H by lra. exact H.
Qed.
(** Two classes at equal logits against a teacher at 1 : 3. *)
Example C87_tckd_case : tckd 1 RSum [[0; 0]] [[0; ln 3]] [1%nat] = Scalar (binary (3 / 4) (1 / 2)).
Proof.
  destruct (C87_tckd 1 [[0; 0]] [[0; ln 3]] [1%nat]) as [V _].
  - split; [reflexivity|]. split; [reflexivity|]. intros s t g [I|[]]; inversion I; cbn; lia.
  - discriminate.
  - rewrite V. f_equal. unfold total, tckd_spec, prob. cbn. unfold rsum. cbn. unfold Rdiv at 2 3 4 5.
    rewrite !Rinv_1, !Rmult_1_r, !Rplus_0_r, Rmult_1_l. unfold Rdiv at 2 3 4 5 6. rewrite ?Rinv_1, ?Rmult_1_r, exp_0, exp_ln by lra.
    f_equal; lra.
Qed.
