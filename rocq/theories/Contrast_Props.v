(** C97: contrastive distillation (CRDLoss). *)
From Verif Require Import Prelude Loss_Model Loss_Lemmas Regress_Model Regress_Lemmas Contrast_Model.
From Coq Require Import Reals Lra.
Open Scope R_scope.

(** * The loss *)
(** Scores of a batch: every row a positive score followed by [m] others, all of them > 0. *)
Definition score_rows (m : nat) (x : list (list R)) : Prop := Forall (fun r => length r = S m /\ Forall (Rlt 0) r) x.
(** Minus the log-likelihood of telling the true pair from [m] noise pairs. *)
Definition nce (c eps : R) (r : list R) : R :=
  match r with
  | [] => 0
  | p :: neg => - ln (p / (p + c + eps)) + rsum (map (fun q => - ln (c / (q + c + eps))) neg)
  end.
Lemma rsum_opp {A} (f : A -> R) l : rsum (map (fun x => - f x) l) = - rsum (map f l).
Proof. induction l as [|x l IH]; cbn [map]; rewrite ?rsum_cons, ?rsum_nil; [ring|rewrite IH; ring]. Qed.
Theorem C97_value (n m : nat) (eps : R) (x : list (list R)) : x <> [] -> score_rows m x ->
  contrast_loss n eps x = rsum (map (nce (INR m / INR n) eps) x) / INR (length x).
Proof.
  intros N F. unfold contrast_loss.
  assert (M : (length (hd [] x) - 1)%nat = m).
  { destruct x as [|r x]; [congruence|]. inversion F; subst. cbn. destruct H1. lia. }
  rewrite M. set (c := INR m / INR n). replace (INR m * (1 / INR n)) with c by (unfold c, Rdiv; ring).
  unfold rlen. f_equal. clear N M. induction F as [|r x [L P] _ IH]; [cbn; ring|].
  cbn [map flat_map]. rewrite !rsum_cons, rsum_app, <- IH. destruct r as [|p neg]; [discriminate|]. cbn [hd tl nce].
  rewrite (rsum_opp (fun q => ln (c / (q + c + eps)))).
  rewrite !Rplus_assoc. rewrite (map_ext (fun q => ln (c / (q + c + eps))) (fun q => ln (c / (q + (c + eps))))) by (intros; rewrite Rplus_assoc; reflexivity).
  ring.
Qed.
Lemma ln_neg a b : 0 < a -> a < b -> 0 < - ln (a / b).
Proof.
  intros A B. assert (Q : 0 < a / b) by (apply Rmult_lt_0_compat; auto; apply Rinv_0_lt_compat; lra).
  assert (a / b < 1). { apply (Rmult_lt_reg_r b); [lra|]. unfold Rdiv. rewrite Rmult_assoc, Rinv_l by lra. lra. }
  pose proof (ln_increasing (a / b) 1 Q H). rewrite ln_1 in H0. lra.
Qed.
(** The loss is strictly positive. *)
Theorem C97_positive (n m : nat) (eps : R) (x : list (list R)) : x <> [] -> score_rows m x -> (0 < m)%nat -> (0 < n)%nat -> 0 < eps ->
  0 < contrast_loss n eps x.
Proof.
  intros N F M NN E. rewrite (C97_value n m) by auto. apply Rmult_lt_0_compat; [|apply Rinv_0_lt_compat; apply (rlen_pos x N)].
  assert (C : 0 < INR m / INR n) by (apply Rmult_lt_0_compat; [apply lt_0_INR; auto|apply Rinv_0_lt_compat, lt_0_INR; auto]).
  set (c := INR m / INR n) in *. apply rsum_pos; [intros Q; apply map_eq_nil in Q; auto|].
  apply Forall_forall. intros v V. apply in_map_iff in V. destruct V as (r & <- & I). unfold score_rows in F. rewrite Forall_forall in F.
  destruct (F r I) as [L P]. destruct r as [|p neg]; [discriminate|]. cbn [nce]. inversion P; subst.
  pose proof (ln_neg p (p + c + eps) H1 ltac:(lra)).
  assert (0 <= rsum (map (fun q => - ln (c / (q + c + eps))) neg)); [|lra].
  apply rsum_nonneg. apply Forall_forall. intros v V. apply in_map_iff in V. destruct V as (q & <- & J). rewrite Forall_forall in H2.
  pose proof (H2 q J). apply Rlt_le, ln_neg; lra.
Qed.
(** A higher score of the true pair and lower scores of the others lower the loss. *)
Definition better (r' r : list R) : Prop := hd 0 r <= hd 0 r' /\ Forall2 (fun q' q => q' <= q) (tl r') (tl r).
Theorem C97_monotone (n m : nat) (eps : R) (x x' : list (list R)) : x <> [] -> score_rows m x -> score_rows m x' ->
  Forall2 better x' x -> (0 < m)%nat -> (0 < n)%nat -> 0 < eps -> contrast_loss n eps x' <= contrast_loss n eps x.
Proof.
  intros N F F' B M NN E.
  assert (C : 0 < INR m / INR n) by (apply Rmult_lt_0_compat; [apply lt_0_INR; auto|apply Rinv_0_lt_compat, lt_0_INR; auto]).
  assert (N' : x' <> []) by (inversion B; subst; congruence).
  rewrite !(C97_value n m) by auto. rewrite (Forall2_len _ _ _ B). set (c := INR m / INR n) in *.
  apply Rmult_le_compat_r; [apply Rlt_le, Rinv_0_lt_compat; apply (rlen_pos x N)|]. clear N N'.
  assert (LN : forall a b, 0 < a -> a <= b -> ln a <= ln b).
  { intros a b A [H|H]; [left; apply ln_increasing; auto|subst; lra]. }
  induction B as [|r' r x' x [B1 B2] _ IH]; [cbn; lra|]. inversion F as [|? ? [L P] F1]; inversion F' as [|? ? [L' P'] F1']; subst.
  cbn [map]. rewrite !rsum_cons. apply Rplus_le_compat; [|apply IH; auto].
  destruct r as [|p neg], r' as [|p' neg']; try discriminate. cbn [hd tl] in *. cbn [nce]. inversion P; inversion P'; subst.
  apply Rplus_le_compat.
  - apply Ropp_le_contravar. apply LN; [apply Rmult_lt_0_compat; auto; apply Rinv_0_lt_compat; lra|].
    apply (Rmult_le_reg_r (p + c + eps)); [lra|]. unfold Rdiv at 1. rewrite Rmult_assoc, Rinv_l by lra.
    apply (Rmult_le_reg_r (p' + c + eps)); [lra|].
    replace (p' / (p' + c + eps) * (p + c + eps) * (p' + c + eps)) with (p' * (p + c + eps)) by (field; lra). nra.
  - clear - B2 H2 H6 C E LN. induction B2 as [|q' q neg' neg Q _ IH]; [cbn; lra|]. inversion H2; inversion H6; subst.
    cbn [map]. rewrite !rsum_cons. apply Rplus_le_compat; [|apply IH; auto]. apply Ropp_le_contravar.
    apply LN; [apply Rmult_lt_0_compat; auto; apply Rinv_0_lt_compat; lra|].
    unfold Rdiv. apply Rmult_le_compat_l; [lra|]. apply Rinv_le_contravar; lra.
Qed.
Example C97_loss_case : 0 < contrast_loss 10 (1/10) [[1; 1/2; 1/3]; [2; 1; 1]] /\
  contrast_loss 10 (1/10) [[2; 1/2; 1/4]; [2; 1; 1]] <= contrast_loss 10 (1/10) [[1; 1/2; 1/3]; [2; 1; 1]].
Proof.
  assert (A : score_rows 2 [[1; 1/2; 1/3]; [2; 1; 1]]) by (repeat constructor; lra).
  assert (B : score_rows 2 [[2; 1/2; 1/4]; [2; 1; 1]]) by (repeat constructor; lra).
  split.
  - apply (C97_positive 10 2); auto; try lra; try lia; discriminate.
  - apply (C97_monotone 10 2); auto; try lra; try lia; [discriminate|]. repeat constructor; cbn; lra.
Qed.

(** * The memory *)
Lemma put_length {A} (x : A) : forall l i, length (put l i x) = length l.
Proof. induction l as [|y l IH]; intros [|i]; cbn; auto. Qed.
Lemma put_same {A} (x d : A) : forall l i, (i < length l)%nat -> nth i (put l i x) d = x.
Proof. induction l as [|y l IH]; intros [|i] H; cbn in *; try lia; auto. apply IH. lia. Qed.
Lemma put_other {A} (x d : A) : forall l i j, i <> j -> nth j (put l i x) d = nth j l d.
Proof. induction l as [|y l IH]; intros [|i] [|j] H; cbn; auto; try congruence. Qed.
Lemma put_all_length {A} (ps : list (nat * A)) : forall m, length (fold_left (fun m p => put m (fst p) (snd p)) ps m) = length m.
Proof. induction ps as [|p ps IH]; intros m; [reflexivity|]. cbn. rewrite IH, put_length. reflexivity. Qed.
Lemma put_all_other {A} (d : A) (ps : list (nat * A)) j : forall m, ~ In j (map fst ps) ->
  nth j (fold_left (fun m p => put m (fst p) (snd p)) ps m) d = nth j m d.
Proof.
  induction ps as [|[i x] ps IH]; intros m H; [reflexivity|]. cbn. rewrite IH by (intros I; apply H; right; auto).
  apply put_other. intros ->. apply H. left. reflexivity.
Qed.
Lemma put_all_last {A} (d : A) (ps qs : list (nat * A)) j x : forall m, (j < length m)%nat -> ~ In j (map fst qs) ->
  nth j (fold_left (fun m p => put m (fst p) (snd p)) (ps ++ (j, x) :: qs) m) d = x.
Proof.
  intros m J N. rewrite fold_left_app. cbn. rewrite put_all_other by auto. apply put_same. rewrite put_all_length. auto.
Qed.
Lemma map_fst_combine {A B} : forall (l : list A) (m : list B), length l = length m -> map fst (combine l m) = l.
Proof. induction l as [|x l IH]; intros [|y m] L; try discriminate; [reflexivity|]. cbn. rewrite IH by auto. reflexivity. Qed.
(** The running average of the memory row and the feature, before normalisation. *)
Definition blend (momentum : R) (old feat : list R) : list R :=
  map (fun p => momentum * fst p + (1 - momentum) * snd p) (combine old feat).
Lemma new_row_spec mo old feat : length old = length feat ->
  new_row mo old feat = map (fun x => x / norm2 (blend mo old feat)) (blend mo old feat).
Proof.
  intros L. unfold new_row.
  assert (E : zipw Rplus (map (fun x => x * mo) old) (map (fun x => x * (1 - mo)) feat) = blend mo old feat).
  { rewrite zipw_map. unfold zipw, blend. apply map_ext. intros [a b]. cbn. ring. }
  rewrite E. reflexivity.
Qed.
(** Rows of samples outside the batch stay; the row of a sample in the batch (its last
    occurrence) becomes the unit vector along the running average. *)
Theorem C97_memory (D : nat) (mo : R) (mem feat : list (list R)) (idx : list nat) :
  Forall (fun r => length r = D) mem -> Forall (fun r => length r = D) feat -> length idx = length feat ->
  Forall (fun i => (i < length mem)%nat) idx ->
  length (update mo mem feat idx) = length mem /\
  (forall j, ~ In j idx -> nth j (update mo mem feat idx) [] = nth j mem []) /\
  (forall k, (k < length idx)%nat -> ~ In (nth k idx 0%nat) (skipn (S k) idx) ->
     let j := nth k idx 0%nat in let b := blend mo (nth j mem []) (nth k feat []) in
     norm2 b <> 0 ->
     nth j (update mo mem feat idx) [] = map (fun x => x / norm2 b) b /\ norm2 (nth j (update mo mem feat idx) []) = 1).
Proof.
  intros FM FF L FI. unfold update. set (rows := zipw _ idx feat).
  assert (LR : length idx = length rows) by (unfold rows; rewrite zipw_length; auto).
  split; [apply put_all_length|]. split.
  - intros j N. apply put_all_other. rewrite map_fst_combine by auto. exact N.
  - intros k K N NB. set (j := nth k idx 0%nat) in *. set (b := blend mo (nth j mem []) (nth k feat [])) in *.
    assert (NK : nth k rows [] = new_row mo (nth j mem []) (nth k feat [])).
    { unfold rows, zipw. set (f := fun p => new_row mo (nth (fst p) mem []) (snd p)).
      rewrite (nth_indep _ [] (f (0%nat, []))) by (rewrite map_length, combine_length; lia).
      change (map (fun p => new_row mo (nth (fst p) mem []) (snd p)) (combine idx feat)) with (map f (combine idx feat)).
      rewrite (map_nth f). unfold f. rewrite combine_nth by auto. reflexivity. }
    assert (SP : combine idx rows = combine (firstn k idx) (firstn k rows) ++ (j, nth k rows []) :: combine (skipn (S k) idx) (skipn (S k) rows)).
    { unfold j. clear - K LR. clearbody rows. revert k K. revert rows LR. induction idx as [|i idx IH]; intros [|r rows] LR k K; try discriminate; [cbn in K; lia|].
      destruct k as [|k]; [reflexivity|]. cbn. f_equal. apply IH; [auto|cbn in K; lia]. }
    rewrite SP. rewrite put_all_last.
    + rewrite NK. rewrite Forall_forall in FM, FF, FI.
      assert (J : (j < length mem)%nat) by (apply FI; unfold j; apply nth_In; auto).
      assert (E : new_row mo (nth j mem []) (nth k feat []) = map (fun x => x / norm2 b) b).
      { apply new_row_spec. rewrite (FM (nth j mem [])), (FF (nth k feat [])); auto; apply nth_In; lia. }
      rewrite E. split; [reflexivity|].
      rewrite (map_ext _ (Rmult (/ norm2 b))) by (intros; unfold Rdiv; ring). rewrite norm2_scale.
      pose proof (norm2_nonneg b). rewrite Rabs_right by (apply Rle_ge, Rlt_le, Rinv_0_lt_compat; lra). field. auto.
    + rewrite Forall_forall in FI. apply FI. apply nth_In. auto.
    + rewrite map_fst_combine; [exact N|]. rewrite !skipn_length. lia.
Qed.
Example C97_memory_case : nth 1 (update (1/2) [[1; 0]; [0; 1]; [5; 5]] [[6; 7]] [1%nat]) [] = [3 / 5; 4 / 5] /\
  nth 2 (update (1/2) [[1; 0]; [0; 1]; [5; 5]] [[6; 7]] [1%nat]) [] = [5; 5].
Proof.
  destruct (C97_memory 2 (1/2) [[1; 0]; [0; 1]; [5; 5]] [[6; 7]] [1%nat]) as (_ & A & B); [repeat constructor|repeat constructor|auto|repeat constructor|].
  split; [|apply A; cbn; lia].
  assert (BL : blend (1/2) [0; 1] [6; 7] = [3; 4]) by (unfold blend; cbn; repeat f_equal; lra).
  assert (NB : norm2 [3; 4] = 5).
  { unfold norm2, rsum, sq. cbn. replace (3 * 3 + (4 * 4 + 0)) with (5 * 5) by ring. apply sqrt_square. lra. }
  destruct (B 0%nat) as [E _]; [cbn; lia|cbn; lia| |].
  - cbn [nth]. rewrite BL, NB. lra.
  - cbn [nth] in E. rewrite BL, NB in E. cbn [nth]. rewrite E. reflexivity.
Qed.

(** * Normalisation constants *)
Lemma scores_pos T mem feat idx : Forall (Forall (Rlt 0)) (scores T mem feat idx).
Proof.
  apply Forall_forall. intros r I. unfold scores, zipw in I. apply in_map_iff in I. destruct I as (p & <- & _).
  apply Forall_forall. intros x X. apply in_map_iff in X. destruct X as (k & <- & _). apply exp_pos.
Qed.
Lemma mean_scores_pos T mem feat idx : concat (scores T mem feat idx) <> [] -> 0 < rmean (concat (scores T mem feat idx)).
Proof.
  intros N. unfold rmean. apply Rmult_lt_0_compat; [|apply Rinv_0_lt_compat, rlen_pos; auto].
  apply rsum_pos; auto. apply Forall_forall. intros x X. apply in_concat in X. destruct X as (r & R1 & X).
  pose proof (scores_pos T mem feat idx) as P. rewrite Forall_forall in P. specialize (P r R1). rewrite Forall_forall in P. auto.
Qed.
(** A batch with at least one score per memory. *)
Definition scored (b : cbatch) : Prop :=
  concat (zipw (fun (_ : list R) (i : list nat) => i) (b_s b) (sample_rows (b_given b) (b_drawn b) (b_idx b))) <> [] /\
  length (b_s b) = length (b_t b).
Lemma scored_concat T mem b : scored b ->
  concat (scores T mem (b_s b) (sample_rows (b_given b) (b_drawn b) (b_idx b))) <> [] /\
  concat (scores T mem (b_t b) (sample_rows (b_given b) (b_drawn b) (b_idx b))) <> [].
Proof.
  intros [H L]. generalize dependent (sample_rows (b_given b) (b_drawn b) (b_idx b)). intros rs H.
  assert (G : forall (f g : list (list R)) rs, length f = length g ->
    concat (zipw (fun (_ : list R) (i : list nat) => i) f rs) <> [] -> concat (scores T mem g rs) <> []).
  { clear. induction f as [|a f IH]; intros [|c g] [|r rs] L H; try discriminate; try (cbn in H; congruence).
    unfold scores in *. rewrite zipw_cons in *. cbn [concat] in *. destruct r; [|discriminate]. cbn in *. apply IH; auto. }
  split; [apply (G (b_s b) (b_s b)); auto|apply (G (b_s b) (b_t b)); auto].
Qed.
(** The constants are set by the first batch and never change again. *)
Theorem C97_constants (T mo : R) (st : memory) (b : cbatch) (bs : list cbatch) :
  z_s st < 0 -> z_t st < 0 -> v1 st <> [] -> scored b ->
  let rows := sample_rows (b_given b) (b_drawn b) (b_idx b) in
  let zs := rsum (concat (scores T (v2 st) (b_s b) rows)) / rlen (concat (scores T (v2 st) (b_s b) rows)) * INR (length (v1 st)) in
  let zt := rsum (concat (scores T (v1 st) (b_t b) rows)) / rlen (concat (scores T (v1 st) (b_t b) rows)) * INR (length (v1 st)) in
  z_s (steps T mo st (b :: bs)) = zs /\ z_t (steps T mo st (b :: bs)) = zt /\ 0 < zs /\ 0 < zt.
Proof.
  intros ZS ZT N SC rows zs zt. destruct (scored_concat T (v2 st) b SC) as [NS _]. destruct (scored_concat T (v1 st) b SC) as [_ NT].
  pose proof (mean_scores_pos _ _ _ _ NS) as PS. pose proof (mean_scores_pos _ _ _ _ NT) as PT.
  fold rows in PS, PT. unfold rmean in PS, PT.
  assert (PN : 0 < INR (length (v1 st))) by (apply (rlen_pos _ N)).
  assert (P1 : 0 < zs) by (apply Rmult_lt_0_compat; auto). assert (P2 : 0 < zt) by (apply Rmult_lt_0_compat; auto).
  assert (K : forall bs st', z_s st' = zs -> z_t st' = zt -> z_s (steps T mo st' bs) = zs /\ z_t (steps T mo st' bs) = zt).
  { clear bs. induction bs as [|c bs IH]; intros st' A B; [auto|]. cbn [steps fold_left]. apply IH.
    - cbn. destruct (Rlt_dec (z_s st') 0); [lra|auto].
    - cbn. destruct (Rlt_dec (z_t st') 0); [lra|auto]. }
  destruct (K bs (step T mo st b)) as [A B].
  - cbn. destruct (Rlt_dec (z_s st) 0); [reflexivity|lra].
  - cbn. destruct (Rlt_dec (z_t st) 0); [reflexivity|lra].
  - repeat split; auto.
Qed.
(** The scores of the first batch average to one over the number of samples. *)
Theorem C97_first_batch (T mo : R) (st : memory) (b : cbatch) :
  z_s st < 0 -> z_t st < 0 -> v1 st <> [] -> scored b ->
  let '((out_s, out_t), _) := memory_forward T mo st (b_s b) (b_t b) (b_idx b) (b_given b) (b_drawn b) in
  rmean (concat out_s) = 1 / INR (length (v1 st)) /\ rmean (concat out_t) = 1 / INR (length (v1 st)).
Proof.
  intros ZS ZT N SC. unfold memory_forward. destruct (scored_concat T (v2 st) b SC) as [NS _]. destruct (scored_concat T (v1 st) b SC) as [_ NT].
  pose proof (mean_scores_pos _ _ _ _ NS) as PS. pose proof (mean_scores_pos _ _ _ _ NT) as PT.
  destruct (Rlt_dec (z_s st) 0); [|lra]. destruct (Rlt_dec (z_t st) 0); [|lra].
  assert (PN : 0 < rlen (v1 st)) by (apply rlen_pos; auto).
  assert (G : forall l, 0 < rmean (concat l) -> rmean (concat (map (map (fun x => x / (rmean (concat l) * rlen (v1 st)))) l)) = 1 / INR (length (v1 st))).
  { intros l P. rewrite <- concat_map. set (q := rmean (concat l)) in *. change (INR (length (v1 st))) with (rlen (v1 st)).
    assert (NL : concat l <> []).
    { intros Z. unfold q, rmean in P. rewrite Z in P. change (rsum []) with 0 in P. unfold Rdiv in P. lra. }
    pose proof (rlen_pos _ NL) as PL.
    assert (Q : rsum (concat l) = q * rlen (concat l)) by (unfold q, rmean; field; lra).
    unfold rmean. unfold rlen at 2. rewrite map_length. change (INR (length (concat l))) with (rlen (concat l)).
    rewrite (map_ext _ (fun x => / (q * rlen (v1 st)) * x)) by (intros; unfold Rdiv; ring).
    rewrite rsum_scale, Q. field. repeat split; lra. }
  split; apply G; auto.
Qed.
(** Two samples, the first drawn against the second. *)
Definition ex_mem : memory := {| v1 := [[1; 0]; [0; 1]]; v2 := [[0; 1]; [1; 0]]; z_s := -1; z_t := -1 |}.
Definition ex_batch : cbatch := {| b_s := [[1; 0]]; b_t := [[0; 2]]; b_idx := [1%nat]; b_given := None; b_drawn := [[0%nat; 0%nat]] |}.
Example C97_constants_case :
  z_s (steps 1 (1/2) ex_mem [ex_batch; ex_batch]) = (exp 1 + exp 0) / 2 * 2 /\
  z_t (steps 1 (1/2) ex_mem [ex_batch; ex_batch]) = (exp 2 + exp 0) / 2 * 2.
Proof.
  destruct (C97_constants 1 (1/2) ex_mem ex_batch [ex_batch]) as (A & B & _); try (cbn; lra); try discriminate.
  - split; [discriminate|reflexivity].
  - rewrite A, B. unfold scores, dot, rsum, rlen, zipw. cbn. split.
    + replace ((1 * 1 + (0 * 0 + 0)) / 1) with 1 by lra. replace ((0 * 1 + (1 * 0 + 0)) / 1) with 0 by lra. lra.
    + replace ((0 * 0 + (1 * 2 + 0)) / 1) with 2 by lra. replace ((1 * 0 + (0 * 2 + 0)) / 1) with 0 by lra. lra.
Qed.
Example C97_first_batch_case :
  rmean (concat (fst (fst (memory_forward 1 (1/2) ex_mem (b_s ex_batch) (b_t ex_batch) (b_idx ex_batch) (b_given ex_batch) (b_drawn ex_batch))))) = 1 / 2.
Proof.
  pose proof (C97_first_batch 1 (1/2) ex_mem ex_batch) as H. destruct (memory_forward _ _ _ _ _ _ _ _) as [[a b] c]. cbn [fst].
  destruct H as [A _]; try (cbn; lra); try discriminate; [split; [discriminate|reflexivity]|]. rewrite A. cbn. lra.
Qed.

(** * The outputs *)
(** The scores of a batch are computed with the memory as it was before the batch: the student
    features against the teacher memory and the other way round.  Without given indices the first
    score of every row is that of the sample itself. *)
Theorem C97_outputs (T mo : R) (st : memory) (b : cbatch) (k : nat) (row : list nat) :
  length (b_s b) = length (b_idx b) -> length (b_t b) = length (b_idx b) -> length (b_drawn b) = length (b_idx b) ->
  b_given b = None -> (k < length (b_idx b))%nat -> (exists d, nth k (b_drawn b) [] = d :: row) ->
  let '((out_s, out_t), st') := memory_forward T mo st (b_s b) (b_t b) (b_idx b) (b_given b) (b_drawn b) in
  nth k out_s [] = map (fun i => exp (dot (nth i (v2 st) []) (nth k (b_s b) []) / T) / z_s st') (nth k (b_idx b) 0%nat :: row) /\
  nth k out_t [] = map (fun i => exp (dot (nth i (v1 st) []) (nth k (b_t b) []) / T) / z_t st') (nth k (b_idx b) 0%nat :: row) /\
  v1 st' = update mo (v1 st) (b_s b) (b_idx b) /\ v2 st' = update mo (v2 st) (b_t b) (b_idx b).
Proof.
  intros LS LT LD GN K [d D]. unfold memory_forward. cbn [z_s z_t v1 v2]. rewrite GN. cbn [sample_rows].
  assert (Z : forall (A B C : Type) (f : A -> B -> C) (l : list A) (m : list B) a b c, length l = length m -> (k < length l)%nat ->
    nth k (zipw f l m) c = f (nth k l a) (nth k m b)).
  { intros A B C f l m x y c L Kl. unfold zipw. rewrite (nth_indep _ c ((fun p => f (fst p) (snd p)) (x, y))) by (rewrite map_length, combine_length; lia).
    rewrite (map_nth (fun p => f (fst p) (snd p)) (combine l m) (x, y) k). rewrite combine_nth by auto. reflexivity. }
  assert (G : forall mem feat z, length feat = length (b_idx b) ->
    nth k (map (map (fun x => x / z)) (scores T mem feat (zipw (fun row i => match row with [] => [] | _ :: r => i :: r end) (b_drawn b) (b_idx b)))) [] =
    map (fun i => exp (dot (nth i mem []) (nth k feat []) / T) / z) (nth k (b_idx b) 0%nat :: row)).
  { intros mem feat z L. change (@nil R) with (map (fun x => x / z) []) at 1. rewrite map_nth. unfold scores.
    rewrite (Z _ _ _ _ feat _ [] []) by (rewrite ?zipw_length; lia).
    rewrite (Z _ _ _ _ (b_drawn b) _ [] 0%nat) by lia. rewrite D. rewrite map_map. reflexivity. }
  repeat split; apply G; auto.
Qed.
Example C97_outputs_case :
  nth 0 (fst (fst (memory_forward 1 (1/2) ex_mem (b_s ex_batch) (b_t ex_batch) (b_idx ex_batch) (b_given ex_batch) (b_drawn ex_batch)))) [] =
  [exp 1 / (exp 1 + exp 0); exp 0 / (exp 1 + exp 0)].
Proof.
  pose proof (C97_outputs 1 (1/2) ex_mem ex_batch 0 [0%nat]) as H. destruct C97_constants_case as [ZS _].
  cbn [steps fold_left] in ZS.
  assert (Z1 : z_s (step 1 (1/2) ex_mem ex_batch) = (exp 1 + exp 0) / 2 * 2).
  { destruct (C97_constants 1 (1/2) ex_mem ex_batch []) as (A & _); try (cbn; lra); try discriminate.
    - split; [discriminate|reflexivity].
    - cbn [steps fold_left] in A. rewrite A. unfold scores, dot, rsum, rlen, zipw. cbn.
      replace ((1 * 1 + (0 * 0 + 0)) / 1) with 1 by lra. replace ((0 * 1 + (1 * 0 + 0)) / 1) with 0 by lra. lra. }
  unfold step in Z1. destruct (memory_forward _ _ _ _ _ _ _ _) as [[a b] c]. cbn [fst snd] in *.
  destruct H as (A & _); try reflexivity; try (cbn; lia); [exists 0%nat; reflexivity|]. rewrite A, Z1.
  unfold dot, rsum, zipw. cbn.
  replace ((1 * 1 + (0 * 0 + 0)) / 1) with 1 by lra. replace ((0 * 1 + (1 * 0 + 0)) / 1) with 0 by lra.
  replace ((exp 1 + exp 0) / 2 * 2) with (exp 1 + exp 0) by lra. reflexivity.
Qed.

(** * The whole loss *)
(** It is the student's part plus the teacher's, each of them the mean over the samples of the
    noise-contrastive term of the scores the memory returns. *)
Theorem C97_total (w : R) (n m : nat) (eps T mo : R) (st : memory) (b : cbatch) :
  let '((out_s, out_t), st') := memory_forward T mo st (b_s b) (b_t b) (b_idx b) (b_given b) (b_drawn b) in
  out_s <> [] -> out_t <> [] -> score_rows m out_s -> score_rows m out_t ->
  crd_loss w n eps T mo st (b_s b) (b_t b) (b_idx b) (b_given b) (b_drawn b) =
  (rsum (map (nce (INR m / INR n) eps) out_s) / INR (length out_s) + rsum (map (nce (INR m / INR n) eps) out_t) / INR (length out_t), st').
Proof.
  unfold crd_loss. destruct (memory_forward _ _ _ _ _ _ _ _) as [[a c] s]. intros NA NC FA FC.
  rewrite (C97_value n m eps a), (C97_value n m eps c) by auto. reflexivity.
Qed.
Print Assumptions C97_total.
Example C97_total_case : forall w, exists p q r t, 0 < p /\ 0 < q /\ 0 < r /\ 0 < t /\
  fst (crd_loss w 2 1 1 (1/2) ex_mem (b_s ex_batch) (b_t ex_batch) (b_idx ex_batch) (b_given ex_batch) (b_drawn ex_batch)) =
  nce (1 / 2) 1 [p; q] + nce (1 / 2) 1 [r; t].
Proof.
  intros w. pose proof (C97_total w 2 1 1 1 (1/2) ex_mem ex_batch) as H.
  destruct (memory_forward 1 (1/2) ex_mem _ _ _ _ _) as [[a b] c] eqn:E.
  unfold memory_forward in E. injection E as EA EB _.
  destruct (C97_constants 1 (1/2) ex_mem ex_batch []) as (A & B & P & P'); try (cbn; lra); try discriminate; [split; [discriminate|reflexivity]|].
  rewrite <- A in P. rewrite <- B in P'. cbn [steps fold_left step memory_forward snd z_s z_t] in P, P'.
  assert (PA : exists p q, 0 < p /\ 0 < q /\ a = [[p; q]]).
  { do 2 eexists. split; [|split; [|symmetry; exact EA]]; (apply Rmult_lt_0_compat; [apply exp_pos|apply Rinv_0_lt_compat; exact P]). }
  assert (PB : exists p q, 0 < p /\ 0 < q /\ b = [[p; q]]).
  { do 2 eexists. split; [|split; [|symmetry; exact EB]]; (apply Rmult_lt_0_compat; [apply exp_pos|apply Rinv_0_lt_compat; exact P']). }
  destruct PA as (p & q & Hp & Hq & ->). destruct PB as (r & t & Hr & Ht & ->). exists p, q, r, t. repeat split; auto.
  rewrite H; try discriminate; try (constructor; [split; [reflexivity|repeat constructor; auto]|constructor]).
  cbn [fst map length]. rewrite !rsum_cons, !rsum_nil. change (INR 1) with 1. change (INR 2) with 2. lra.
Qed.

(** * The weight *)
(** The loss should be scaled by [loss_weight]; the constructor stores it and forward ignores it. *)
Definition C97_weight_claim : Prop :=
  forall (w : R) n eps T mo st fs ft idx given drawn,
    fst (crd_loss w n eps T mo st fs ft idx given drawn) = w * fst (crd_loss 1 n eps T mo st fs ft idx given drawn).
Theorem C97_weight_refuted : ~ C97_weight_claim.
Proof.
  intros H.
  specialize (H 2 2%nat 1 1 (1/2) ex_mem (b_s ex_batch) (b_t ex_batch) (b_idx ex_batch) (b_given ex_batch) (b_drawn ex_batch)).
  unfold crd_loss in H. destruct (memory_forward 1 (1/2) ex_mem _ _ _ _ _) as [[a b] c] eqn:E. cbn [fst] in H.
  unfold memory_forward in E. injection E as EA EB _.
  destruct (C97_constants 1 (1/2) ex_mem ex_batch []) as (A & B & P & P'); try (cbn; lra); try discriminate; [split; [discriminate|reflexivity]|].
  rewrite <- A in P. rewrite <- B in P'. cbn [steps fold_left step memory_forward snd z_s z_t] in P, P'.
  assert (PA : 0 < contrast_loss 2 1 a).
  { apply (C97_positive 2 1); [subst a; discriminate|subst a; constructor; [split; [reflexivity|]|constructor]; repeat constructor; (apply Rmult_lt_0_compat; [apply exp_pos|apply Rinv_0_lt_compat; exact P])|lia|lia|lra]. }
  assert (PB : 0 < contrast_loss 2 1 b).
  { apply (C97_positive 2 1); [subst b; discriminate|subst b; constructor; [split; [reflexivity|]|constructor]; repeat constructor; (apply Rmult_lt_0_compat; [apply exp_pos|apply Rinv_0_lt_compat; exact P'])|lia|lia|lra]. }
  lra.
Qed.
Print Assumptions C97_value.
Print Assumptions C97_outputs.
Print Assumptions C97_weight_refuted.
