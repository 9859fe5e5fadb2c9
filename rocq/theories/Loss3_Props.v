(** C88 (WSLD) and C89 (OnehotLikeLoss, InformationEntropyLoss). *)
From Verif Require Import Prelude Loss_Model Loss_Lemmas Loss_Props Loss2_Props.
From Coq Require Import Reals Lra.
Open Scope R_scope.

(** * Specification *)
(** Negative log-likelihood of the label, and cross entropy with soft labels. *)
Definition nll (r : list R) (g : nat) : R := - ln (prob 1 r g).
Definition soft_ce (tau : R) (s t : list R) : R :=
  - rsum (map (fun i => prob tau t i * ln (prob tau s i)) (seq 0 (length t))).
Definition weight (s t : list R) (g : nat) : R := 1 - exp (- (nll s g / (nll t g + / 10000000))).
(** Valid rows, at least one class. *)
Definition valid (S T : list (list R)) (G : list nat) : Prop :=
  length S = length T /\ length S = length G /\
  forall s t g, In ((s, t), g) (combine (combine S T) G) -> length s = length t /\ (g < length s)%nat.

Lemma divide_1 r : divide 1 r = r.
Proof. unfold divide. rewrite <- (map_id r) at 2. apply map_ext. intros. field. Qed.
Lemma prob1 r i : (i < length r)%nat -> nth i (softmax r) 0 = prob 1 r i.
Proof. intros H. rewrite <- prob_softmax by exact H. rewrite divide_1. reflexivity. Qed.
Lemma prob_range tau r i : (i < length r)%nat -> 0 < prob tau r i <= 1 /\ ((2 <= length r)%nat -> prob tau r i < 1).
Proof.
  intros H. rewrite <- prob_softmax by exact H. split.
  - split.
    + pose proof (softmax_pos (divide tau r)) as P. rewrite Forall_forall in P. apply P. apply nth_In. rewrite softmax_length, divide_length. exact H.
    + assert (E : rsum (softmax (divide tau r)) = 1).
      { apply softmax_sum. intros E. apply (f_equal (@length R)) in E. rewrite divide_length in E. cbn in E. lia. }
      rewrite (rsum_without i) in E by (rewrite softmax_length, divide_length; exact H).
      assert (0 <= rsum (without i (softmax (divide tau r)))); [|lra]. apply rsum_nonneg. apply Forall_forall. intros x I.
      pose proof (softmax_pos (divide tau r)) as P. rewrite Forall_forall in P.
      assert (I' : In x (softmax (divide tau r))); [|apply Rlt_le, P, I'].
      unfold without in I. apply in_app_iff in I as [I|I].
      * rewrite <- (firstn_skipn i). apply in_or_app. left. exact I.
      * rewrite <- (firstn_skipn (S i)). apply in_or_app. right. exact I.
  - intros H2. apply softmax_without; rewrite divide_length; auto.
Qed.
Lemma nll_range r g : (g < length r)%nat -> 0 <= nll r g /\ ((2 <= length r)%nat -> 0 < nll r g).
Proof.
  intros H. destruct (prob_range 1 r g H) as [[P Q] S1]. unfold nll. split.
  - assert (ln (prob 1 r g) <= ln 1); [|rewrite ln_1 in *; lra]. destruct Q as [Q|Q]; [left; apply ln_increasing; auto|rewrite Q; lra].
  - intros H2. specialize (S1 H2). assert (ln (prob 1 r g) < ln 1); [apply ln_increasing; auto|rewrite ln_1 in *; lra].
Qed.
Lemma label_ce r g : (g < length r)%nat -> wsld_label_ce r g = nll r g.
Proof.
  intros H. unfold wsld_label_ce, nll. f_equal.
  assert (E : forall a b, rsum (zipw Rmult a b) = rsum (zipw Rmult b a)).
  { intros a. induction a as [|x a IH]; intros [|y b]; try reflexivity. rewrite !zipw_cons, !rsum_cons, IH. ring. }
  rewrite E. pose proof (mask_pick g (log_softmax r) 0) as M. unfold gt_mask.
  assert (L : length (log_softmax r) = length r) by apply map_length. rewrite L, Nat.sub_0_r in M. rewrite M by lia.
  rewrite ln_softmax, <- prob1 by exact H. rewrite (nth_indep _ 0 (ln 0)) by (rewrite map_length, softmax_length; exact H). apply map_nth.
Qed.
Lemma focal_spec s t g : (g < length s)%nat -> length s = length t -> focal_weight s t g = weight s t g.
Proof.
  intros H L. unfold focal_weight, weight. rewrite !label_ce by lia.
  destruct (nll_range s g H) as [A _]. destruct (nll_range t g) as [B _]; [lia|].
  rewrite Rmax_left; [do 4 f_equal; lra|].
  apply Rmult_le_pos; [lra|]. left. apply Rinv_0_lt_compat. lra.
Qed.
Lemma soft_ce_spec tau s t : length s = length t -> wsld_ce tau s t = soft_ce tau s t.
Proof.
  intros L. unfold wsld_ce, soft_ce. f_equal. rewrite ln_softmax.
  assert (E : forall p q : list R, length p = length q ->
    rsum (zipw Rmult p (map ln q)) = rsum (map (fun i => nth i p 0 * ln (nth i q 0)) (seq 0 (length p)))).
  { induction p as [|a p IH]; intros [|b q] LL; try discriminate; [reflexivity|]. cbn [map length seq].
    rewrite zipw_cons, !rsum_cons, IH by auto. cbn [nth]. rewrite <- seq_shift, map_map. reflexivity. }
  rewrite E by (rewrite !softmax_length, !divide_length; auto). rewrite softmax_length, divide_length. f_equal.
  apply map_ext_in. intros i I. apply in_seq in I. rewrite !prob_softmax by lia. reflexivity.
Qed.
Lemma soft_ce_range tau s t : length s = length t -> (0 < length s)%nat ->
  0 <= soft_ce tau s t /\ ((2 <= length s)%nat -> 0 < soft_ce tau s t).
Proof.
  intros L H. unfold soft_ce.
  assert (P : forall i, (i < length t)%nat -> 0 <= - (prob tau t i * ln (prob tau s i)) /\ ((2 <= length s)%nat -> 0 < - (prob tau t i * ln (prob tau s i)))).
  { intros i Hi. destruct (prob_range tau t i Hi) as [[A _] _]. destruct (prob_range tau s i) as [[B C] D]; [lia|].
    assert (X : ln (prob tau s i) <= 0).
    { rewrite <- ln_1. destruct C as [C|C]; [left; apply ln_increasing; auto|rewrite C; lra]. }
    split; [nra|]. intros H2. assert (ln (prob tau s i) < 0); [|nra]. rewrite <- ln_1. apply ln_increasing; auto. }
  assert (E : - rsum (map (fun i => prob tau t i * ln (prob tau s i)) (seq 0 (length t)))
            = rsum (map (fun i => - (prob tau t i * ln (prob tau s i))) (seq 0 (length t)))).
  { generalize (seq 0 (length t)) as l. induction l as [|i l IH]; [unfold rsum; cbn; lra|]. cbn [map]. rewrite !rsum_cons, <- IH. lra. }
  rewrite E. split.
  - apply rsum_nonneg. apply Forall_forall. intros x I. apply in_map_iff in I as (i & <- & I). apply in_seq in I. apply P. lia.
  - intros H2. apply rsum_pos; [destruct t; [cbn in L; lia|discriminate]|]. apply Forall_forall. intros x I.
    apply in_map_iff in I as (i & <- & I). apply in_seq in I. apply P; auto; lia.
Qed.

(** * C88 *)
Theorem C88_value :
  forall tau w S T G, valid S T G ->
    wsld_loss tau w S T G = w * (tau * tau * (total (fun s t g => weight s t g * soft_ce tau s t) S T G / INR (length S))).
Proof.
  intros tau w S T G (L1 & L2 & V). unfold wsld_loss, rmean, rlen. do 2 f_equal.
  unfold zipw at 2. rewrite map_length, !combine_length. replace (Nat.min (Nat.min (length S) (length T)) (length G)) with (length S) by lia.
  f_equal. unfold total, zipw. f_equal. apply map_ext_in. intros ((s & t) & g) I. destruct (V s t g I) as [L H]. cbn [fst snd].
  rewrite focal_spec, soft_ce_spec by auto. reflexivity.
Qed.
(** The weight of a sample is in [0, 1), positive with two classes or more, and passes
    1 - 1/e exactly when the student's log-likelihood of the label is worse than the
    teacher's by more than 1e-7. *)
Theorem C88_weight :
  forall s t g, length s = length t -> (g < length s)%nat ->
    0 <= focal_weight s t g < 1 /\
    ((2 <= length s)%nat -> 0 < focal_weight s t g) /\
    (1 - exp (-1) < focal_weight s t g <-> ln (prob 1 s g) < ln (prob 1 t g) - / 10000000).
Proof.
  intros s t g L H. rewrite focal_spec by auto. unfold weight.
  destruct (nll_range s g H) as [A A']. destruct (nll_range t g) as [B _]; [lia|].
  assert (D : 0 < nll t g + / 10000000) by lra. set (q := nll s g / (nll t g + / 10000000)).
  assert (Q : 0 <= q) by (apply Rmult_le_pos; [lra|left; apply Rinv_0_lt_compat; lra]).
  pose proof (exp_pos (- q)) as PE. split; [split|split].
  - assert (exp (- q) <= exp 0); [|rewrite exp_0 in *; lra]. destruct Q as [Q|Q]; [left; apply exp_increasing; lra|rewrite <- Q; rewrite Ropp_0; lra].
  - lra.
  - intros H2. specialize (A' H2). assert (Q' : 0 < q) by (apply Rdiv_lt_0_compat; lra).
    assert (exp (- q) < exp 0); [apply exp_increasing; lra|rewrite exp_0 in *; lra].
  - assert (E : 1 < q <-> nll t g + / 10000000 < nll s g).
    { unfold q. split; intros X.
      - apply (Rmult_lt_compat_r (nll t g + / 10000000)) in X; [|exact D]. unfold Rdiv in X. rewrite Rmult_assoc, Rinv_l in X by lra. lra.
      - apply (Rmult_lt_reg_r (nll t g + / 10000000)); [exact D|]. unfold Rdiv. rewrite Rmult_assoc, Rinv_l by lra. lra. }
    unfold nll in E. split; intros X.
    + assert (X' : exp (- q) < exp (-1)) by lra. apply exp_lt_inv in X'. assert (1 < q) by lra. apply E in H0. lra.
    + assert (X' : 1 < q) by (apply E; lra). assert (exp (- q) < exp (-1)); [apply exp_increasing; lra|lra].
Qed.
(** Never negative, at most the unweighted loss, positive with two classes or more. *)
Theorem C88_bounds :
  forall tau w S T G, valid S T G -> S <> [] -> 0 <= w ->
    0 <= wsld_loss tau w S T G <= w * (tau * tau * (total (fun s t _ => soft_ce tau s t) S T G / INR (length S))) /\
    (0 < w -> tau <> 0 -> (forall s, In s S -> (2 <= length s)%nat) -> 0 < wsld_loss tau w S T G).
Proof.
  intros tau w S T G V NE W. rewrite C88_value by exact V. destruct V as (L1 & L2 & V).
  assert (N : 0 < / INR (length S)) by (apply Rinv_0_lt_compat, lt_0_INR; destruct S; [congruence|cbn; lia]).
  assert (TT : 0 <= tau * tau) by nra.
  assert (K : 0 <= total (fun s t g => weight s t g * soft_ce tau s t) S T G <= total (fun s t _ => soft_ce tau s t) S T G /\
    ((forall s, In s S -> (2 <= length s)%nat) -> 0 < total (fun s t g => weight s t g * soft_ce tau s t) S T G)).
  { unfold total. split; [split|].
    - apply rsum_nonneg. apply Forall_forall. intros x I. apply in_map_iff in I as (((s & t) & g) & <- & I). cbn [fst snd].
      destruct (V s t g I) as [L H]. destruct (C88_weight s t g L H) as [X _]. rewrite focal_spec in X by auto.
      destruct (soft_ce_range tau s t L) as [Y _]; [lia|]. nra.
    - apply rsum_le. intros ((s & t) & g) I. cbn [fst snd].
      destruct (V s t g I) as [L H]. destruct (C88_weight s t g L H) as [X _]. rewrite focal_spec in X by auto.
      destruct (soft_ce_range tau s t L) as [Y _]; [lia|]. nra.
    - intros H2. apply rsum_pos; [destruct S, T, G; cbn in *; try congruence|]. apply Forall_forall. intros x I.
      apply in_map_iff in I as (((s & t) & g) & <- & I). cbn [fst snd].
      destruct (V s t g I) as [L H]. assert (HS : (2 <= length s)%nat) by (apply H2; eapply in_combine_l, in_combine_l; exact I).
      destruct (C88_weight s t g L H) as (_ & X & _). rewrite focal_spec in X by auto.
      destruct (soft_ce_range tau s t L) as [_ Y]; [lia|]. specialize (X HS). specialize (Y HS). apply Rmult_lt_0_compat; auto. }
  destruct K as [[K1 K2] K3]. split; [split|].
  - apply Rmult_le_pos; [exact W|]. apply Rmult_le_pos; [exact TT|]. apply Rmult_le_pos; lra.
  - apply Rmult_le_compat_l; [exact W|]. apply Rmult_le_compat_l; [exact TT|]. apply Rmult_le_compat_r; lra.
  - intros W' TAU H2. specialize (K3 H2). apply Rmult_lt_0_compat; [exact W'|]. apply Rmult_lt_0_compat; [nra|]. apply Rmult_lt_0_compat; lra.
Qed.
Print Assumptions C88_value.
Print Assumptions C88_weight.
Print Assumptions C88_bounds.
Example C88_bounds_case : 0 < wsld_loss 2 1 [[0; 1]; [3; 0]] [[1; 1]; [0; 2]] [1; 0]%nat.
Proof.
  apply C88_bounds; try lra; try discriminate.
  - split; [reflexivity|]. split; [reflexivity|]. intros s t g [I|[I|[]]]; inversion I; cbn; lia.
  - intros s [<-|[<-|[]]]; cbn; lia.
Qed.
(** Student 1 : 1, teacher 3 : 1 for the label. *)
Example C88_weight_case : 1 - exp (-1) < focal_weight [0; 0] [ln 3; 0] 0.
Proof.
  apply C88_weight; [reflexivity|cbn; lia|]. unfold prob. cbn. unfold rsum. cbn. unfold Rdiv.
  rewrite !Rinv_1, !Rmult_1_r, !exp_0, !exp_ln by lra.
  replace (1 * / (1 + (1 + 0))) with (/ 2) by field. replace (3 * / (3 + (1 + 0))) with (3 / 4) by field.
  assert (X : / 4 < ln (3 / 4) - ln (/ 2)); [|lra].
  rewrite <- ln_ratio by lra. replace (3 / 4 / / 2) with (3 / 2) by field.
  assert (Y : ln (2 / 3) <= 2 / 3 - 1) by (apply ln_le_minus; lra).
  replace (2 / 3) with (/ (3 / 2)) in Y at 1 by field. rewrite ln_Rinv in Y by lra. lra.
Qed.

(** * C89 *)
Definition rows_of (C : nat) (rows : list (list R)) : Prop := rows <> [] /\ (0 < C)%nat /\ Forall (fun r => length r = C) rows.
(** [m] is the largest probability of the row. *)
Definition top_prob (r : list R) (m : R) : Prop :=
  (exists i, (i < length r)%nat /\ m = prob 1 r i) /\ forall j, (j < length r)%nat -> prob 1 r j <= m.

Lemma argmax_from_spec : forall l i best at_,
  let k := argmax_from i best at_ l in
  (k = at_ /\ (forall j, (j < length l)%nat -> nth j l 0 <= best)) \/
  (exists j, k = (i + j)%nat /\ (j < length l)%nat /\ best <= nth j l 0 /\ forall j', (j' < length l)%nat -> nth j' l 0 <= nth j l 0).
Proof.
  induction l as [|x l IH]; intros i best at_; cbn [argmax_from length].
  - left. split; [reflexivity|lia].
  - destruct (Rlt_dec best x) as [D|D].
    + right. destruct (IH (S i) x i) as [[E F]|(j & E & J & B & F)].
      * exists O. cbn [nth]. split; [cbv zeta in *; lia|]. split; [lia|]. split; [lra|]. intros [|j'] Hj; cbn [nth]; [lra|apply F; lia].
      * exists (S j). cbn [nth]. split; [cbv zeta in *; lia|]. split; [lia|]. split; [lra|]. intros [|j'] Hj; cbn [nth]; [lra|apply F; lia].
    + destruct (IH (S i) best at_) as [[E F]|(j & E & J & B & F)].
      * left. split; [exact E|]. intros [|j'] Hj; cbn [nth]; [lra|apply F; lia].
      * right. exists (S j). cbn [nth]. split; [cbv zeta in *; lia|]. split; [lia|]. split; [lra|]. intros [|j'] Hj; cbn [nth]; [lra|apply F; lia].
Qed.
Lemma argmax_spec r : r <> [] -> (argmax r < length r)%nat /\ forall j, (j < length r)%nat -> nth j r 0 <= nth (argmax r) r 0.
Proof.
  destruct r as [|x r]; [congruence|]. intros _. unfold argmax.
  destruct (argmax_from_spec r 1 x 0) as [[E F]|(j & E & J & B & F)]; cbv zeta in *; rewrite E; cbn [length].
  - split; [lia|]. intros [|j] Hj; cbn [nth]; [lra|apply F; lia].
  - split; [lia|]. cbn [Nat.add nth]. intros [|j'] Hj; cbn [nth]; [lra|apply F; lia].
Qed.
Lemma prob_mono r i j : (i < length r)%nat -> (j < length r)%nat -> nth i r 0 <= nth j r 0 -> prob 1 r i <= prob 1 r j.
Proof.
  intros I J L. rewrite <- !prob1 by auto. rewrite !nth_softmax by auto.
  assert (P : 0 < z r) by (apply z_pos; intros ->; cbn in I; lia).
  apply Rmult_le_compat_r; [left; apply Rinv_0_lt_compat; exact P|]. destruct L as [L|L]; [left; apply exp_increasing; exact L|rewrite L; lra].
Qed.
Lemma onehot_row r : r <> [] -> exists m, top_prob r m /\ - nth (argmax r) (log_softmax r) 0 = - ln m.
Proof.
  intros NE. destruct (argmax_spec r NE) as [A B]. exists (prob 1 r (argmax r)). split.
  - split; [eauto|]. intros j J. apply prob_mono; auto.
  - f_equal. rewrite ln_softmax, <- prob1 by exact A. rewrite (nth_indep _ 0 (ln 0)) by (rewrite map_length, softmax_length; exact A). apply map_nth.
Qed.
Lemma prob_sum r : r <> [] -> rsum (map (prob 1 r) (seq 0 (length r))) = 1.
Proof.
  intros NE. transitivity (rsum (softmax r)); [|apply softmax_sum; exact NE]. f_equal.
  assert (E : forall l : list R, l = map (fun i => nth i l 0) (seq 0 (length l))).
  { induction l as [|x l IH]; [reflexivity|]. cbn [length seq map]. rewrite <- seq_shift, map_map. cbn [nth]. f_equal. exact IH. }
  rewrite (E (softmax r)), softmax_length. apply map_ext_in. intros i I. apply in_seq in I. symmetry. apply prob1. lia.
Qed.
(** The largest of [C] probabilities is at least 1 / C, with equality only if all are equal. *)
Lemma top_prob_range r m : r <> [] -> top_prob r m ->
  0 <= - ln m <= ln (INR (length r)) /\ ((2 <= length r)%nat -> 0 < - ln m) /\
  (- ln m = ln (INR (length r)) <-> forall i j, (i < length r)%nat -> (j < length r)%nat -> nth i r 0 = nth j r 0).
Proof.
  intros NE [(i & Hi & Em) M]. destruct (prob_range 1 r i Hi) as [[P Q] Q2]. rewrite <- Em in P, Q, Q2.
  set (C := INR (length r)). assert (PC : 0 < C) by (apply lt_0_INR; lia).
  assert (S1 : 1 <= C * m).
  { pose proof (rsum_const m (seq 0 (length r))) as K. rewrite seq_length in K. unfold C. rewrite <- K.
    apply (Rle_trans _ (rsum (map (prob 1 r) (seq 0 (length r))))); [rewrite (prob_sum r NE); lra|]. apply rsum_le.
    intros j J. apply in_seq in J. apply M. lia. }
  assert (EL : ln (C * m) = ln C + ln m) by (apply ln_mult; auto).
  assert (L0 : 0 <= ln (C * m)).
  { rewrite <- ln_1. destruct S1 as [S1|S1]; [left; apply ln_increasing; lra|rewrite <- S1; lra]. }
  split; [split|split].
  - assert (ln m <= ln 1); [|rewrite ln_1 in *; lra]. destruct Q as [Q|Q]; [left; apply ln_increasing; auto|rewrite Q; lra].
  - lra.
  - intros H2. specialize (Q2 H2). assert (ln m < ln 1); [apply ln_increasing; auto|rewrite ln_1 in *; lra].
  - split.
    + intros E. assert (E1 : C * m = 1).
      { apply ln_inv; [nra|lra|]. rewrite ln_1. lra. }
      (* all probabilities equal m *)
      assert (A : forall j, (j < length r)%nat -> prob 1 r j = m).
      { assert (Z : rsum (map (fun j => m - prob 1 r j) (seq 0 (length r))) = 0).
        { assert (X : rsum (map (fun j => prob 1 r j + (m - prob 1 r j)) (seq 0 (length r))) = INR (length (seq 0 (length r))) * m).
          { rewrite <- rsum_const. f_equal. apply map_ext. intros. lra. }
          rewrite rsum_map_plus, seq_length in X. rewrite (prob_sum r NE) in X. fold C in X. lra. }
        apply rsum_zero in Z.
        - rewrite Forall_forall in Z. intros j J. assert (m - prob 1 r j = 0); [|lra]. apply Z. apply in_map_iff. exists j. split; [reflexivity|apply in_seq; lia].
        - apply Forall_forall. intros x I. apply in_map_iff in I as (j & <- & J). apply in_seq in J. assert (prob 1 r j <= m) by (apply M; lia). lra. }
      intros a b Ha Hb. assert (X : prob 1 r a = prob 1 r b) by (rewrite !A; auto). rewrite <- !prob1, !nth_softmax in X by auto.
      assert (PZ : 0 < z r) by (apply z_pos; exact NE). apply exp_inv.
      apply (Rmult_eq_compat_r (z r)) in X. unfold Rdiv in X. rewrite !Rmult_assoc, Rinv_l in X by lra. lra.
    + intros A. assert (E : C * m = 1).
      { pose proof (rsum_const m (seq 0 (length r))) as K. rewrite seq_length in K. unfold C. rewrite <- K.
        transitivity (rsum (map (prob 1 r) (seq 0 (length r)))); [|apply prob_sum; exact NE]. f_equal.
        apply map_ext_in. intros j J. apply in_seq in J. rewrite Em. rewrite <- !prob1, !nth_softmax by lia. rewrite (A j i) by lia. reflexivity. }
      rewrite E, ln_1 in EL. lra.
Qed.
Lemma mean_le_const (f : list R -> R) c l : l <> [] -> (forall x, In x l -> f x <= c) ->
  rmean (map f l) <= c /\ (rmean (map f l) = c <-> forall x, In x l -> f x = c).
Proof.
  intros NE H. unfold rmean, rlen. rewrite map_length.
  assert (N : 0 < INR (length l)) by (apply lt_0_INR; destruct l; [congruence|cbn; lia]).
  assert (E : forall x, x / INR (length l) = c <-> x = INR (length l) * c).
  { intros x. split; intros X; [rewrite <- X; field; lra|rewrite X; field; lra]. }
  rewrite E. assert (LE : rsum (map f l) <= INR (length l) * c) by (rewrite <- rsum_const; apply rsum_le; auto).
  split.
  - apply (Rmult_le_reg_r (INR (length l))); [exact N|]. unfold Rdiv. rewrite Rmult_assoc, Rinv_l by lra. lra.
  - split.
    + intros X. assert (Z : rsum (map (fun x => c - f x) l) = 0).
      { assert (Y : rsum (map (fun x => f x + (c - f x)) l) = INR (length l) * c).
        { rewrite <- rsum_const. f_equal. apply map_ext. intros. lra. }
        rewrite rsum_map_plus in Y. lra. }
      apply rsum_zero in Z.
      * rewrite Forall_forall in Z. intros x I. assert (c - f x = 0); [|lra]. apply Z. apply (in_map (fun x => c - f x)). exact I.
      * apply Forall_forall. intros y I. apply in_map_iff in I as (x & <- & I). pose proof (H x I). lra.
    + intros X. rewrite <- rsum_const. f_equal. apply map_ext_in. exact X.
Qed.
(** [OnehotLikeLoss]: between 0 and ln C, the upper end exactly when all logits of each row
    are equal; positive with two classes or more; the mean of - ln of the largest
    probabilities. *)
Theorem C89_onehot :
  forall C rows, rows_of C rows ->
    (exists ms, Forall2 top_prob rows ms /\ onehot_loss rows = rsum (map (fun m => - ln m) ms) / INR (length rows)) /\
    0 <= onehot_loss rows <= ln (INR C) /\
    ((2 <= C)%nat -> 0 < onehot_loss rows) /\
    (onehot_loss rows = ln (INR C) <-> forall r i j, In r rows -> (i < C)%nat -> (j < C)%nat -> nth i r 0 = nth j r 0).
Proof.
  intros C rows (NE & PC & F). rewrite Forall_forall in F.
  assert (NN : forall r, In r rows -> r <> []) by (intros r I ->; specialize (F [] I); cbn in F; lia).
  set (f := fun r => - nth (argmax r) (log_softmax r) 0).
  assert (R : forall r, In r rows -> 0 <= f r <= ln (INR C) /\ ((2 <= C)%nat -> 0 < f r) /\
      (f r = ln (INR C) <-> forall i j, (i < C)%nat -> (j < C)%nat -> nth i r 0 = nth j r 0)).
  { intros r I. destruct (onehot_row r (NN r I)) as (m & T & E). unfold f. rewrite E.
    pose proof (top_prob_range r m (NN r I) T) as X. rewrite (F r I) in X. exact X. }
  assert (N : 0 < INR (length rows)) by (apply lt_0_INR; destruct rows; [congruence|cbn; lia]).
  destruct (mean_le_const f (ln (INR C)) rows NE) as [U V]; [intros r I; apply R; exact I|].
  split; [|split; [split|split]].
  - assert (X : exists ms, Forall2 top_prob rows ms /\ map f rows = map (fun m => - ln m) ms).
    { clear - NN. induction rows as [|r rows IH]; [exists []; split; constructor|].
      destruct (onehot_row r) as (m & T & E); [apply NN; left; reflexivity|].
      destruct IH as (ms & A & B); [intros x I; apply NN; right; exact I|].
      exists (m :: ms). split; [constructor; auto|]. cbn [map]. rewrite B. f_equal. exact E. }
    destruct X as (ms & A & B). exists ms. split; [exact A|]. unfold onehot_loss. fold f. rewrite B. unfold rmean, rlen.
    rewrite <- B, map_length. reflexivity.
  - unfold onehot_loss. fold f. apply Rmult_le_pos; [|left; apply Rinv_0_lt_compat; unfold rlen; rewrite map_length; exact N].
    apply rsum_nonneg. apply Forall_forall. intros x I. apply in_map_iff in I as (r & <- & I). apply R. exact I.
  - exact U.
  - intros H2. unfold onehot_loss. fold f. apply Rmult_lt_0_compat; [|apply Rinv_0_lt_compat; unfold rlen; rewrite map_length; exact N].
    apply rsum_pos; [destruct rows; [congruence|discriminate]|]. apply Forall_forall. intros x I. apply in_map_iff in I as (r & <- & I). apply R; auto.
  - unfold onehot_loss. fold f. rewrite V. split.
    + intros X r i j I Hi Hj. apply (R r I); auto.
    + intros X r I. apply R; [exact I|]. intros i j Hi Hj. apply X; auto.
Qed.
Print Assumptions C89_onehot.
Example C89_onehot_case : onehot_loss [[3; 3]; [5; 5]] = ln (INR 2) /\ onehot_loss [[3; 3]; [5; 6]] < ln (INR 2).
Proof.
  split.
  - apply (C89_onehot 2).
    + split; [discriminate|]. split; [lia|]. repeat constructor.
    + intros r i j [<-|[<-|[]]] Hi Hj; destruct i as [|[|i]], j as [|[|j]]; try lia; reflexivity.
  - destruct (C89_onehot 2 [[3; 3]; [5; 6]]) as (_ & [_ A] & _ & B).
    + split; [discriminate|]. split; [lia|]. repeat constructor.
    + destruct A as [A|A]; [exact A|]. exfalso. apply B with (r := [5; 6]) (i := 0%nat) (j := 1%nat) in A; [|cbn; auto|lia|lia].
      cbn in A. lra.
Qed.

(** [InformationEntropyLoss]: with avg_j the batch mean of the probability of class j, the
    loss is the sum of avg_j log10 avg_j; it lies between - log10 C and 0, and is - log10 C
    exactly when every avg_j is 1 / C. *)
Definition average (rows : list (list R)) (j : nat) : R := rsum (map (fun r => prob 1 r j) rows) / INR (length rows).
Theorem C89_entropy :
  forall C rows, rows_of C rows ->
    entropy_loss C rows = rsum (map (fun j => average rows j * (ln (average rows j) / ln 10)) (seq 0 C)) /\
    - (ln (INR C) / ln 10) <= entropy_loss C rows <= 0 /\
    (entropy_loss C rows = - (ln (INR C) / ln 10) <-> forall j, (j < C)%nat -> average rows j = / INR C).
Proof.
  intros C rows (NE & PC & F). rewrite Forall_forall in F.
  assert (N : 0 < INR (length rows)) by (apply lt_0_INR; destruct rows; [congruence|cbn; lia]).
  assert (E : class_prob C rows = map (average rows) (seq 0 C)).
  { unfold class_prob. apply map_ext_in. intros j J. apply in_seq in J. unfold average, rmean, rlen. rewrite map_length. f_equal. f_equal.
    apply map_ext_in. intros r I. apply prob1. rewrite (F r I). lia. }
  assert (V : entropy_loss C rows = rsum (map (fun j => average rows j * (ln (average rows j) / ln 10)) (seq 0 C))).
  { unfold entropy_loss. rewrite E, map_map. reflexivity. }
  split; [exact V|].
  assert (PA : forall j, (j < C)%nat -> 0 < average rows j <= 1).
  { intros j J. assert (K : forall r, In r rows -> 0 < prob 1 r j <= 1) by (intros r I; apply prob_range; rewrite (F r I); exact J).
    unfold average. split.
    - apply Rdiv_lt_0_compat; [|exact N]. apply rsum_pos; [destruct rows; [congruence|discriminate]|]. apply Forall_forall.
      intros x I. apply in_map_iff in I as (r & <- & I). apply K. exact I.
    - apply (Rmult_le_reg_r (INR (length rows))); [exact N|]. unfold Rdiv. rewrite Rmult_assoc, Rinv_l by lra.
      rewrite Rmult_1_r, Rmult_1_l. rewrite <- (Rmult_1_r (INR (length rows))). rewrite <- rsum_const. apply rsum_le. intros r I. apply K. exact I. }
  assert (SA : rsum (map (average rows) (seq 0 C)) = 1).
  { assert (X : forall l : list (list R), (forall r, In r l -> length r = C) -> rsum (map (fun j => rsum (map (fun r => prob 1 r j) l)) (seq 0 C)) = INR (length l)).
    { induction l as [|r l IH]; intros H.
      - cbn [map length]. unfold rsum at 2. cbn [fold_right]. rewrite rsum_const. cbn. lra.
      - cbn [map]. erewrite map_ext; [|intros j; rewrite rsum_cons; reflexivity]. rewrite rsum_map_plus.
        rewrite IH by (intros x I; apply H; right; exact I). cbn [length]. rewrite S_INR.
        assert (Lr : length r = C) by (apply H; left; reflexivity).
        pose proof (prob_sum r) as PS. rewrite Lr in PS. change (fun a : nat => prob 1 r a) with (prob 1 r). rewrite PS; [lra|]. intros ->. cbn in Lr. lia. }
    unfold average. unfold Rdiv. erewrite map_ext; [|intros j; rewrite Rmult_comm; reflexivity]. rewrite rsum_map_scale, X by exact F. field. lra. }
  assert (L10 : 0 < ln 10) by (rewrite <- ln_1; apply ln_increasing; lra).
  assert (CC : 0 < INR C) by (apply lt_0_INR; exact PC).
  set (p := map (average rows) (seq 0 C)). set (q := map (fun _ : nat => / INR C) (seq 0 C)).
  assert (G : 0 <= kl p q /\ (kl p q = 0 <-> p = q)).
  { apply gibbs.
    - apply Forall_forall. intros x I. apply in_map_iff in I as (j & <- & J). apply in_seq in J. apply PA. lia.
    - apply Forall_forall. intros x I. apply in_map_iff in I as (j & <- & J). apply Rinv_0_lt_compat. exact CC.
    - unfold p, q. rewrite !map_length. reflexivity.
    - unfold p, q. rewrite SA, rsum_const, seq_length. field. lra. }
  assert (KV : kl p q = ln 10 * entropy_loss C rows + ln (INR C)).
  { unfold kl, p, q. rewrite zipw_map. rewrite V. rewrite <- rsum_map_scale.
    assert (X : ln (INR C) = rsum (map (fun j => ln (INR C) * average rows j) (seq 0 C))) by (rewrite rsum_map_scale, SA; ring).
    rewrite X at 1. rewrite <- rsum_map_plus.
    assert (Y : forall (h : nat -> nat -> R) l, zipw h l l = map (fun j => h j j) l).
    { intros h. induction l as [|a l IH]; [reflexivity|]. rewrite zipw_cons, IH. reflexivity. }
    rewrite Y. f_equal. apply map_ext. intros j. rewrite ln_Rinv by exact CC. field. lra. }
  destruct G as [G1 G2]. rewrite KV in G1, G2.
  assert (D : - (ln (INR C) / ln 10) * ln 10 = - ln (INR C)) by (field; lra).
  split; [split|].
  - apply (Rmult_le_reg_r (ln 10)); [exact L10|]. lra.
  - rewrite V. assert (X : 0 <= rsum (map (fun j => - (average rows j * (ln (average rows j) / ln 10))) (seq 0 C))).
    { apply rsum_nonneg. apply Forall_forall. intros x I. apply in_map_iff in I as (j & <- & J). apply in_seq in J.
      destruct (PA j) as [P1 P2]; [lia|].
      assert (ln (average rows j) <= 0) by (rewrite <- ln_1; destruct P2 as [P2|P2]; [left; apply ln_increasing; auto|rewrite P2; lra]).
      assert (ln (average rows j) / ln 10 <= 0); [|nra]. unfold Rdiv. assert (0 < / ln 10) by (apply Rinv_0_lt_compat; exact L10). nra. }
    assert (Y : forall l, rsum (map (fun j => - (average rows j * (ln (average rows j) / ln 10))) l) = - rsum (map (fun j => average rows j * (ln (average rows j) / ln 10)) l)).
    { induction l as [|a l IH]; [unfold rsum; cbn; lra|]. cbn [map]. rewrite !rsum_cons, IH. lra. }
    rewrite Y in X. lra.
  - split.
    + intros X. assert (K : p = q) by (apply G2; rewrite X; lra). unfold p, q in K. intros j J.
      assert (I : In j (seq 0 C)) by (apply in_seq; lia). revert K I. clear. generalize (seq 0 C) as l.
      induction l as [|a l IH]; intros K I; [destruct I|]. cbn [map] in K. injection K as K1 K2. destruct I as [<-|I]; [exact K1|apply IH; assumption].
    + intros X. assert (K : p = q) by (unfold p, q; apply map_ext_in; intros j J; apply in_seq in J; apply X; lia).
      apply G2 in K. apply (Rmult_eq_reg_r (ln 10)); [|lra]. lra.
Qed.
Print Assumptions C89_entropy.
(** Two samples, each sure of a different class to the same degree: balanced on average. *)
Example C89_entropy_case : entropy_loss 2 [[0; ln 3]; [ln 3; 0]] = - (ln (INR 2) / ln 10).
Proof.
  apply (C89_entropy 2).
  - split; [discriminate|]. split; [lia|]. repeat constructor.
  - intros [|[|j]] J; try lia; unfold average, prob; cbn; unfold rsum; cbn; unfold Rdiv;
      rewrite !Rinv_1, !Rmult_1_r, !exp_0, !exp_ln by lra; field.
Qed.
