(** C85 (KLDivergence) and C86 (ChannelWiseDivergence). *)
From Verif Require Import Prelude Loss_Model Loss_Lemmas.
From Coq Require Import Reals Lra.
Open Scope R_scope.

(** * Specification *)
(** Probability of class [i] for the logits [r] at temperature [tau]. *)
Definition prob (tau : R) (r : list R) (i : nat) : R :=
  exp (nth i r 0 / tau) / rsum (map (fun x => exp (x / tau)) r).
(** Divergence of the student's from the teacher's distribution. *)
Definition divergence (tau : R) (s t : list R) : R :=
  rsum (map (fun i => prob tau t i * ln (prob tau t i / prob tau s i)) (seq 0 (length t))).
Definition same_shape (S T : batch) : Prop := Forall2 (Forall2 (fun s t => length s = length t)) S T.
(** The logits of every row differ by one constant per row. *)
Definition equivalent (S T : batch) : Prop :=
  Forall2 (Forall2 (fun s t => exists c, s = map (fun x => x + c) t)) S T.
Definition numel (S : batch) : nat := length (concat (concat S)).

Lemma prob_softmax tau r i : (i < length r)%nat -> nth i (softmax (divide tau r)) 0 = prob tau r i.
Proof.
  intros H. unfold softmax, divide, prob. rewrite !map_map.
  set (f := fun x => exp (x / tau) / rsum (map (fun x => exp (x / tau)) r)).
  rewrite (nth_indep _ 0 (f 0)) by (rewrite map_length; auto).
  rewrite (map_nth f). reflexivity.
Qed.
Lemma kl_as_sum : forall p q, length p = length q -> Forall (Rlt 0) p -> Forall (Rlt 0) q ->
  kl p q = rsum (map (fun i => nth i p 0 * ln (nth i p 0 / nth i q 0)) (seq 0 (length p))).
Proof.
  unfold kl. induction p as [|a p IH]; intros [|b q] L P Q; try discriminate; [reflexivity|].
  inversion P; inversion Q; subst. rewrite zipw_cons, rsum_cons. cbn [length seq map]. rewrite rsum_cons.
  rewrite <- seq_shift, map_map. cbn [nth]. rewrite IH by auto.
  assert (E : ln a - ln b = ln (a / b)).
  { unfold Rdiv. rewrite ln_mult; [rewrite ln_Rinv; auto|auto|apply Rinv_0_lt_compat; auto]. }
  rewrite E. reflexivity.
Qed.
Lemma kl_divergence tau s t : length s = length t ->
  kl (softmax (divide tau t)) (softmax (divide tau s)) = divergence tau s t.
Proof.
  intros L. rewrite kl_as_sum; auto using softmax_pos.
  - unfold divergence. rewrite softmax_length, divide_length. f_equal. apply map_ext_in. intros i I.
    apply in_seq in I. rewrite !prob_softmax by lia. reflexivity.
  - rewrite !softmax_length, !divide_length. auto.
Qed.
Lemma divergence_facts tau s t : tau <> 0 -> length s = length t ->
  0 <= divergence tau s t /\ (divergence tau s t = 0 <-> exists c, s = map (fun x => x + c) t).
Proof.
  intros T L. rewrite <- kl_divergence by auto.
  destruct (kl_softmax (divide tau s) (divide tau t)) as [A B]; [rewrite !divide_length; auto|].
  split; [exact A|]. rewrite B. apply shifted_divide. exact T.
Qed.

(** All divergences of a batch. *)
Definition divergences (tau : R) (S T : batch) : list R :=
  concat (zipw (zipw (divergence tau)) S T).
Lemma entries_sum tau (S T : batch) : same_shape S T ->
  rsum (entries (map (map (fun r => log_softmax (divide tau r))) S) (map (map (fun r => softmax (divide tau r))) T))
  = rsum (divergences tau S T).
Proof.
  unfold entries, divergences. intros H. rewrite zipw_map.
  induction H as [|a b S T H _ IH]; [reflexivity|].
  rewrite !zipw_cons. cbn [concat]. rewrite concat_app, !rsum_app, IH. f_equal.
  rewrite zipw_map. clear - H. induction H as [|s t a b L _ IH]; [reflexivity|].
  rewrite !zipw_cons. cbn [concat]. rewrite rsum_app, rsum_cons, IH. f_equal.
  rewrite kl_row by (rewrite !divide_length; auto). apply kl_divergence. exact L.
Qed.
Lemma entries_length tau (S T : batch) : same_shape S T ->
  length (entries (map (map (fun r => log_softmax (divide tau r))) S) (map (map (fun r => softmax (divide tau r))) T))
  = numel S.
Proof.
  unfold entries, numel. intros H. rewrite zipw_map.
  induction H as [|a b S T H _ IH]; [reflexivity|].
  rewrite !zipw_cons. cbn [concat]. rewrite !concat_app, !app_length, IH. f_equal.
  rewrite zipw_map. clear - H. induction H as [|s t a b L _ IH]; [reflexivity|].
  rewrite !zipw_cons. cbn [concat]. rewrite !app_length, IH. f_equal.
  rewrite zipw_length; unfold log_softmax, softmax, divide; rewrite !map_length; auto.
Qed.
Lemma scale_twice a b x : scale a (scale b (Scalar x)) = Scalar (a * (b * x)).
Proof. reflexivity. Qed.

(** Value of the loss for each reduction: [tau]^2 times the weight times the sum of the
    teacher-to-student divergences, undivided, per sample, or per entry. *)
Theorem C85_value :
  forall tau w S T, same_shape S T -> S <> [] ->
    let D := rsum (divergences tau S T) in
    kl_loss tau RSum w S T = Scalar (w * (tau * tau * D)) /\
    kl_loss tau RBatchmean w S T = Scalar (w * (tau * tau * (D / INR (length S)))) /\
    kl_loss tau RMean w S T = Scalar (w * (tau * tau * (D / INR (numel S)))) /\
    exists l, kl_loss tau RNone w S T = Elems l /\ length l = numel S /\ rsum l = w * (tau * tau * D).
Proof.
  intros tau w S T H NE D. unfold kl_loss, kl_div.
  pose proof (entries_sum tau S T H) as E1. pose proof (entries_length tau S T H) as E2.
  set (es := entries _ _) in *.
  split; [|split; [|split]].
  - rewrite scale_twice, E1. reflexivity.
  - destruct S as [|x S]; [congruence|]. cbn [map]. cbn [scale]. rewrite E1. unfold rlen. rewrite !map_length || idtac.
    cbn [length]. rewrite map_length. f_equal. unfold Rdiv. fold D. ring.
  - rewrite scale_twice. unfold rmean, rlen. rewrite E1, E2. reflexivity.
  - eexists. split; [reflexivity|]. rewrite !map_length. split; [exact E2|].
    rewrite !rsum_scale, E1. fold D. ring.
Qed.
Print Assumptions C85_value.

Lemma divergences_zero tau S T : tau <> 0 -> same_shape S T ->
  0 <= rsum (divergences tau S T) /\ (rsum (divergences tau S T) = 0 <-> equivalent S T).
Proof.
  intros TAU H.
  assert (NN : Forall (Rle 0) (divergences tau S T)).
  { unfold divergences. induction H as [|a b S T H _ IH]; [constructor|]. rewrite zipw_cons. cbn [concat].
    apply Forall_app. split; [|exact IH]. clear - H TAU. induction H as [|s t a b L _ IH]; [constructor|].
    rewrite zipw_cons. constructor; [|exact IH]. apply divergence_facts; auto. }
  split; [apply rsum_nonneg; exact NN|].
  assert (Z : rsum (divergences tau S T) = 0 <-> Forall (fun x => x = 0) (divergences tau S T)).
  { split; [apply rsum_zero; exact NN|apply rsum_all_zero]. }
  rewrite Z. clear NN Z. unfold divergences, equivalent.
  induction H as [|a b S T H _ IH].
  - split; constructor.
  - rewrite zipw_cons. cbn [concat]. rewrite Forall_app, IH. clear IH.
    assert (R : Forall (fun x => x = 0) (zipw (divergence tau) a b) <->
                Forall2 (fun s t => exists c, s = map (fun x => x + c) t) a b).
    { clear - H TAU. induction H as [|s t a b L _ IH]; [split; constructor|].
      rewrite zipw_cons. destruct (divergence_facts tau s t TAU L) as [_ F]. split.
      - intros G. inversion G; subst. constructor; [apply F; auto|apply IH; auto].
      - intros G. inversion G; subst. constructor; [apply F; auto|apply IH; auto]. }
    rewrite R. split; [intros [A B]; constructor; auto|intros G; inversion G; auto].
Qed.

(** With a non-zero temperature and a positive weight the reduced loss is never negative,
    and it is 0 exactly when the student's logits are the teacher's up to a constant per row. *)
Theorem C85_minimum :
  forall tau red w S T, same_shape S T -> (0 < numel S)%nat -> tau <> 0 -> 0 < w -> red <> RNone ->
    exists x, kl_loss tau red w S T = Scalar x /\ 0 <= x /\ (x = 0 <-> equivalent S T).
Proof.
  intros tau red w S T H NE TAU W RED.
  assert (NS : S <> []) by (intros ->; cbn in NE; lia).
  destruct (C85_value tau w S T H NS) as (V1 & V2 & V3 & _).
  destruct (divergences_zero tau S T TAU H) as [D0 DZ].
  assert (NN : 0 < INR (length S)) by (apply lt_0_INR; destruct S; [congruence|cbn; lia]).
  assert (NM : 0 < INR (numel S)) by (apply lt_0_INR; auto).
  assert (T2 : 0 < tau * tau) by nra.
  assert (K : forall c, 0 < c -> let x := w * (tau * tau * (rsum (divergences tau S T) * c)) in
              0 <= x /\ (x = 0 <-> rsum (divergences tau S T) = 0)).
  { intros c Hc x. assert (E : x = (w * (tau * tau) * c) * rsum (divergences tau S T)) by (unfold x; ring).
    assert (P : 0 < w * (tau * tau) * c) by (apply Rmult_lt_0_compat; [apply Rmult_lt_0_compat|]; auto).
    rewrite E. split; [apply Rmult_le_pos; lra|]. split; intros G; [|rewrite G; ring].
    apply Rmult_integral in G. destruct G; [lra|auto]. }
  destruct red; [congruence| | |].
  - eexists. split; [exact V2|]. destruct (K (/ INR (length S))) as [K1 K2]; [apply Rinv_0_lt_compat; auto|].
    unfold Rdiv. split; [exact K1|]. rewrite K2. exact DZ.
  - eexists. split; [exact V1|]. destruct (K 1) as [K1 K2]; [lra|]. rewrite Rmult_1_r in K1, K2.
    split; [exact K1|]. rewrite K2. exact DZ.
  - eexists. split; [exact V3|]. destruct (K (/ INR (numel S))) as [K1 K2]; [apply Rinv_0_lt_compat; auto|].
    unfold Rdiv. split; [exact K1|]. rewrite K2. exact DZ.
Qed.
Print Assumptions C85_minimum.
Example C85_minimum_case :
  exists x, kl_loss 2 RBatchmean 3 [[[1; 2]]; [[0; 5]]] [[[4; 5]]; [[0; 0]]] = Scalar x /\ 0 < x.
Proof.
  destruct (C85_minimum 2 RBatchmean 3 [[[1; 2]]; [[0; 5]]] [[[4; 5]]; [[0; 0]]]) as (x & E & P & Z).
  - repeat constructor.
  - cbn. lia.
  - lra.
  - lra.
  - discriminate.
  - exists x. split; [exact E|]. destruct P as [P|P]; [exact P|]. exfalso. symmetry in P. apply Z in P.
    inversion P as [|? ? ? ? _ Q]; subst. inversion Q as [|? ? ? ? Q' _]; subst. inversion Q' as [|? ? ? ? [c Ec] _]; subst.
    inversion Ec. lra.
Qed.
Example C85_value_case :
  let s := [0; 0] in let t := [0; ln 3] in
  kl_loss 1 RSum 1 [[s]] [[t]] = Scalar (/4 * ln (/4 / /2) + 3 * /4 * ln (3 * /4 / /2)).
Proof.
  intros s t. destruct (C85_value 1 1 [[s]] [[t]]) as (V & _); [repeat constructor|discriminate|].
  rewrite V. f_equal. unfold divergences, zipw, s, t, divergence, prob. cbn.
  unfold rsum. cbn. rewrite !Rdiv_1_r || idtac. unfold Rdiv. rewrite !Rinv_1, !Rmult_1_r, exp_0, exp_ln by lra.
  replace (1 + (3 + 0)) with 4 by lra. replace (1 + (1 + 0)) with 2 by lra. rewrite !Rmult_1_l. ring.
Qed.

(** Multiplying all logits and the temperature by one factor multiplies the loss by its
    square. *)
Theorem C85_temperature :
  forall k tau red w S T, same_shape S T -> S <> [] -> k <> 0 -> tau <> 0 -> red <> RNone ->
    kl_loss (k * tau) red w (map (map (map (Rmult k))) S) (map (map (map (Rmult k))) T)
    = scale (k * k) (kl_loss tau red w S T).
Proof.
  intros k tau red w S T H NE K TAU RED.
  assert (E : forall r, divide (k * tau) (map (Rmult k) r) = divide tau r).
  { intros r. unfold divide. rewrite map_map. apply map_ext. intros x. field. auto. }
  assert (EM : forall (f : list R -> list R) B, map (map (fun r => f (divide (k * tau) r))) (map (map (map (Rmult k))) B)
                       = map (map (fun r => f (divide tau r))) B).
  { intros f B. rewrite map_map. apply map_ext. intros b. rewrite map_map. apply map_ext. intros r. rewrite E. reflexivity. }
  unfold kl_loss. rewrite !EM. destruct red; [congruence| | |]; unfold kl_div; cbn [scale];
    try (f_equal; ring).
  destruct (map (map (fun r => log_softmax (divide tau r))) S); cbn [scale]; f_equal; ring.
Qed.
Print Assumptions C85_temperature.
Example C85_temperature_case :
  kl_loss (2 * 1) RSum 1 [[[2 * 1; 2 * 3]]] [[[2 * 0; 2 * 4]]] = scale (2 * 2) (kl_loss 1 RSum 1 [[[1; 3]]] [[[0; 4]]]).
Proof. apply (C85_temperature 2 1 RSum 1 [[[1; 3]]] [[[0; 4]]]); try lra; try discriminate. repeat constructor. Qed.

(** * C86 *)
Lemma cwd_row tau s t : length s = length t ->
  rsum (zipw Rminus (zipw Rmult (softmax (divide tau t)) (log_softmax (divide tau t)))
                    (zipw Rmult (softmax (divide tau t)) (log_softmax (divide tau s)))) = divergence tau s t.
Proof.
  intros L. rewrite <- kl_divergence by exact L. rewrite !ln_softmax. unfold kl.
  assert (LL : length (softmax (divide tau t)) = length (softmax (divide tau s))) by (rewrite !softmax_length, !divide_length; auto).
  revert LL. generalize (softmax (divide tau t)) (softmax (divide tau s)). clear.
  induction l as [|a l IH]; intros [|b m] L; try discriminate; [reflexivity|].
  cbn [map]. rewrite !zipw_cons, !rsum_cons, IH by auto. ring.
Qed.
Theorem C86_value :
  forall tau w N C S T, Forall2 (fun s t => length s = length t) S T ->
    cwd_loss tau w N C S T = w * (tau * tau * rsum (zipw (divergence tau) S T)) / (INR C * INR N).
Proof.
  intros tau w N C S T H. unfold cwd_loss. f_equal. f_equal. rewrite Rmult_comm. f_equal. f_equal.
  induction H as [|s t S T L _ IH]; [reflexivity|]. rewrite !zipw_cons, IH. f_equal. apply cwd_row. exact L.
Qed.
(** For a batch of [N] samples with [C] channels each: the loss is never negative and is 0
    exactly when every student map is the teacher map of that channel plus a constant. *)
Theorem C86_minimum :
  forall tau w N C S T, Forall2 (fun s t => length s = length t) S T -> tau <> 0 -> 0 < w ->
    (0 < N)%nat -> (0 < C)%nat ->
    0 <= cwd_loss tau w N C S T /\
    (cwd_loss tau w N C S T = 0 <-> Forall2 (fun s t => exists c, s = map (fun x => x + c) t) S T).
Proof.
  intros tau w N C S T H TAU W HN HC. rewrite C86_value by exact H.
  assert (X : same_shape [S] [T]) by (constructor; [exact H|constructor]).
  destruct (divergences_zero tau [S] [T] TAU X) as [D0 DZ].
  assert (E : rsum (divergences tau [S] [T]) = rsum (zipw (divergence tau) S T)).
  { unfold divergences. change (zipw (zipw (divergence tau)) [S] [T]) with [zipw (divergence tau) S T].
    cbn [concat]. rewrite app_nil_r. reflexivity. }
  rewrite E in D0, DZ.
  assert (EQ : equivalent [S] [T] <-> Forall2 (fun s t => exists c, s = map (fun x => x + c) t) S T).
  { split; [intros G; inversion G; auto|intros G; constructor; [exact G|constructor]]. }
  rewrite EQ in DZ. clear E EQ X.
  assert (P : 0 < INR C * INR N) by (apply Rmult_lt_0_compat; apply lt_0_INR; auto).
  set (D := rsum _) in *.
  assert (F : w * (tau * tau * D) / (INR C * INR N) = (w * (tau * tau) * / (INR C * INR N)) * D) by (unfold Rdiv; ring).
  assert (T2 : 0 < tau * tau) by nra.
  assert (Q : 0 < w * (tau * tau) * / (INR C * INR N)).
  { apply Rmult_lt_0_compat; [apply Rmult_lt_0_compat; auto|apply Rinv_0_lt_compat; auto]. }
  rewrite F. split; [apply Rmult_le_pos; lra|]. rewrite <- DZ. split; intros G; [|rewrite G; ring].
  apply Rmult_integral in G. destruct G; [lra|auto].
Qed.
Print Assumptions C86_value.
Print Assumptions C86_minimum.
(** Two channels: the first shifted by a constant, the second not. *)
Example C86_minimum_case :
  0 < cwd_loss 4 1 1 2 [[1; 2]; [0; 1]] [[3; 4]; [0; 0]] /\ cwd_loss 4 1 1 2 [[1; 2]; [0; 1]] [[3; 4]; [5; 6]] = 0.
Proof.
  destruct (C86_minimum 4 1 1 2 [[1; 2]; [0; 1]] [[3; 4]; [0; 0]]) as [P Z]; try lra; try lia; [repeat constructor|].
  destruct (C86_minimum 4 1 1 2 [[1; 2]; [0; 1]] [[3; 4]; [5; 6]]) as [_ Z']; try lra; try lia; [repeat constructor|].
  split.
  - destruct P as [P|P]; [exact P|]. exfalso. symmetry in P. apply Z in P.
    inversion P as [|? ? ? ? _ Q]; subst. inversion Q as [|? ? ? ? [c Ec] _]; subst. inversion Ec. lra.
  - apply Z'. constructor; [exists (-2); cbn; repeat f_equal; lra|]. constructor; [exists (-5); cbn; repeat f_equal; lra|constructor].
Qed.
