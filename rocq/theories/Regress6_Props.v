(** C96: CrossEntropyLoss, KDSoftCELoss, ActivationLoss and FBKDLoss. *)
From Verif Require Import Prelude Loss_Model Loss_Lemmas Loss_Props Loss2_Props Loss3_Props Regress_Model Regress_Lemmas Regress_Props.
From Coq Require Import Reals Lra.
Open Scope R_scope.

(** Mean of [f] over the corresponding rows of two batches. *)
Definition batch_mean (f : list R -> list R -> R) (S T : list (list R)) : R := rsum (zipw f S T) / INR (length S).
(** Rows of one length, at least one class. *)
Definition logits (S T : list (list R)) : Prop := Forall2 (fun s t => length s = length t /\ s <> []) S T.
(** [g] is the first class with the largest logit. *)
Definition top_class (t : list R) (g : nat) : Prop :=
  (g < length t)%nat /\ (forall j, (j < length t)%nat -> nth j t 0 <= nth g t 0) /\ (forall j, (j < g)%nat -> nth j t 0 < nth g t 0).

Lemma argmax_first : forall l i best at_, (at_ < i)%nat ->
  let g := argmax_from i best at_ l in
  (g = at_ /\ (forall j, (j < length l)%nat -> nth j l 0 <= best)) \/
  (exists k, g = (i + k)%nat /\ (k < length l)%nat /\ best < nth k l 0 /\
     (forall j, (j < length l)%nat -> nth j l 0 <= nth k l 0) /\ (forall j, (j < k)%nat -> nth j l 0 < nth k l 0)).
Proof.
  induction l as [|x l IH]; intros i best at_ H; cbn [argmax_from].
  - left. split; auto. intros j J. cbn in J. lia.
  - destruct (Rlt_dec best x) as [B|B].
    + right. destruct (IH (S i) x i ltac:(lia)) as [[E F]|(k & E & K & G & M & N)].
      * exists 0%nat. cbn [nth length]. repeat split; auto; try lia.
        -- intros [|j] J; [lra|]. apply F. lia.
      * exists (S k). cbn [nth length]. repeat split; auto; try lia; try lra.
        -- intros [|j] J; [lra|]. apply M. lia.
        -- intros [|j] J; [lra|]. apply N. lia.
    + destruct (IH (S i) best at_ ltac:(lia)) as [[E F]|(k & E & K & G & M & N)].
      * left. split; auto. intros [|j] J; [cbn; lra|]. cbn. apply F. cbn in J. lia.
      * right. exists (S k). cbn [nth length]. repeat split; auto; try lia.
        -- intros [|j] J; [lra|]. apply M. lia.
        -- intros [|j] J; [lra|]. apply N. lia.
Qed.
Lemma argmax_top t : t <> [] -> top_class t (argmax t).
Proof.
  destruct t as [|x t]; [congruence|]. intros _. unfold argmax, top_class. cbn [length].
  destruct (argmax_first t 1 x 0 ltac:(lia)) as [[E F]|(k & E & K & G & M & N)]; rewrite E.
  - repeat split; try lia. intros [|j] J; [cbn; lra|]. cbn. apply F. lia.
  - cbn [Nat.add nth]. repeat split; try lia.
    + intros [|j] J; [lra|]. apply M. lia.
    + intros [|j] J; [lra|]. apply N. lia.
Qed.
(** The teacher's prediction is used as a hard label: first class of largest logit. *)
Theorem C96_ce (w : R) (S T : list (list R)) (G : list nat) : S <> [] -> logits S T -> Forall2 top_class T G ->
  ce_loss w S T = w * (rsum (zipw (fun s g => - ln (prob 1 s g)) S G) / INR (length S)) /\ (0 <= w -> 0 <= ce_loss w S T).
Proof.
  intros N L TC.
  assert (E : zipw (fun s t => - nth (argmax t) (log_softmax s) 0) S T = zipw (fun s g => - ln (prob 1 s g)) S G).
  { clear N. revert G TC. induction L as [|s t S T [LS NS] L IH]; intros G TC; [reflexivity|]. inversion TC; subst.
    rewrite !zipw_cons, (IH l') by auto. f_equal.
    assert (TT : t <> []) by (destruct s, t; try discriminate; congruence).
    assert (EG : argmax t = y).
    { destruct (argmax_top t TT) as (A1 & A2 & A3). destruct H1 as (B1 & B2 & B3).
      destruct (Nat.lt_trichotomy (argmax t) y) as [H|[H|H]]; auto; exfalso.
      - specialize (B3 _ H). specialize (A2 _ B1). lra.
      - specialize (A3 _ H). specialize (B2 _ A1). lra. }
    rewrite EG. destruct H1 as (B1 & _). f_equal. rewrite ln_softmax, <- prob1 by lia.
    rewrite (nth_indep _ 0 (ln 0)) by (rewrite map_length, softmax_length; lia). apply map_nth. }
  unfold ce_loss, rmean. rewrite E.
  assert (LN : length (zipw (fun s g => - ln (prob 1 s g)) S G) = length S).
  { apply zipw_length. rewrite (Forall2_len _ _ _ L). apply (Forall2_len _ _ _ TC). }
  unfold rlen. rewrite LN. split; [ring|]. intros W. apply Rmult_le_pos; auto.
  apply Rmult_le_pos; [|apply Rlt_le, Rinv_0_lt_compat; apply (rlen_pos S N)].
  apply rsum_zipw_nonneg. intros s g I.
  assert (LG : (g < length s)%nat).
  { clear - I L TC. revert G TC I. induction L as [|a b S T [LS NS] L IH]; intros G TC I; [destruct I|].
    inversion TC; subst. destruct I as [I|I]; [|eapply IH; eauto]. injection I as -> ->. destruct H1 as [H1 _]. lia. }
  pose proof (nll_range s g LG) as [H _]. exact H.
Qed.
Lemma soft_ce_split tau s t : length s = length t -> soft_ce tau s t = divergence tau s t + soft_ce tau t t.
Proof.
  intros L. unfold soft_ce, divergence.
  assert (E : forall l, (forall i, In i l -> (i < length t)%nat) ->
    - rsum (map (fun i => prob tau t i * ln (prob tau s i)) l)
    = rsum (map (fun i => prob tau t i * ln (prob tau t i / prob tau s i)) l) + - rsum (map (fun i => prob tau t i * ln (prob tau t i)) l)).
  { induction l as [|i l IH]; intros H; [cbn; ring|]. cbn [map]. rewrite !rsum_cons.
    pose proof (IH (fun j J => H j (or_intror J))). pose proof (H i (or_introl eq_refl)) as I.
    rewrite ln_ratio by (apply prob_range; lia). lra. }
  apply E. intros i I. apply in_seq in I. lia.
Qed.
Lemma soft_row tau s t : length s = length t ->
  rsum (zipw (fun p q => - p * q) (softmax (divide tau t)) (log_softmax (divide tau s))) = soft_ce tau s t.
Proof.
  intros L. rewrite <- soft_ce_spec by auto. unfold wsld_ce.
  generalize (softmax (divide tau t)) (log_softmax (divide tau s)). induction l as [|a l IH]; intros [|b m]; try (cbn; ring).
  rewrite !zipw_cons, !rsum_cons, IH. ring.
Qed.
(** Soft labels: the mean cross entropy, times tau^2 when asked for; no student does better than
    one whose distribution is the teacher's. *)
Theorem C96_soft_ce (tau w : R) (mult : bool) (S T : list (list R)) : S <> [] -> logits S T -> 0 < w -> tau <> 0 ->
  soft_ce_loss tau w mult S T = w * (if mult then tau * tau else 1) * batch_mean (soft_ce tau) S T /\
  soft_ce_loss tau w mult T T <= soft_ce_loss tau w mult S T /\
  (soft_ce_loss tau w mult S T = soft_ce_loss tau w mult T T <->
   Forall2 (fun s t => exists c, s = map (fun x => x + c) t) S T).
Proof.
  intros N L W TT.
  assert (V : forall S T, logits S T -> soft_ce_loss tau w mult S T = w * (if mult then tau * tau else 1) * batch_mean (soft_ce tau) S T).
  { intros A B H. unfold soft_ce_loss, batch_mean, rmean.
    rewrite (zipw_ext _ (soft_ce tau)).
    - unfold rlen. rewrite zipw_length by (apply (Forall2_len _ _ _ H)). destruct mult; ring.
    - intros s t I. apply soft_row. apply (proj2 (combine_Forall2 (fun s t => length s = length t /\ s <> []) A B (Forall2_len _ _ _ H)) H s t I). }
  assert (LT : logits T T).
  { clear - L. induction L as [|s t S T [A B] _ IH]; constructor; auto. split; auto. destruct s, t; try discriminate; congruence. }
  rewrite (V S T L), (V T T LT). split; [reflexivity|].
  set (k := w * (if mult then tau * tau else 1)).
  assert (K : 0 < k) by (unfold k; apply Rmult_lt_0_compat; auto; destruct mult; [nra|lra]).
  assert (NL : 0 < INR (length S)) by (apply (rlen_pos S N)).
  assert (D : batch_mean (soft_ce tau) S T = batch_mean (divergence tau) S T + batch_mean (soft_ce tau) T T).
  { unfold batch_mean. rewrite <- (Forall2_len _ _ _ L). clear N NL V LT K k.
    rewrite <- Rdiv_plus_distr. f_equal. induction L as [|s t S T [A B] _ IH]; [cbn; ring|].
    rewrite !zipw_cons, !rsum_cons, IH, soft_ce_split by auto. ring. }
  assert (P : 0 <= rsum (zipw (divergence tau) S T) /\
    (rsum (zipw (divergence tau) S T) = 0 <-> Forall2 (fun s t => exists c, s = map (fun x => x + c) t) S T)).
  { assert (DF : forall s t, In (s, t) (combine S T) -> 0 <= divergence tau s t /\ (divergence tau s t = 0 <-> exists c, s = map (fun x => x + c) t)).
    { intros s t I. apply divergence_facts; auto.
      apply (proj2 (combine_Forall2 (fun s t => length s = length t /\ s <> []) S T (Forall2_len _ _ _ L)) L s t I). }
    split; [apply rsum_zipw_nonneg; intros s t I; apply (DF s t I)|].
    rewrite <- combine_Forall2 by (apply (Forall2_len _ _ _ L)).
    rewrite (rsum_zipw_zero (divergence tau) S T (fun s t I => proj1 (DF s t I))).
    split; intros H s t I; apply (DF s t I); apply H; auto. }
  destruct P as [P Q]. rewrite D. unfold batch_mean in *. set (x := rsum (zipw (divergence tau) S T)) in *. split.
  - apply Rmult_le_compat_l; [lra|]. assert (0 <= x / INR (length S)); [|lra].
    apply Rmult_le_pos; auto. apply Rlt_le, Rinv_0_lt_compat. auto.
  - rewrite <- Q. split.
    + intros E. apply Rmult_eq_reg_l in E; [|lra]. assert (Z : x / INR (length S) = 0) by lra.
      destruct (Rmult_integral _ _ Z) as [Z1|Z1]; auto. exfalso. revert Z1. apply Rinv_neq_0_compat. lra.
    + intros ->. f_equal. unfold Rdiv. ring.
Qed.
Example C96_ce_case : ce_loss 2 [[0; 0]; [0; 0]] [[1; 5]; [3; 3]] = 2 * ((- ln (1 / 2) + - ln (1 / 2)) / 2) /\
  soft_ce_loss 2 1 true [[1; 3]] [[0; 2]] = soft_ce_loss 2 1 true [[0; 2]] [[0; 2]].
Proof.
  split.
  - destruct (C96_ce 2 [[0; 0]; [0; 0]] [[1; 5]; [3; 3]] [1; 0]%nat) as [E _].
    + discriminate.
    + repeat constructor; discriminate.
    + constructor; [|constructor; [|constructor]]; (split; [cbn; lia|split; intros [|[|j]] J; cbn in *; try lra; lia]).
    + rewrite E. unfold zipw, rsum. cbn. unfold prob, rsum. cbn. replace (0 / 1) with 0 by field. rewrite exp_0.
      replace (1 / (1 + (1 + 0))) with (1 / 2) by field. field.
  - apply C96_soft_ce; [discriminate|repeat constructor; discriminate|lra|lra|].
    repeat constructor. exists 1. cbn. repeat f_equal; lra.
Qed.

(** Activation: minus the mean absolute value, or minus the norm; 0 only without any activation. *)
Theorem C96_activation (norm : bool) (w : R) (f : list (list R)) : 0 < w -> concat f <> [] ->
  activation_loss norm w f
  = - w * (if norm then sqrt (rsum (map (fun x => x * x) (concat f))) else rsum (map Rabs (concat f)) / INR (length (concat f))) /\
  activation_loss norm w f <= 0 /\ (activation_loss norm w f = 0 <-> Forall (Forall (fun x => x = 0)) f) /\
  forall k, 0 <= k -> activation_loss norm w (map (map (Rmult k)) f) = k * activation_loss norm w f.
Proof.
  intros W N. assert (NL : 0 < INR (length (concat f))) by (apply (rlen_pos _ N)).
  assert (V : activation_loss norm w f = - w * (if norm then sqrt (rsum (map (fun x => x * x) (concat f))) else rsum (map Rabs (concat f)) / INR (length (concat f)))).
  { unfold activation_loss, rmean, rlen, norm2. rewrite map_length. destruct norm; [change (map sq (concat f)) with (map (fun x => x * x) (concat f))|]; ring. }
  assert (CC : Forall (fun x => x = 0) (concat f) <-> Forall (Forall (fun x => x = 0)) f).
  { clear. induction f as [|r f IH]; [split; constructor|]. cbn. rewrite Forall_app, IH. split; [intros []; constructor; auto|intros H; inversion H; auto]. }
  assert (AP : 0 <= rsum (map Rabs (concat f)) /\ (rsum (map Rabs (concat f)) = 0 <-> Forall (fun x => x = 0) (concat f))).
  { assert (F : Forall (Rle 0) (map Rabs (concat f))).
    { apply Forall_forall. intros v I. apply in_map_iff in I. destruct I as (x & <- & _). apply Rabs_pos. }
    split; [apply rsum_nonneg; auto|]. split.
    - intros Z. apply rsum_zero in Z; auto. apply Forall_forall. intros x X. rewrite Forall_forall in Z.
      destruct (Req_dec x 0) as [|Y]; auto. apply Rabs_no_R0 in Y. exfalso. apply Y. apply Z. apply in_map. auto.
    - intros Z. apply rsum_all_zero. apply Forall_forall. intros v I. apply in_map_iff in I. destruct I as (x & <- & I).
      rewrite Forall_forall in Z. rewrite (Z x I). apply Rabs_R0. }
  split; [exact V|]. split; [|split].
  - rewrite V. assert (0 <= if norm then sqrt (rsum (map (fun x => x * x) (concat f))) else rsum (map Rabs (concat f)) / INR (length (concat f))); [|nra].
    destruct norm; [apply sqrt_pos|]. apply Rmult_le_pos; [apply AP|]. apply Rlt_le, Rinv_0_lt_compat. auto.
  - rewrite V, <- CC. destruct norm.
    + change (sqrt (rsum (map (fun x => x * x) (concat f)))) with (norm2 (concat f)). rewrite <- norm2_zero. split; [|intros ->; ring].
      intros E. destruct (Rmult_integral _ _ E); [lra|auto].
    + rewrite <- (proj2 AP). split; [|intros ->; unfold Rdiv; ring].
      intros E. destruct (Rmult_integral _ _ E) as [E1|E1]; [lra|]. destruct (Rmult_integral _ _ E1) as [E2|E2]; auto.
      exfalso. revert E2. apply Rinv_neq_0_compat. lra.
  - intros k K. unfold activation_loss. rewrite <- concat_map. destruct norm.
    + rewrite norm2_scale, Rabs_right by lra. ring.
    + unfold rmean, rlen. rewrite !map_length, map_map.
      rewrite (map_ext _ (fun x => k * Rabs x)) by (intros; rewrite Rabs_mult, Rabs_right by lra; reflexivity).
      rewrite rsum_map_scale. unfold Rdiv. ring.
Qed.
Example C96_activation_case : activation_loss false 2 [[1; -3]; [0; 4]] = -2 * (8 / 4) /\ activation_loss true 2 [[3; -4]] = -2 * 5.
Proof.
  split.
  - rewrite (proj1 (C96_activation false 2 [[1; -3]; [0; 4]] ltac:(lra) ltac:(discriminate))). unfold rsum. cbn.
    rewrite Rabs_R0, (Rabs_right 1), (Rabs_left (-3)), (Rabs_right 4) by lra. lra.
  - rewrite (proj1 (C96_activation true 2 [[3; -4]] ltac:(lra) ltac:(discriminate))). unfold rsum. cbn.
    replace (3 * 3 + (-4 * -4 + 0)) with (5 * 5) by ring. rewrite sqrt_square by lra. lra.
Qed.

(** * FBKD *)
(** Shapes: feature maps of equal sizes, one positive mask row per sample. *)
Definition fshape (C P : nat) (a : list (list (list R))) : Prop :=
  Forall (fun s => length s = C /\ Forall (fun ch => length ch = P) s) a.
Definition mask_ok (P : nat) (m : list (list R)) : Prop := Forall (fun r => length r = P /\ Forall (Rlt 0) r) m.
Lemma tdist_zero a b : length a = length b -> 0 <= tdist a b /\ (tdist a b = 0 <-> a = b).
Proof.
  intros L. unfold tdist. split; [apply sqrt_pos|].
  pose proof (rsum_zipw_nonneg (fun x y => sq (x - y)) a b (fun _ _ _ => sq_nonneg _)) as N.
  rewrite <- (dist_zero a b L). split; [intros H; apply sqrt_eq_0; auto|intros ->; apply sqrt_0].
Qed.
Lemma masked_row : forall x y m, length x = length y -> length m = length y -> Forall (Rlt 0) m ->
  0 <= rsum (zipw Rmult (zipw (fun p q => sq (p - q)) x y) m) /\
  (rsum (zipw Rmult (zipw (fun p q => sq (p - q)) x y) m) = 0 <-> x = y).
Proof.
  induction x as [|a x IH]; intros [|b y] [|c m] L M F; try discriminate; [cbn; split; [lra|split; auto]|].
  inversion F; subst. rewrite !zipw_cons, rsum_cons. destruct (IH y m) as [P Q]; auto.
  pose proof (sq_nonneg (a - b)). split; [nra|]. split.
  - intros E. assert (Z : sq (a - b) = 0) by nra. assert (Z2 : rsum (zipw Rmult (zipw (fun p q => sq (p - q)) x y) m) = 0) by nra.
    apply Q in Z2. apply (proj1 (sq_zero _)) in Z. subst. f_equal. lra.
  - intros E. injection E as -> ->. rewrite (proj2 Q) by auto. unfold sq. ring.
Qed.
Lemma mask_l2_zero C P : forall a b m, fshape C P a -> fshape C P b -> mask_ok P m -> length a = length b -> length m = length b ->
  0 <= mask_l2 a b m /\ (mask_l2 a b m = 0 <-> a = b).
Proof.
  intros a b m FA FB FM L M. unfold mask_l2. split; [apply sqrt_pos|].
  match goal with |- sqrt ?x = 0 <-> _ => assert (G : 0 <= x /\ (x = 0 <-> a = b)) end.
  2:{ destruct G as [G1 G2]. rewrite <- G2. split; [intros H; apply sqrt_eq_0; auto|intros ->; apply sqrt_0]. }
  revert b m FB FM L M. induction FA as [|s a [LS RS] _ IH]; intros [|t b] [|r m] FB FM L M; try discriminate; [cbn; split; [lra|split; auto]|].
  pose proof (Forall_inv FB) as [LT RT]. pose proof (Forall_inv_tail FB) as FB'.
  pose proof (Forall_inv FM) as [LR PR]. pose proof (Forall_inv_tail FM) as FM'.
  cbn [combine]. rewrite zipw_cons. cbn [concat fst snd]. rewrite map_app, rsum_app.
  destruct (IH b m) as [P1 P2]; auto.
  assert (G : 0 <= rsum (map rsum (zipw (fun x y => zipw Rmult (zipw (fun p q => sq (p - q)) x y) r) s t)) /\
    (rsum (map rsum (zipw (fun x y => zipw Rmult (zipw (fun p q => sq (p - q)) x y) r) s t)) = 0 <-> s = t)).
  { clear - LS LT RS RT LR PR. assert (L : length s = length t) by congruence. clear LS LT. revert t L RT.
    induction RS as [|x s LX _ IH]; intros [|y t] L RT; try discriminate; [cbn; split; [lra|split; auto]|].
    pose proof (Forall_inv RT) as LY. pose proof (Forall_inv_tail RT) as RT'.
    rewrite zipw_cons. cbn [map]. rewrite rsum_cons. destruct (IH t) as [Q1 Q2]; auto.
    destruct (masked_row x y r) as [R1 R2]; [congruence|congruence|auto|]. split; [lra|]. split.
    - intros E. f_equal; [apply R2; lra|apply Q2; lra].
    - intros E. injection E as -> ->. rewrite (proj2 R2), (proj2 Q2) by auto. ring. }
  destruct G as [G1 G2]. split; [lra|]. split.
  - intros E. f_equal; [apply G2; lra|apply P2; lra].
  - intros E. injection E as -> ->. rewrite (proj2 G2), (proj2 P2) by auto. ring.
Qed.
(** The four parts vanish together exactly when the student's four outputs are the teacher's: the
    features, their channel means, the spatial means and the relations. *)
Theorem C96_fbkd (C P : nat) (w1 w2 w3 w4 w : R) (sm tm : list (list R)) (sc ss sr : list R) (sf : list (list (list R)))
    (tsp tr : list R) (tf : list (list (list R))) :
  0 < w1 -> 0 < w2 -> 0 < w3 -> 0 < w4 -> 0 < w -> fshape C P sf -> fshape C P tf -> length sf = length tf ->
  mask_ok P sm -> mask_ok P tm -> length sm = length tf -> length tm = length tf ->
  length sc = (length tf * C)%nat -> length ss = length tsp -> length sr = length tr ->
  0 <= fbkd_loss w1 w2 w3 w4 w sm tm sc ss sr sf tsp tr tf /\
  (fbkd_loss w1 w2 w3 w4 w sm tm sc ss sr sf tsp tr tf = 0 <->
   sf = tf /\ sc = flat_map (map (fun ch => rsum ch / INR (length ch))) tf /\ ss = tsp /\ sr = tr).
Proof.
  intros W1 W2 W3 W4 W FS FT LF MS MT LSM LTM LC LS LR. unfold fbkd_loss.
  set (mask := zipw _ tm sm).
  assert (MK : mask_ok P mask /\ length mask = length tf).
  { unfold mask. split; [|rewrite zipw_length; congruence].
    unfold mask_ok. apply Forall_forall. intros r R1. unfold zipw at 1 in R1. apply in_map_iff in R1. destruct R1 as ([t s] & <- & I). cbn [fst snd].
    unfold mask_ok in *. rewrite Forall_forall in MS, MT. destruct (MT t (in_combine_l _ _ _ _ I)) as [A B]. destruct (MS s (in_combine_r _ _ _ _ I)) as [D E].
    rewrite zipw_length by congruence. split; auto. apply Forall_forall. intros x X. unfold zipw in X. apply in_map_iff in X.
    destruct X as ([p q] & <- & J). cbn [fst snd]. rewrite Forall_forall in B, E. pose proof (B p (in_combine_l _ _ _ _ J)). pose proof (E q (in_combine_r _ _ _ _ J)). lra. }
  destruct MK as [MK1 MK2].
  destruct (mask_l2_zero C P tf sf mask FT FS MK1 (eq_sym LF) ltac:(congruence)) as [A1 A2].
  destruct (tdist_zero (concat (map (map rmean) tf)) sc) as [B1 B2].
  { rewrite LC. clear - FT. induction FT as [|s t [H _] _ IH]; [reflexivity|]. cbn. rewrite app_length, map_length, IH. lia. }
  destruct (tdist_zero tsp ss (eq_sym LS)) as [D1 D2]. destruct (tdist_zero tr sr (eq_sym LR)) as [E1 E2].
  set (a := mask_l2 tf sf mask) in *. set (b := tdist _ sc) in *. set (d := tdist tsp ss) in *. set (e := tdist tr sr) in *.
  assert (0 <= a * w1 + b * w2 + d * w3 + e * w4) by nra. split; [nra|].
  assert (BB : sc = flat_map (map (fun ch => rsum ch / INR (length ch))) tf <-> b = 0).
  { rewrite B2, flat_map_concat_map. split; intros Q; symmetry; exact Q. }
  rewrite BB. split.
  - intros Z. assert (Z1 : a * w1 + b * w2 + d * w3 + e * w4 = 0) by nra.
    assert (a = 0) by nra. assert (b = 0) by nra. assert (d = 0) by nra. assert (e = 0) by nra.
    repeat split; auto; symmetry; [apply A2|apply D2|apply E2]; auto.
  - intros (Q1 & Q2 & Q3 & Q4). rewrite Q2, (proj2 A2), (proj2 D2), (proj2 E2) by auto. ring.
Qed.
Example C96_fbkd_case : fbkd_loss 1 1 1 1 1 [[1; 2]] [[3; 1]] [3; 1] [5] [6] [[[2; 4]; [1; 1]]] [5] [6] [[[2; 4]; [1; 1]]] = 0.
Proof.
  apply (C96_fbkd 2 2); try lra; try reflexivity; try (repeat constructor; fail).
  - repeat constructor; lra.
  - repeat constructor; lra.
  - repeat split; auto. unfold rsum. cbn. repeat f_equal; lra.
Qed.
Print Assumptions C96_ce.
Print Assumptions C96_soft_ce.
Print Assumptions C96_fbkd.
