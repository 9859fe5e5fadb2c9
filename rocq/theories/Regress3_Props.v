(** C93: PKDLoss against the Pearson correlation. *)
From Verif Require Import Prelude Loss_Model Loss_Lemmas Regress_Model Regress_Lemmas Regress_Props.
From Coq Require Import Reals Lra.
Open Scope R_scope.

(** * Specification *)
Definition mean (x : list R) : R := rsum x / INR (length x).
Definition cov (x y : list R) : R :=
  rsum (zipw (fun a b => (a - mean x) * (b - mean y)) x y) / (INR (length x) - 1).
(** Sample standard deviation and correlation coefficient. *)
Definition sd (x : list R) : R := sqrt (cov x x).
Definition corr (x y : list R) : R := cov x y / (sd x * sd y).
(** The factor by which the constant 1e-6 shrinks a channel. *)
Definition shrink (x : list R) : R := sd x / (sd x + / (10 ^ 6)).
(** All entries of channel [c], over samples and positions. *)
Definition channel (f : fmap) (c : nat) : list R := flat_map (fun sample => nth c sample []) (fm_data f).
Definition wf_map (f : fmap) : Prop :=
  Forall (fun sample => length sample = fm_c f /\ Forall (fun ch => length ch = (fm_h f * fm_w f)%nat) sample) (fm_data f).
Definition same_size (s t : fmap) : Prop :=
  fm_h s = fm_h t /\ fm_w s = fm_w t /\ fm_c s = fm_c t /\ length (fm_data s) = length (fm_data t).
(** Entries per channel. *)
Definition count (f : fmap) : nat := (length (fm_data f) * (fm_h f * fm_w f))%nat.
(** Two comparable feature maps with at least two entries per channel. *)
Definition comparable (s t : fmap) : Prop :=
  same_size s t /\ wf_map s /\ wf_map t /\ (0 < fm_c s)%nat /\ (2 <= count s)%nat.
(** Loss of one channel. *)
Definition channel_loss (x y : list R) : R :=
  (INR (length x) - 1) / INR (length x)
  * ((shrink x * shrink x + shrink y * shrink y) / 2 - shrink x * shrink y * corr x y).
(** Mean over the channels. *)
Definition map_loss (s t : fmap) : R :=
  rsum (map (fun c => channel_loss (channel s c) (channel t c)) (seq 0 (fm_c s))) / INR (fm_c s).

Lemma micro_pos : 0 < micro.
Proof. unfold micro. apply Rinv_0_lt_compat, pow_lt. lra. Qed.
Lemma sd_nonneg x : 0 <= sd x.
Proof. apply sqrt_pos. Qed.
Lemma zipw_self {A B} (f : A -> A -> B) l : zipw f l l = map (fun x => f x x) l.
Proof. induction l as [|x l IH]; [reflexivity|]. rewrite zipw_cons, IH. reflexivity. Qed.
Definition dev (x : list R) : list R := map (fun v => v - mean x) x.
Lemma cov_dot x y : cov x y = dot (dev x) (dev y) / (INR (length x) - 1).
Proof. unfold cov, dot, dev. rewrite zipw_map. reflexivity. Qed.
Lemma len_pos (x : list R) : (2 <= length x)%nat -> 1 <= INR (length x) - 1.
Proof. intros H. apply le_INR in H. cbn in H. lra. Qed.
Lemma sd_sq x : (2 <= length x)%nat -> rsum (map sq (dev x)) = (INR (length x) - 1) * (sd x * sd x).
Proof.
  intros H. apply len_pos in H. unfold sd. rewrite sqrt_sqrt.
  - rewrite cov_dot, dot_self. field. lra.
  - rewrite cov_dot, dot_self. apply Rmult_le_pos; [apply sumsq_nonneg|]. apply Rlt_le, Rinv_0_lt_compat. lra.
Qed.
Lemma norm_dev x : (2 <= length x)%nat -> norm2 (dev x) = sqrt (INR (length x) - 1) * sd x.
Proof.
  intros H. unfold norm2. rewrite sd_sq by auto. pose proof (len_pos x H).
  rewrite sqrt_mult by (try apply Rle_0_sqr; lra). rewrite sqrt_square by apply sd_nonneg. reflexivity.
Qed.
Lemma stdev_sd x : (2 <= length x)%nat -> stdev x = Some (sd x).
Proof.
  intros H. unfold stdev. destruct (Nat.leb_spec (length x) 1); [lia|]. f_equal. unfold sd. f_equal.
  rewrite cov_dot, dot_self. unfold dev. rewrite map_map. reflexivity.
Qed.
Lemma pkd_norm_ok x : (2 <= length x)%nat -> pkd_norm x = Some (map (Rmult (/ (sd x + micro))) (dev x)).
Proof.
  intros H. unfold pkd_norm. rewrite stdev_sd by auto. f_equal. unfold dev. rewrite map_map. apply map_ext.
  intros v. unfold Rdiv. rewrite Rmult_comm. reflexivity.
Qed.
Lemma dot_corr x y : length x = length y -> (2 <= length x)%nat ->
  dot (dev x) (dev y) = (INR (length x) - 1) * (sd x * sd y * corr x y).
Proof.
  intros L H. pose proof (len_pos x H). unfold corr. rewrite cov_dot.
  destruct (Req_dec (sd x) 0) as [X|X]; [|destruct (Req_dec (sd y) 0) as [Y|Y]].
  - assert (N : norm2 (dev x) = 0) by (rewrite norm_dev, X by auto; ring).
    pose proof (cs_abs (dev x) (dev y)) as C. unfold dev in C at 1 2. rewrite !map_length in C. specialize (C L).
    rewrite N, Rmult_0_l in C. rewrite X. pose proof (Rabs_pos (dot (dev x) (dev y))).
    destruct (Req_dec (dot (dev x) (dev y)) 0) as [Z|Z]; [rewrite Z; ring|]. apply Rabs_pos_lt in Z. lra.
  - assert (N : norm2 (dev y) = 0) by (rewrite norm_dev, Y by lia; ring).
    pose proof (cs_abs (dev x) (dev y)) as C. unfold dev in C at 1 2. rewrite !map_length in C. specialize (C L).
    rewrite N, Rmult_0_r in C. rewrite Y. pose proof (Rabs_pos (dot (dev x) (dev y))).
    destruct (Req_dec (dot (dev x) (dev y)) 0) as [Z|Z]; [rewrite Z; ring|]. apply Rabs_pos_lt in Z. lra.
  - field. repeat split; auto. lra.
Qed.
Lemma corr_range x y : length x = length y -> (2 <= length x)%nat -> 0 < sd x -> 0 < sd y -> -1 <= corr x y <= 1.
Proof.
  intros L H X Y. pose proof (len_pos x H) as P.
  pose proof (cs_abs (dev x) (dev y)) as C. unfold dev in C at 1 2. rewrite !map_length in C. specialize (C L).
  rewrite dot_corr, !norm_dev, <- L in C by lia.
  assert (E : sqrt (INR (length x) - 1) * sd x * (sqrt (INR (length x) - 1) * sd y) = (INR (length x) - 1) * (sd x * sd y)).
  { rewrite <- (sqrt_sqrt (INR (length x) - 1)) at 3 by lra. ring. }
  rewrite E in C. rewrite Rabs_mult, (Rabs_right (INR (length x) - 1)) in C by lra.
  apply Rmult_le_reg_l in C; [|lra]. rewrite Rabs_mult, (Rabs_right (sd x * sd y)) in C by nra.
  assert (Q : 0 < sd x * sd y) by nra.
  assert (D : Rabs (corr x y) <= 1) by (apply (Rmult_le_reg_l (sd x * sd y)); lra).
  unfold Rabs in D. destruct (Rcase_abs _); lra.
Qed.
Lemma channel_value x y : length x = length y -> (2 <= length x)%nat ->
  rsum (zipw (fun a b => sq (a - b)) (map (Rmult (/ (sd x + micro))) (dev x)) (map (Rmult (/ (sd y + micro))) (dev y)))
  = 2 * INR (length x) * channel_loss x y.
Proof.
  intros L H. pose proof (len_pos x H). pose proof micro_pos. pose proof (sd_nonneg x). pose proof (sd_nonneg y).
  rewrite dist_expand by (unfold dev; rewrite !map_length; auto).
  rewrite !sumsq_scale, dot_scale, !sd_sq, dot_corr, <- L by lia.
  unfold channel_loss, shrink. fold micro. unfold sq. field. lra.
Qed.
Lemma channel_nonneg x y : length x = length y -> (2 <= length x)%nat -> 0 <= channel_loss x y.
Proof.
  intros L H. pose proof (channel_value x y L H) as V. pose proof (len_pos x H).
  match type of V with ?l = _ => assert (0 <= l) by (apply rsum_zipw_nonneg; intros; apply sq_nonneg) end.
  apply (Rmult_le_reg_l (2 * INR (length x))); lra.
Qed.
Lemma shrink_range x : 0 <= shrink x < 1.
Proof.
  pose proof micro_pos. pose proof (sd_nonneg x). unfold shrink. fold micro. split.
  - apply Rmult_le_pos; auto. apply Rlt_le, Rinv_0_lt_compat. lra.
  - apply (Rmult_lt_reg_r (sd x + micro)); [lra|]. unfold Rdiv. rewrite Rmult_assoc, Rinv_l by lra. lra.
Qed.
Lemma shrink_inj x y : shrink x = shrink y -> sd x = sd y.
Proof.
  pose proof micro_pos. pose proof (sd_nonneg x). pose proof (sd_nonneg y). unfold shrink. fold micro. intros E.
  assert (F : sd x * (sd y + micro) = sd y * (sd x + micro)).
  { transitivity (sd x / (sd x + micro) * (sd x + micro) * (sd y + micro)); [field; lra|]. rewrite E. field. lra. }
  nra.
Qed.
Lemma corr_bound x y : length x = length y -> (2 <= length x)%nat ->
  Rabs (shrink x * shrink y * corr x y) <= shrink x * shrink y.
Proof.
  intros L H. pose proof (shrink_range x). pose proof (shrink_range y).
  destruct (sd_nonneg x) as [X|X]; [destruct (sd_nonneg y) as [Y|Y]|].
  - pose proof (corr_range x y L H X Y). rewrite Rabs_mult, (Rabs_right (shrink x * shrink y)) by nra.
    assert (Rabs (corr x y) <= 1) by (apply Rabs_le; lra).
    rewrite <- (Rmult_1_r (shrink x * shrink y)) at 2. apply Rmult_le_compat_l; [nra|auto].
  - unfold shrink at 2 4. rewrite <- Y. unfold Rdiv. rewrite !Rmult_0_l, !Rmult_0_r, Rmult_0_l, Rabs_R0. lra.
  - unfold shrink at 1 3. rewrite <- X. unfold Rdiv. rewrite !Rmult_0_l, Rabs_R0. lra.
Qed.
Lemma channel_le2 x y : length x = length y -> (2 <= length x)%nat -> channel_loss x y <= 2.
Proof.
  intros L H. pose proof (len_pos x H). pose proof (shrink_range x). pose proof (shrink_range y).
  pose proof (corr_bound x y L H) as B. assert (B1 : - (shrink x * shrink y * corr x y) <= shrink x * shrink y)
    by (revert B; unfold Rabs; destruct (Rcase_abs _); lra). clear B.
  unfold channel_loss.
  set (g := (shrink x * shrink x + shrink y * shrink y) / 2 - shrink x * shrink y * corr x y).
  assert (shrink x * shrink x <= 1) by nra. assert (shrink y * shrink y <= 1) by nra.
  assert (shrink x * shrink y <= 1) by nra.
  assert (G1 : g <= 2) by (unfold g; lra).
  assert (F : 0 <= (INR (length x) - 1) / INR (length x) <= 1).
  { split; [apply Rmult_le_pos; [lra|apply Rlt_le, Rinv_0_lt_compat; lra]|].
    apply (Rmult_le_reg_r (INR (length x))); [lra|]. unfold Rdiv. rewrite Rmult_assoc, Rinv_l by lra. lra. }
  destruct (Rle_dec 0 g); nra.
Qed.
(** A channel contributes nothing exactly when it differs from the teacher's by a constant. *)
Lemma channel_zero x y : length x = length y -> (2 <= length x)%nat ->
  (channel_loss x y = 0 <-> exists k, x = map (fun v => v + k) y).
Proof.
  intros L H. pose proof (channel_value x y L H) as V. pose proof (len_pos x H) as P.
  pose proof micro_pos. pose proof (sd_nonneg x). pose proof (sd_nonneg y).
  set (u := map (Rmult (/ (sd x + micro))) (dev x)) in *. set (v := map (Rmult (/ (sd y + micro))) (dev y)) in *.
  assert (LU : length u = length v) by (unfold u, v, dev; rewrite !map_length; auto).
  assert (Z : channel_loss x y = 0 <-> u = v).
  { rewrite <- (dist_zero u v LU), V. split; [intros ->; ring|]. intros E. nra. }
  rewrite Z. split.
  - intros E. assert (N : norm2 u = norm2 v) by congruence. unfold u, v in N. rewrite !norm2_scale, !norm_dev, <- L in N by lia.
    assert (Q : 0 < sqrt (INR (length x) - 1)) by (apply sqrt_lt_R0; lra).
    assert (SH : shrink x = shrink y).
    { unfold shrink. fold micro. rewrite !Rabs_right in N by (apply Rle_ge, Rlt_le, Rinv_0_lt_compat; lra).
      apply (Rmult_eq_reg_l (sqrt (INR (length x) - 1))); [|lra]. unfold Rdiv. lra. }
    apply shrink_inj in SH. unfold u, v in E. rewrite SH in E. apply map_scale_inj in E; [|apply Rinv_neq_0_compat; lra].
    exists (mean x - mean y). assert (D : dev x = dev y).
    { rewrite E. rewrite <- (map_id (dev y)) at 2. apply map_ext. intros r. field. lra. }
    clear - D L. unfold dev in D. set (p := mean x) in *. set (q := mean y) in *. clearbody p q.
    revert y L D. induction x as [|a x IH]; intros [|b y] L D; try discriminate; [reflexivity|].
    cbn [map] in *. injection D as D1 D2. f_equal; [lra|]. apply IH; auto.
  - intros (k & K). assert (M : mean x = mean y + k).
    { unfold mean. rewrite <- L. rewrite K at 1. rewrite rsum_map_plus, map_id, rsum_const, <- L. field. lra. }
    assert (D : dev x = dev y).
    { unfold dev. rewrite M. rewrite K at 1. rewrite map_map. apply map_ext. intros r. ring. }
    assert (SX : sd x = sd y).
    { unfold sd. rewrite !cov_dot, D, L. reflexivity. }
    unfold u, v. rewrite D, SX. reflexivity.
Qed.

(** * The whole loss *)
Lemma channel_length f c : wf_map f -> (c < fm_c f)%nat -> length (channel f c) = count f.
Proof.
  intros W C. unfold channel, count, wf_map in *. revert W. generalize (fm_data f) as d. induction d as [|s d IH]; intros W; [reflexivity|].
  inversion W; subst. cbn. rewrite app_length, IH by auto. destruct H1 as [L F]. rewrite Forall_forall in F.
  rewrite (F (nth c s [])); [reflexivity|]. apply nth_In. lia.
Qed.
Lemma by_channel_spec f : by_channel f = map (channel f) (seq 0 (fm_c f)).
Proof. unfold by_channel, channel. apply map_ext. intros c. rewrite flat_map_concat_map. reflexivity. Qed.
Lemma all_norm l : Forall (fun x => (2 <= length x)%nat) l ->
  all_some (map pkd_norm l) = Some (map (fun x => map (Rmult (/ (sd x + micro))) (dev x)) l).
Proof. induction 1 as [|x l H _ IH]; [reflexivity|]. cbn [map all_some]. rewrite pkd_norm_ok, IH by auto. reflexivity. Qed.
Lemma pair_value s t : comparable s t -> pkd_pair (by_channel s) (by_channel t) = Some (map_loss s t).
Proof.
  intros (SZ & WS & WT & C & N). destruct SZ as (SH & SW & SC & SN).
  assert (CT : count t = count s) by (unfold count; congruence).
  unfold pkd_pair. rewrite !by_channel_spec, !all_norm.
  - f_equal. unfold rmean. rewrite !map_map, <- SC. rewrite rsum_zipw_concat.
    2:{ assert (G : forall cs, (forall c, In c cs -> (c < fm_c s)%nat) -> Forall2 (fun a b : list R => length a = length b)
             (map (fun c => map (Rmult (/ (sd (channel s c) + micro))) (dev (channel s c))) cs)
             (map (fun c => map (Rmult (/ (sd (channel t c) + micro))) (dev (channel t c))) cs)).
        { induction cs as [|c cs IH]; intros I; cbn; constructor; [|apply IH; intros; apply I; right; auto].
          assert (IC : (c < fm_c s)%nat) by (apply I; left; auto).
          unfold dev. rewrite !map_length, (channel_length s c), (channel_length t c); auto. rewrite <- SC. auto. }
        apply G. intros c I. apply in_seq in I. lia. }
    rewrite zipw_map, zipw_self. unfold map_loss.
    rewrite (map_ext_in _ (fun c => 2 * INR (count s) * channel_loss (channel s c) (channel t c))).
    2:{ intros c I. apply in_seq in I. rewrite channel_value; rewrite !channel_length; rewrite <- ?SC; auto; lia. }
    rewrite rsum_map_scale.
    assert (LEN : rlen (zipw (fun a b => sq (a - b))
        (concat (map (fun x => map (Rmult (/ (sd (channel s x) + micro))) (dev (channel s x))) (seq 0 (fm_c s))))
        (concat (map (fun x => map (Rmult (/ (sd (channel t x) + micro))) (dev (channel t x))) (seq 0 (fm_c s)))))
        = INR (fm_c s) * INR (count s)).
    { assert (G : forall f cs, wf_map f -> count f = count s -> (forall c, In c cs -> (c < fm_c f)%nat) ->
          length (concat (map (fun x => map (Rmult (/ (sd (channel f x) + micro))) (dev (channel f x))) cs)) = (length cs * count s)%nat).
      { intros f cs WF CF. induction cs as [|c cs IH]; intros I; [reflexivity|]. cbn.
        rewrite app_length, IH by (intros; apply I; right; auto). unfold dev. rewrite !map_length, channel_length; auto. apply I. left. auto. }
      unfold rlen. rewrite zipw_length.
      - rewrite G, seq_length, mult_INR; auto. intros c I. apply in_seq in I. lia.
      - rewrite (G s), (G t); auto; intros c I; apply in_seq in I; lia. }
    rewrite LEN. assert (0 < INR (fm_c s)) by (apply lt_0_INR; auto).
    assert (0 < INR (count s)) by (apply lt_0_INR; lia). field. lra.
  - apply Forall_forall. intros x X. apply in_map_iff in X. destruct X as (c & <- & I). apply in_seq in I.
    rewrite channel_length; auto; lia.
  - apply Forall_forall. intros x X. apply in_map_iff in X. destruct X as (c & <- & I). apply in_seq in I.
    rewrite channel_length; auto; lia.
Qed.
Section Loss.
  Variable interpolate : fmap -> nat -> nat -> fmap.
  Lemma align_same rs s t : same_size s t -> pkd_align interpolate rs s t = Ok (s, t).
  Proof.
    intros (H & W & C & N). unfold pkd_align. rewrite H, Nat.eqb_refl. rewrite W, C, N, H, !Nat.eqb_refl. reflexivity.
  Qed.
  Lemma pkd_sum_value rs : forall ss ts a, Forall2 comparable ss ts ->
    pkd_sum interpolate rs (combine ss ts) (Some a) = Ok (Some (a + rsum (zipw map_loss ss ts))).
  Proof.
    intros ss ts a F. revert a. induction F as [|s t ss ts H _ IH]; intros a; [cbn; do 2 f_equal; ring|].
    cbn [combine pkd_sum]. rewrite align_same by apply H. cbn [bind fst snd]. rewrite pair_value by auto.
    rewrite IH, zipw_cons, rsum_cons. do 2 f_equal. ring.
  Qed.
  (** The loss, for feature maps of one size, written with the correlations. *)
Theorem C93_value (rs : bool) (w : R) (ss ts : list fmap) : Forall2 comparable ss ts ->
    pkd_loss interpolate rs w ss ts = Ok (Some (rsum (zipw map_loss ss ts) * w)).
  Proof. intros F. unfold pkd_loss. rewrite pkd_sum_value by auto. cbn. do 2 f_equal. ring. Qed.
  (** It lies between 0 and 2 per level. *)
Theorem C93_bounds (rs : bool) (w : R) (ss ts : list fmap) : 0 <= w -> Forall2 comparable ss ts ->
    exists v, pkd_loss interpolate rs w ss ts = Ok (Some v) /\ 0 <= v <= 2 * w * INR (length ss).
  Proof.
    intros W F. rewrite C93_value by auto. eexists. split; [reflexivity|].
    assert (G : 0 <= rsum (zipw map_loss ss ts) <= 2 * INR (length ss)).
    { induction F as [|s t ss ts H _ IH]; [cbn; lra|]. rewrite zipw_cons, rsum_cons.
      replace (INR (length (s :: ss))) with (INR (length ss) + 1) by (rewrite <- S_INR; reflexivity).
      enough (0 <= map_loss s t <= 2) by lra. destruct H as (SZ & WS & WT & C & N). destruct SZ as (SH & SW & SC & SN).
      assert (CT : count t = count s) by (unfold count; congruence). apply lt_0_INR in C. unfold map_loss.
      assert (B : forall c, In c (seq 0 (fm_c s)) -> 0 <= channel_loss (channel s c) (channel t c) <= 2).
      { intros c I. apply in_seq in I. split; [apply channel_nonneg|apply channel_le2]; rewrite !channel_length; rewrite <- ?SC; auto; lia. }
      assert (0 <= rsum (map (fun c => channel_loss (channel s c) (channel t c)) (seq 0 (fm_c s))) <= INR (fm_c s) * 2).
      { split.
        - apply rsum_nonneg. apply Forall_forall. intros v V. apply in_map_iff in V. destruct V as (c & <- & I). apply B; auto.
        - rewrite <- (seq_length (fm_c s) 0) at 2. rewrite <- rsum_const. apply rsum_le. intros c I. apply B; auto. }
      split.
      - apply Rmult_le_pos; [lra|]. apply Rlt_le, Rinv_0_lt_compat. auto.
      - apply (Rmult_le_reg_r (INR (fm_c s))); auto. unfold Rdiv. rewrite Rmult_assoc, Rinv_l by lra. lra. }
    nra.
  Qed.
  (** It vanishes exactly when every student channel is the teacher's plus a constant: unlike a
      correlation it sees the magnitude, because of the constant 1e-6. *)
Theorem C93_zero (rs : bool) (w : R) (ss ts : list fmap) : w <> 0 -> Forall2 comparable ss ts ->
    (pkd_loss interpolate rs w ss ts = Ok (Some 0) <->
     Forall2 (fun s t => forall c, (c < fm_c s)%nat -> exists k, channel s c = map (fun v => v + k) (channel t c)) ss ts).
  Proof.
    intros W F. rewrite C93_value by auto.
    assert (G : 0 <= rsum (zipw map_loss ss ts) /\ (rsum (zipw map_loss ss ts) = 0 <->
      Forall2 (fun s t => forall c, (c < fm_c s)%nat -> exists k, channel s c = map (fun v => v + k) (channel t c)) ss ts)).
    { induction F as [|s t ss ts H _ IH]; [split; [cbn; lra|split; [constructor|reflexivity]]|]. rewrite zipw_cons, rsum_cons.
      assert (P : 0 <= map_loss s t /\ (map_loss s t = 0 <-> forall c, (c < fm_c s)%nat -> exists k, channel s c = map (fun v => v + k) (channel t c))).
      { destruct H as (SZ & WS & WT & C & N). destruct SZ as (SH & SW & SC & SN).
        assert (CT : count t = count s) by (unfold count; congruence).
        assert (NE : seq 0 (fm_c s) <> []) by (destruct (fm_c s); [lia|discriminate]).
        assert (E : map_loss s t = rmean (map (fun c => channel_loss (channel s c) (channel t c)) (seq 0 (fm_c s)))).
        { unfold map_loss, rmean, rlen. rewrite map_length, seq_length. reflexivity. }
        assert (NN : Forall (Rle 0) (map (fun c => channel_loss (channel s c) (channel t c)) (seq 0 (fm_c s)))).
        { apply Forall_forall. intros v V. apply in_map_iff in V. destruct V as (c & <- & I). apply in_seq in I.
          apply channel_nonneg; rewrite !channel_length; rewrite <- ?SC; auto; lia. }
        rewrite E. split; [apply rmean_nonneg; auto|].
        rewrite rmean_zero by (intros Q; apply map_eq_nil in Q; auto). split.
        - intros Z c I. apply rsum_zero in Z; auto. rewrite Forall_forall in Z.
          apply channel_zero; [rewrite !channel_length; rewrite <- ?SC; auto; lia|rewrite !channel_length; auto|].
          apply Z. apply in_map_iff. exists c. split; auto. apply in_seq. lia.
        - intros K. apply rsum_all_zero. apply Forall_forall. intros v V. apply in_map_iff in V. destruct V as (c & <- & I).
          apply in_seq in I. apply channel_zero; [rewrite !channel_length; rewrite <- ?SC; auto; lia|rewrite !channel_length; auto; lia|].
          apply K. lia. }
      destruct P as [P1 P2], IH as [I1 I2]. split; [lra|]. split.
      - intros Z. constructor; [apply P2; lra|apply I2; lra].
      - intros Q. inversion Q; subst. rewrite (proj2 P2), (proj2 I2) by auto. ring. }
    destruct G as [_ G]. rewrite <- G. split.
    - intros E. injection E as E. destruct (Rmult_integral _ _ E); [auto|contradiction].
    - intros ->. do 2 f_equal. ring.
  Qed.
  (** Two maps of one height but different widths are not resized. *)
  Definition C93_resize_claim : Prop := forall (rs : bool) (w : R) (s t : fmap),
    (forall f h w, fm_h (interpolate f h w) = h /\ fm_w (interpolate f h w) = w /\
                   fm_c (interpolate f h w) = fm_c f /\ length (fm_data (interpolate f h w)) = length (fm_data f)) ->
    fm_c s = fm_c t -> length (fm_data s) = length (fm_data t) ->
    exists v, pkd_loss interpolate rs w [s] [t] = Ok v.
  (** Maps of different heights are brought to one size: the teacher's or the student's. *)
Theorem C93_resize_partial (rs : bool) (s t : fmap) :
    (forall f h w, fm_h (interpolate f h w) = h /\ fm_w (interpolate f h w) = w /\
                   fm_c (interpolate f h w) = fm_c f /\ length (fm_data (interpolate f h w)) = length (fm_data f)) ->
    fm_c s = fm_c t -> length (fm_data s) = length (fm_data t) -> fm_h s <> fm_h t \/ fm_w s = fm_w t ->
    exists s' t', pkd_align interpolate rs s t = Ok (s', t') /\ same_size s' t' /\
      (fm_h s = fm_h t -> s' = s /\ t' = t) /\
      (fm_h s <> fm_h t -> if rs then t' = t /\ s' = interpolate s (fm_h t) (fm_w t)
                           else s' = s /\ t' = interpolate t (fm_h s) (fm_w s)).
  Proof.
    intros I C N H. unfold pkd_align. destruct (Nat.eqb_spec (fm_h s) (fm_h t)) as [E|E].
    - destruct H as [H|H]; [contradiction|]. exists s, t. rewrite E, H, C, N, !Nat.eqb_refl. cbn.
      split; [reflexivity|]. split; [repeat split; auto|]. split; [auto|contradiction].
    - destruct rs.
      + destruct (I s (fm_h t) (fm_w t)) as (A & B & D & F). exists (interpolate s (fm_h t) (fm_w t)), t.
        rewrite A, B, D, F, C, N, !Nat.eqb_refl. cbn. split; [reflexivity|]. split; [repeat split; congruence|]. split; [contradiction|auto].
      + destruct (I t (fm_h s) (fm_w s)) as (A & B & D & F). exists s, (interpolate t (fm_h s) (fm_w s)).
        rewrite A, B, D, F, C, N, !Nat.eqb_refl. cbn. split; [reflexivity|]. split; [repeat split; congruence|]. split; [contradiction|auto].
  Qed.
End Loss.
Definition rep (h w : nat) (x : list (list R)) : list (list R) := map (fun ch => repeat (nth 0 ch 0) (h * w)) x.
(** Nearest-neighbour stand-in that meets the contract. *)
Definition spread (f : fmap) (h w : nat) : fmap := FMap h w (fm_c f) (map (rep h w) (fm_data f)).
Lemma spread_ok f h w : fm_h (spread f h w) = h /\ fm_w (spread f h w) = w /\
  fm_c (spread f h w) = fm_c f /\ length (fm_data (spread f h w)) = length (fm_data f).
Proof. cbn. rewrite map_length. auto. Qed.
Theorem C93_resize_refuted : ~ C93_resize_claim spread.
Proof.
  intros H. destruct (H true 1 (FMap 1 2 1 [[[1; 2]]]) (FMap 1 3 1 [[[1; 2; 3]]])) as [v E]; auto using spread_ok. discriminate.
Qed.
Example C93_resize_case : exists s' t', pkd_align spread true (FMap 1 2 1 [[[1; 2]]]) (FMap 2 2 1 [[[1; 2; 3; 4]]]) = Ok (s', t') /\ same_size s' t'.
Proof.
  assert (H : exists s' t', pkd_align spread true (FMap 1 2 1 [[[1; 2]]]) (FMap 2 2 1 [[[1; 2; 3; 4]]]) = Ok (s', t') /\ same_size s' t' /\
      (1%nat = 2%nat -> s' = FMap 1 2 1 [[[1; 2]]] /\ t' = FMap 2 2 1 [[[1; 2; 3; 4]]]) /\
      (1%nat <> 2%nat -> t' = FMap 2 2 1 [[[1; 2; 3; 4]]] /\ s' = spread (FMap 1 2 1 [[[1; 2]]]) 2 2)).
  { apply (C93_resize_partial spread true); [exact spread_ok|reflexivity|reflexivity|left; cbn [fm_h]; lia]. }
  destruct H as (s' & t' & A & B & _). exists s', t'. auto.
Qed.
(** The code's comment: the loss is 1 minus the correlation. *)
Definition C93_correlation_claim : Prop := forall x y, length x = length y -> (2 <= length x)%nat -> 0 < sd x -> 0 < sd y ->
  pkd_loss spread true 1 [FMap 1 (length x) 1 [[x]]] [FMap 1 (length y) 1 [[y]]] = Ok (Some (1 - corr x y)).
Lemma one_comparable x y : length x = length y -> (2 <= length x)%nat -> comparable (FMap 1 (length x) 1 [[x]]) (FMap 1 (length y) 1 [[y]]).
Proof.
  intros L H. repeat split; cbn; auto; repeat constructor; cbn; auto with arith; try lia.
Qed.
Lemma one_value x y w : length x = length y -> (2 <= length x)%nat ->
  pkd_loss spread true w [FMap 1 (length x) 1 [[x]]] [FMap 1 (length y) 1 [[y]]] = Ok (Some (channel_loss x y * w)).
Proof.
  intros L H. rewrite C93_value by (constructor; [apply one_comparable; auto|constructor]). do 2 f_equal.
  unfold zipw, map_loss, channel. cbn. rewrite !app_nil_r. unfold rsum. cbn. field.
Qed.
Theorem C93_correlation_refuted : ~ C93_correlation_claim.
Proof.
  intros H. specialize (H [0; 2] [2; 0] eq_refl (le_n 2)).
  assert (CX : cov [0; 2] [0; 2] = 2) by (unfold cov, mean, zipw, rsum; cbn; lra).
  assert (CY : cov [2; 0] [2; 0] = 2) by (unfold cov, mean, zipw, rsum; cbn; lra).
  assert (P : 0 < sd [0; 2]) by (unfold sd; rewrite CX; apply sqrt_lt_R0; lra).
  assert (Q : 0 < sd [2; 0]) by (unfold sd; rewrite CY; apply sqrt_lt_R0; lra).
  assert (R1 : corr [0; 2] [2; 0] = -1).
  { unfold corr. replace (cov [0; 2] [2; 0]) with (-2) by (unfold cov, mean, zipw, rsum; cbn; lra).
    unfold sd. rewrite CX, CY, sqrt_sqrt by lra. lra. }
  specialize (H P Q). rewrite one_value in H by (cbn; auto). apply Ok_inj in H. injection H as H.
  unfold channel_loss in H. rewrite R1 in H. cbn [length] in H.
  pose proof (shrink_range [0; 2]). pose proof (shrink_range [2; 0]).
  replace (INR 2) with 2 in H by (cbn; ring). nra.
Qed.
(** What holds: the loss of a channel of n entries is (n - 1) / n times 1 minus the correlation,
    up to 4e-6 over the smaller standard deviation. *)
Theorem C93_correlation_partial (x y : list R) (low : R) : length x = length y -> (2 <= length x)%nat ->
  0 < low -> low <= sd x -> low <= sd y ->
  exists v, pkd_loss spread true 1 [FMap 1 (length x) 1 [[x]]] [FMap 1 (length y) 1 [[y]]] = Ok (Some v) /\
    Rabs (v - (INR (length x) - 1) / INR (length x) * (1 - corr x y)) <= 4 * / (10 ^ 6) / low.
Proof.
  intros L H LO X Y. rewrite one_value by auto. eexists. split; [reflexivity|]. rewrite Rmult_1_r.
  pose proof (len_pos x H). pose proof micro_pos as M. pose proof (corr_range x y L H ltac:(lra) ltac:(lra)) as C.
  unfold channel_loss. fold micro. set (n := INR (length x)) in *. set (a := shrink x). set (b := shrink y). set (r := corr x y) in *.
  assert (SB : forall v, low <= sd v -> 1 - micro / low <= shrink v < 1).
  { intros v V. pose proof (shrink_range v). split; [|lra]. unfold shrink. fold micro.
    assert (E : sd v / (sd v + micro) = 1 - micro / (sd v + micro)) by (field; lra). rewrite E.
    assert (micro / (sd v + micro) <= micro / low); [|lra]. unfold Rdiv. apply Rmult_le_compat_l; [lra|].
    apply Rinv_le_contravar; lra. }
  pose proof (SB x X) as A. pose proof (SB y Y) as B. fold a in A. fold b in B.
  pose proof (shrink_range x) as A0. pose proof (shrink_range y) as B0. fold a in A0. fold b in B0.
  set (d := micro / low) in *.
  replace ((n - 1) / n * ((a * a + b * b) / 2 - a * b * r) - (n - 1) / n * (1 - r))
    with ((n - 1) / n * ((a * a + b * b) / 2 - 1 + r * (1 - a * b))) by (field; lra).
  replace (4 * micro / low) with (1 * (4 * d)) by (unfold d, Rdiv; ring).
  rewrite Rabs_mult. apply Rmult_le_compat; try apply Rabs_pos.
  - rewrite Rabs_right.
    + apply (Rmult_le_reg_r n); [lra|]. unfold Rdiv. rewrite Rmult_assoc, Rinv_l by lra. lra.
    + apply Rle_ge, Rmult_le_pos; [lra|]. apply Rlt_le, Rinv_0_lt_compat. lra.
  - assert (D : 0 < d) by (unfold d; apply Rmult_lt_0_compat; auto; apply Rinv_0_lt_compat; auto).
    assert (U1 : 1 - 2 * d <= a * b) by nra. assert (U2 : 1 - 2 * d <= a * a) by nra. assert (U3 : 1 - 2 * d <= b * b) by nra.
    assert (U4 : a * b <= 1) by nra. assert (U5 : a * a <= 1) by nra. assert (U6 : b * b <= 1) by nra.
    assert (V1 : -(1 - a * b) <= r * (1 - a * b) <= 1 - a * b) by (split; nra).
    apply Rabs_le. split; lra.
Qed.
Example C93_correlation_case : exists v,
  pkd_loss spread true 1 [FMap 1 2 1 [[[0; 2]]]] [FMap 1 2 1 [[[2; 0]]]] = Ok (Some v) /\
  Rabs (v - (INR 2 - 1) / INR 2 * (1 - corr [0; 2] [2; 0])) <= 4 * / (10 ^ 6) / 1.
Proof.
  assert (CX : cov [0; 2] [0; 2] = 2) by (unfold cov, mean, zipw, rsum; cbn; lra).
  assert (CY : cov [2; 0] [2; 0] = 2) by (unfold cov, mean, zipw, rsum; cbn; lra).
  assert (S1 : 1 <= sqrt 2) by (rewrite <- sqrt_1; apply sqrt_le_1; lra).
  apply (C93_correlation_partial [0; 2] [2; 0] 1); cbn [length]; auto; try lra; unfold sd; rewrite ?CX, ?CY; auto.
Qed.
Example C93_zero_case : pkd_loss spread true 3 [FMap 1 2 1 [[[1; 2]]; [[5; 6]]]] [FMap 1 2 1 [[[0; 1]]; [[4; 5]]]] = Ok (Some 0).
Proof.
  apply C93_zero; [lra| |].
  - constructor; [|constructor]. repeat split; cbn; auto; try lia; repeat constructor; cbn; auto.
  - constructor; [|constructor]. cbn. intros c C. assert (c = 0)%nat by lia. subst. exists 1. cbn. repeat f_equal; lra.
Qed.
(** One entry per channel: the standard deviation is NaN, and so is the loss. *)
Definition C93_nan_claim : Prop := forall (w : R) (s t : fmap), same_size s t -> wf_map s -> wf_map t -> (0 < fm_c s)%nat -> (0 < count s)%nat ->
  exists v, pkd_loss spread true w [s] [t] = Ok (Some v).
Theorem C93_nan_refuted : ~ C93_nan_claim.
Proof.
  intros H. destruct (H 1 (FMap 1 1 1 [[[1]]]) (FMap 1 1 1 [[[2]]])) as [v E]; cbn; try lia; try (repeat split; cbn; auto; fail).
  - repeat constructor.
  - repeat constructor.
  - discriminate.
Qed.
Print Assumptions C93_value.
Print Assumptions C93_zero.
Print Assumptions C93_correlation_partial.
