(** C95: relational distillation (DistanceWiseRKD and AngleWiseRKD). *)
From Verif Require Import Prelude Loss_Model Loss_Lemmas Regress_Model Regress_Lemmas Regress_Props Regress2_Props.
From Coq Require Import Reals Lra.
Open Scope R_scope.

(** * Specification *)
Definition points (D : nat) (p : list (list R)) : Prop := Forall (fun r => length r = D) p.
(** Euclidean distance of two vectors. *)
Definition edist (a b : list R) : R := sqrt (rsum (map (fun q => (fst q - snd q) * (fst q - snd q)) (combine a b))).
(** Distance of examples [i] and [j]: at least 1e-6 for different examples. *)
Definition pair_dist (p : list (list R)) (i j : nat) : R :=
  if Nat.eqb i j then 0 else Rmax (edist (nth i p []) (nth j p [])) (/ (10 ^ 6)).
Definition sum2 (n : nat) (f : nat -> nat -> R) : R := rsum (map (fun i => rsum (map (f i) (seq 0 n))) (seq 0 n)).
(** Mean distance over the ordered pairs of different examples. *)
Definition mean_dist (p : list (list R)) : R :=
  sum2 (length p) (pair_dist p) / (INR (length p) * (INR (length p) - 1)).
(** Smooth absolute difference. *)
Definition huber (d : R) : R := if Rlt_dec (Rabs d) 1 then d * d / 2 else Rabs d - / 2.

Lemma sqrt_rmax a b : 0 <= a -> 0 <= b -> sqrt (Rmax a b) = Rmax (sqrt a) (sqrt b).
Proof.
  intros A B. unfold Rmax. destruct (Rle_dec a b), (Rle_dec (sqrt a) (sqrt b)); auto.
  - exfalso. apply n. apply sqrt_le_1; auto.
  - apply sqrt_le_0 in r; auto. lra.
Qed.
Lemma sqrt_tiny : sqrt tiny = / (10 ^ 6).
Proof.
  assert (E : tiny = / (10 ^ 6) * / (10 ^ 6)).
  { unfold tiny. rewrite <- Rinv_mult. f_equal. ring. }
  rewrite E. apply sqrt_square. apply Rlt_le, Rinv_0_lt_compat, pow_lt. lra.
Qed.
Lemma six_pos : 0 < / (10 ^ 6).
Proof. apply Rinv_0_lt_compat, pow_lt. lra. Qed.
Lemma nth_points D p i : points D p -> (i < length p)%nat -> length (nth i p []) = D.
Proof. intros P I. unfold points in P. rewrite Forall_forall in P. apply P. apply nth_In. auto. Qed.
(** The matrix computed by the code holds the pairwise distances. *)
Theorem C95_distance (D : nat) (p : list (list R)) : points D p ->
  euclidean_distance p = map (fun i => map (pair_dist p i) (seq 0 (length p))) (seq 0 (length p)).
Proof.
  intros P. unfold euclidean_distance. apply map_ext_in. intros i I. apply map_ext_in. intros j J.
  apply in_seq in I, J. unfold pair_dist. destruct (Nat.eqb i j); [reflexivity|]. unfold row.
  rewrite <- dist_expand by (rewrite !(nth_points D); auto; lia).
  rewrite sqrt_rmax, sqrt_tiny; [reflexivity| |apply Rlt_le, tiny_pos].
  apply rsum_zipw_nonneg. intros. apply sq_nonneg.
Qed.
Lemma pair_pos p i j : i <> j -> 0 < pair_dist p i j.
Proof.
  intros N. unfold pair_dist. apply Nat.eqb_neq in N. rewrite N. pose proof six_pos.
  pose proof (Rmax_r (edist (nth i p []) (nth j p [])) (/ 10 ^ 6)). lra.
Qed.
Lemma gtb_true x : gtb x 0 = true <-> 0 < x.
Proof. unfold gtb. destruct (Rgt_dec x 0); split; intros; try discriminate; try lra; auto. Qed.
Lemma rsum_filter l : Forall (Rle 0) l -> rsum (filter (fun x => gtb x 0) l) = rsum l.
Proof.
  induction 1 as [|x l X _ IH]; [reflexivity|]. cbn [filter]. rewrite rsum_cons. destruct (gtb x 0) eqn:G.
  - rewrite rsum_cons, IH. reflexivity.
  - rewrite IH. assert (~ 0 < x) by (intros Q; apply gtb_true in Q; congruence). lra.
Qed.
(** Number of positive entries of one row of the matrix. *)
Lemma row_count p i : forall k n, (k <= i < k + n)%nat ->
  S (length (filter (fun x => gtb x 0) (map (pair_dist p i) (seq k n)))) = n.
Proof.
  assert (G : forall k n, (i < k)%nat -> length (filter (fun x => gtb x 0) (map (pair_dist p i) (seq k n))) = n).
  { intros k n. revert k. induction n as [|n IH]; intros k H; [reflexivity|]. cbn [seq map filter].
    rewrite (proj2 (gtb_true _)) by (apply pair_pos; lia). cbn. rewrite IH by lia. reflexivity. }
  intros k n. revert k. induction n as [|n IH]; intros k H; [lia|]. cbn [seq map filter].
  destruct (Nat.eq_dec i k) as [->|N].
  - assert (Z : gtb (pair_dist p k k) 0 = false).
    { unfold pair_dist. rewrite Nat.eqb_refl. unfold gtb. destruct (Rgt_dec 0 0); [lra|reflexivity]. }
    rewrite Z, G by lia. reflexivity.
  - rewrite (proj2 (gtb_true _)) by (apply pair_pos; lia). cbn. rewrite IH by lia. reflexivity.
Qed.
Lemma dist_nonneg p i j : 0 <= pair_dist p i j.
Proof.
  destruct (Nat.eq_dec i j) as [->|N]; [unfold pair_dist; rewrite Nat.eqb_refl; lra|]. apply Rlt_le, pair_pos; auto.
Qed.
Lemma filter_concat {A} (f : A -> bool) (l : list (list A)) : filter f (concat l) = concat (map (filter f) l).
Proof. induction l as [|x l IH]; [reflexivity|]. cbn. rewrite filter_app, IH. reflexivity. Qed.
Lemma count_positive p : 
  length (filter (fun x => gtb x 0) (concat (map (fun i => map (pair_dist p i) (seq 0 (length p))) (seq 0 (length p)))))
  = (length p * (length p - 1))%nat.
Proof.
  rewrite filter_concat, map_map.
  assert (G : forall l n, (forall i, In i l -> (i < n)%nat) ->
    length (concat (map (fun i => filter (fun x => gtb x 0) (map (pair_dist p i) (seq 0 n))) l)) = (length l * (n - 1))%nat).
  { induction l as [|i l IH]; intros n H; [reflexivity|]. cbn [map concat]. rewrite app_length, IH by (intros; apply H; right; auto).
    pose proof (H i (or_introl eq_refl)). pose proof (row_count p i 0 n ltac:(lia)). cbn [length]. lia. }
  rewrite G; [rewrite seq_length; reflexivity|]. intros i I. apply in_seq in I. lia.
Qed.
Lemma sum2_concat n (f : nat -> nat -> R) : rsum (concat (map (fun i => map (f i) (seq 0 n)) (seq 0 n))) = sum2 n f.
Proof. rewrite rsum_concat, map_map. reflexivity. Qed.
Lemma mean_positive_value D p : points D p -> (2 <= length p)%nat ->
  mean_positive (concat (euclidean_distance p)) = Some (mean_dist p) /\ 0 < mean_dist p.
Proof.
  intros P N. rewrite (C95_distance D) by auto. unfold mean_positive.
  pose proof (count_positive p) as C.
  set (l := concat (map (fun i => map (pair_dist p i) (seq 0 (length p))) (seq 0 (length p)))) in *.
  assert (F : Forall (Rle 0) l).
  { apply Forall_forall. intros x X. apply in_concat in X. destruct X as (r & IR & IX).
    apply in_map_iff in IR. destruct IR as (i & <- & _). apply in_map_iff in IX. destruct IX as (j & <- & _). apply dist_nonneg. }
  assert (PP : (0 < length p * (length p - 1))%nat) by (apply Nat.mul_pos_pos; lia).
  pose proof (rsum_filter l F) as SF.
  assert (E : rmean (filter (fun x => gtb x 0) l) = mean_dist p).
  { unfold rmean, rlen, mean_dist. rewrite C, SF, mult_INR. unfold l. rewrite sum2_concat. rewrite minus_INR by lia. reflexivity. }
  assert (POS : 0 < rmean (filter (fun x => gtb x 0) l)).
  { unfold rmean. assert (NE : filter (fun x => gtb x 0) l <> []) by (intros Q; rewrite Q in C; cbn in C; lia).
    apply Rmult_lt_0_compat; [|apply Rinv_0_lt_compat, rlen_pos; auto]. apply rsum_pos; auto.
    apply Forall_forall. intros x X. apply filter_In in X. apply gtb_true. apply X. }
  destruct (filter _ l) as [|y r] eqn:FL; [cbn in C; lia|]. rewrite E in *. auto.
Qed.
Lemma smooth_huber x y : smooth_l1 x y = huber (x - y).
Proof. reflexivity. Qed.
Lemma zipw_flat {A B C T} (f : A -> B -> C) (g : T -> list A) (h : T -> list B) l :
  (forall x, In x l -> length (g x) = length (h x)) ->
  zipw f (flat_map g l) (flat_map h l) = flat_map (fun x => zipw f (g x) (h x)) l.
Proof.
  induction l as [|x l IH]; intros H; [reflexivity|]. cbn [flat_map]. rewrite <- IH by (intros; apply H; right; auto).
  specialize (H x (or_introl eq_refl)). generalize (flat_map g l) (flat_map h l). clear - H. revert H. generalize (g x) (h x).
  induction l as [|a l0 IH]; intros [|b l1] H p q; try discriminate; [reflexivity|].
  cbn [app]. rewrite !zipw_cons. cbn [app]. f_equal. apply IH. auto.
Qed.
Lemma zipw_same {A B C T} (f : A -> B -> C) (g : T -> A) (h : T -> B) l : zipw f (map g l) (map h l) = map (fun x => f (g x) (h x)) l.
Proof. induction l as [|x l IH]; [reflexivity|]. cbn [map]. rewrite zipw_cons, IH. reflexivity. Qed.
Lemma flat_length {T} (g : T -> list R) n l : (forall x, In x l -> length (g x) = n) -> length (flat_map g l) = (length l * n)%nat.
Proof.
  induction l as [|x l IH]; intros H; [reflexivity|]. cbn. rewrite app_length, IH by (intros; apply H; right; auto).
  rewrite (H x (or_introl eq_refl)). reflexivity.
Qed.
Lemma rsum_flat {T} (g : T -> list R) l : rsum (flat_map g l) = rsum (map (fun x => rsum (g x)) l).
Proof. rewrite flat_map_concat_map, rsum_concat, map_map. reflexivity. Qed.
(** Value: the mean over all pairs of the smooth difference of the distances, each set measured in
    units of its own mean. *)
Theorem C95_value (D E : nat) (w : R) (s t : list (list R)) : points D s -> points E t ->
  length s = length t -> (2 <= length s)%nat ->
  distance_rkd false w s t
  = Some (w * (sum2 (length s) (fun i j => huber (pair_dist s i j / mean_dist s - pair_dist t i j / mean_dist t))
               / (INR (length s) * INR (length s)))).
Proof.
  intros PS PT L N. unfold distance_rkd, distance_loss.
  destruct (mean_positive_value D s PS N) as [MS _]. destruct (mean_positive_value E t PT ltac:(lia)) as [MT _].
  rewrite MS, MT. cbn [option_map]. f_equal. rewrite Rmult_comm. f_equal.
  rewrite (C95_distance D s), (C95_distance E t), <- L by auto.
  rewrite <- !flat_map_concat_map. rewrite zipw_map. rewrite zipw_flat by (intros; rewrite !map_length; auto).
  unfold rmean. rewrite rsum_flat. f_equal.
  - unfold sum2. f_equal. apply map_ext. intros i. rewrite zipw_same. reflexivity.
  - unfold rlen. rewrite (flat_length _ (length s)); [rewrite seq_length, mult_INR; reflexivity|].
    intros i _. rewrite zipw_same, map_length, seq_length. reflexivity.
Qed.
Lemma huber_nonneg d : 0 <= huber d /\ (huber d = 0 <-> d = 0).
Proof.
  unfold huber. destruct (Rlt_dec (Rabs d) 1) as [H|H].
  - split; [nra|]. split; [intros Z; nra|intros ->; lra].
  - split; [lra|]. split; [intros Z; lra|intros ->; rewrite Rabs_R0 in H; lra].
Qed.
Lemma sum2_zero n (f : nat -> nat -> R) : (forall i j, 0 <= f i j) ->
  0 <= sum2 n f /\ (sum2 n f = 0 <-> forall i j, (i < n)%nat -> (j < n)%nat -> f i j = 0).
Proof.
  intros P. assert (R1 : forall i, 0 <= rsum (map (f i) (seq 0 n))).
  { intros i. apply rsum_nonneg. apply Forall_forall. intros v V. apply in_map_iff in V. destruct V as (j & <- & _). auto. }
  split.
  - apply rsum_nonneg. apply Forall_forall. intros v V. apply in_map_iff in V. destruct V as (i & <- & _). auto.
  - split.
    + intros Z i j I J. assert (RI : rsum (map (f i) (seq 0 n)) = 0).
      { apply rsum_zero in Z.
        - rewrite Forall_forall in Z. apply Z. apply in_map_iff. exists i. split; auto. apply in_seq. lia.
        - apply Forall_forall. intros v V. apply in_map_iff in V. destruct V as (i' & <- & _). auto. }
      apply rsum_zero in RI.
      * rewrite Forall_forall in RI. apply RI. apply in_map_iff. exists j. split; auto. apply in_seq. lia.
      * apply Forall_forall. intros v V. apply in_map_iff in V. destruct V as (j' & <- & _). auto.
    + intros H. apply rsum_all_zero. apply Forall_forall. intros v V. apply in_map_iff in V. destruct V as (i & <- & I).
      apply rsum_all_zero. apply Forall_forall. intros v V. apply in_map_iff in V. destruct V as (j & <- & J).
      apply in_seq in I, J. apply H; lia.
Qed.
Lemma sum2_scale n k (f g : nat -> nat -> R) : (forall i j, (i < n)%nat -> (j < n)%nat -> f i j = k * g i j) -> sum2 n f = k * sum2 n g.
Proof.
  intros H. unfold sum2. rewrite <- rsum_map_scale. f_equal. apply map_ext_in. intros i I. rewrite <- rsum_map_scale. f_equal.
  apply map_ext_in. intros j J. apply in_seq in I, J. apply H; lia.
Qed.
(** The loss vanishes exactly when the student's distances are the teacher's times one factor. *)
Theorem C95_zero (D E : nat) (w : R) (s t : list (list R)) : w <> 0 -> points D s -> points E t ->
  length s = length t -> (2 <= length s)%nat ->
  (distance_rkd false w s t = Some 0 <->
   exists k, 0 < k /\ forall i j, (i < length s)%nat -> (j < length s)%nat -> pair_dist s i j = k * pair_dist t i j).
Proof.
  intros W PS PT L N. rewrite (C95_value D E) by auto.
  destruct (mean_positive_value D s PS N) as [_ MS]. destruct (mean_positive_value E t PT ltac:(lia)) as [_ MT].
  assert (NP : 0 < INR (length s)) by (apply lt_0_INR; lia).
  set (f := fun i j => huber _). destruct (sum2_zero (length s) f) as [_ Z]; [intros; apply huber_nonneg|].
  assert (Q : sum2 (length s) f = 0 <-> exists k, 0 < k /\ forall i j, (i < length s)%nat -> (j < length s)%nat -> pair_dist s i j = k * pair_dist t i j).
  { rewrite Z. split.
    - intros H. exists (mean_dist s / mean_dist t). split; [apply Rmult_lt_0_compat; auto; apply Rinv_0_lt_compat; auto|].
      intros i j I J. specialize (H i j I J). apply (proj1 (proj2 (huber_nonneg _))) in H.
      apply (Rmult_eq_reg_r (/ mean_dist s)); [|apply Rinv_neq_0_compat; lra].
      transitivity (pair_dist t i j / mean_dist t); [unfold Rdiv in H; lra|]. field. lra.
    - intros (k & K & H) i j I J. apply (proj2 (proj2 (huber_nonneg _))). rewrite H by auto.
      assert (M : mean_dist s = k * mean_dist t).
      { unfold mean_dist. rewrite <- L. rewrite (sum2_scale _ k (pair_dist s) (pair_dist t)) by auto. unfold Rdiv. ring. }
      rewrite M. field. lra. }
  rewrite <- Q. split.
  - intros X. injection X as X. destruct (Rmult_integral _ _ X) as [X1|X1]; [contradiction|].
    destruct (Rmult_integral _ _ X1) as [X2|X2]; auto. exfalso. revert X2. apply Rinv_neq_0_compat. nra.
  - intros ->. f_equal. unfold Rdiv. ring.
Qed.
(** The claim that the loss is a number for all batches. *)
Definition C95_nan_claim : Prop := forall (w : R) (s t : list (list R)), points 2 s -> points 2 t ->
  length s = length t -> (1 <= length s)%nat -> exists v, distance_rkd false w s t = Some v.
(** A batch of one sample has no pair: the loss is NaN. *)
Theorem C95_nan_refuted : ~ C95_nan_claim.
Proof.
  intros H. destruct (H 1 [[1; 2]] [[3; 4]]) as [v E]; [repeat constructor|repeat constructor|auto|auto|].
  unfold distance_rkd, distance_loss, mean_positive, euclidean_distance in E. cbn in E. unfold gtb in E.
  destruct (Rgt_dec 0 0); [lra|]. discriminate.
Qed.
(** It is NaN for a batch of one sample only. *)
Theorem C95_nan (D E : nat) (l2 : bool) (w : R) (s t : list (list R)) : points D s -> points E t ->
  length s = length t -> (distance_rkd l2 w s t = None <-> (length s <= 1)%nat).
Proof.
  intros PS PT L.
  assert (G : forall (s t : list (list R)), points D s -> points E t -> length s = length t ->
    (distance_rkd false w s t = None <-> (length s <= 1)%nat)).
  { clear. intros s t PS PT L. split.
    - intros H. destruct (le_lt_dec (length s) 1); auto. rewrite (C95_value D E) in H by (auto; lia). discriminate.
    - intros H. destruct s as [|a [|b s]]; [| |cbn in H; lia]; destruct t as [|c [|d t]]; try discriminate.
      + reflexivity.
      + unfold distance_rkd, distance_loss, mean_positive, euclidean_distance. cbn. unfold gtb. destruct (Rgt_dec 0 0); [lra|]. reflexivity. }
  destruct l2; [|apply G; auto].
  assert (NP : forall D p, points D p -> points D (map f_normalize p)).
  { intros D0 p H. unfold points in *. apply Forall_forall. intros r R1. apply in_map_iff in R1. destruct R1 as (q & <- & I).
    rewrite f_normalize_length. rewrite Forall_forall in H. auto. }
  specialize (G (map f_normalize s) (map f_normalize t) (NP _ _ PS) (NP _ _ PT)). rewrite !map_length in G. apply G. auto.
Qed.
Lemma edist_line (a b : R) : edist [a] [b] = Rabs (a - b).
Proof. unfold edist, rsum. cbn. rewrite Rplus_0_r. change ((a - b) * (a - b)) with (Rsqr (a - b)). apply sqrt_Rsqr_abs. Qed.
(** Three points on a line, and the same points three times as far apart. *)
Example C95_case : distance_rkd false 2 [[0]; [1]; [3]] [[1]; [4]; [10]] = Some 0 /\ distance_rkd true 2 [[0]] [[1]] = None.
Proof.
  split.
  - apply (C95_zero 1 1); [lra|repeat constructor|repeat constructor|auto|cbn; lia|]. exists (1 / 3). split; [lra|].
    assert (M : / 10 ^ 6 <= 1 /\ 0 < / 10 ^ 6).
    { split; [|apply six_pos]. apply (Rmult_le_reg_l (10 ^ 6)); [apply pow_lt; lra|]. rewrite Rinv_r by (apply pow_nonzero; lra). ring_simplify. lra. }
    intros i j I J. unfold pair_dist. cbn [length] in I, J.
    destruct i as [|[|[|i]]]; try lia; destruct j as [|[|[|j]]]; try lia; cbn [Nat.eqb nth]; rewrite ?edist_line; try lra;
    unfold Rabs; repeat (destruct (Rcase_abs _); try lra); rewrite !Rmax_left by lra; lra.
  - apply (C95_nan 1 1); [repeat constructor|repeat constructor|auto|auto].
Qed.
Print Assumptions C95_value.
Print Assumptions C95_zero.

(** * Angles *)
(** Cosine of the angle at example [i] between examples [j] and [k]; 0 where there is none. *)
Definition ray (p : list (list R)) (i j : nat) : list R := map (fun q => fst q - snd q) (combine (nth j p []) (nth i p [])).
Definition cos_at (p : list (list R)) (i j k : nat) : R :=
  if Nat.eqb i j || Nat.eqb i k then 0 else cosine (ray p i j) (ray p i k).
(** Different examples are not vanishingly close. *)
Definition separated (p : list (list R)) : Prop :=
  forall i j, (i < length p)%nat -> (j < length p)%nat -> i <> j -> strong (ray p i j).
Definition sum3 (n : nat) (f : nat -> nat -> nat -> R) : R := rsum (map (fun i => sum2 n (f i)) (seq 0 n)).
Lemma vec_ray p i j : vec p i j = ray p i j.
Proof. reflexivity. Qed.
Lemma ray_self p i : Forall (fun x => x = 0) (ray p i i).
Proof.
  unfold ray. generalize (nth i p []). induction l as [|x l IH]; [constructor|]. cbn. constructor; [ring|auto].
Qed.
Lemma normalize_zero r : Forall (fun x => x = 0) r -> Forall (fun x => x = 0) (f_normalize r).
Proof.
  intros F. unfold f_normalize. generalize (Rmax (norm2 r) tiny). intros m. induction F as [|x r -> _ IH]; [constructor|].
  cbn. constructor; [unfold Rdiv; ring|auto].
Qed.
Lemma dot_zero_l a b : Forall (fun x => x = 0) a -> dot a b = 0.
Proof.
  intros F. revert b. induction F as [|x a -> _ IH]; intros [|y b]; try reflexivity.
  unfold dot in *. rewrite zipw_cons, rsum_cons, IH. ring.
Qed.
Lemma entry_cos p i j k : separated p -> (i < length p)%nat -> (j < length p)%nat -> (k < length p)%nat ->
  dot (f_normalize (vec p i j)) (f_normalize (vec p i k)) = cos_at p i j k.
Proof.
  intros H I J K. rewrite (vec_ray p i j), (vec_ray p i k). unfold cos_at. destruct (Nat.eqb_spec i j) as [->|NJ]; cbn [orb].
  { apply dot_zero_l, normalize_zero, ray_self. }
  destruct (Nat.eqb_spec i k) as [->|NK].
  { rewrite dot_comm. apply dot_zero_l, normalize_zero, ray_self. }
  pose proof (H i j I J NJ) as A. pose proof (H i k I K NK) as B. pose proof (strong_pos _ A). pose proof (strong_pos _ B).
  rewrite !f_normalize_strong, !unit_scale, dot_scale by auto. unfold cosine. fold (dot (ray p i j) (ray p i k)). field. lra.
Qed.
(** Value: mean over all triples of the smooth difference of the cosines. *)
Theorem C95_angle_value (w : R) (s t : list (list R)) : length s = length t -> separated s -> separated t ->
  angle_rkd false w s t
  = w * (sum3 (length s) (fun i j k => huber (cos_at s i j k - cos_at t i j k)) / (INR (length s) * INR (length s) * INR (length s))).
Proof.
  intros L A B. unfold angle_rkd, angle. rewrite Rmult_comm. f_equal. rewrite <- L.
  set (n := length s). assert (IL : forall x, In x (seq 0 n) -> (x < n)%nat) by (intros x X; apply in_seq in X; lia).
  rewrite zipw_flat.
  2:{ intros i _. rewrite !(flat_length _ n); [reflexivity| |]; intros; rewrite map_length, seq_length; reflexivity. }
  unfold rmean. rewrite rsum_flat. f_equal.
  - unfold sum3. f_equal. apply map_ext_in. intros i I. rewrite zipw_flat by (intros; rewrite !map_length; auto).
    rewrite rsum_flat. unfold sum2. f_equal. apply map_ext_in. intros j J. rewrite zipw_same. f_equal.
    apply map_ext_in. intros k K. rewrite !entry_cos; auto; rewrite <- ?L; auto.
  - unfold rlen. rewrite (flat_length _ (n * n)).
    + rewrite seq_length, !mult_INR. ring.
    + intros i _. rewrite zipw_flat by (intros; rewrite !map_length; auto). rewrite (flat_length _ n), seq_length; [reflexivity|].
      intros j _. rewrite zipw_same, map_length, seq_length. reflexivity.
Qed.
Lemma huber_le d : Rabs d <= 2 -> huber d <= 3 / 2.
Proof.
  intros H. unfold huber. destruct (Rlt_dec (Rabs d) 1) as [X|X]; [|lra].
  assert (d * d <= 1); [|lra]. apply Rabs_def2 in X. nra.
Qed.
Lemma norm_dot_le a b : length a = length b -> Rabs (dot (f_normalize a) (f_normalize b)) <= 1.
Proof.
  intros L. pose proof (cs_abs (f_normalize a) (f_normalize b)) as H. rewrite !f_normalize_length in H. specialize (H L).
  pose proof (f_normalize_le a). pose proof (f_normalize_le b). pose proof (norm2_nonneg (f_normalize a)). pose proof (norm2_nonneg (f_normalize b)). nra.
Qed.
Lemma angle_entries D p : points D p -> Forall (fun x => Rabs x <= 1) (angle p) /\ length (angle p) = (length p * (length p * length p))%nat.
Proof.
  intros P. unfold angle. split.
  - apply Forall_forall. intros x X. apply in_flat_map in X. destruct X as (i & I & X). apply in_flat_map in X.
    destruct X as (j & J & X). apply in_map_iff in X. destruct X as (k & <- & K). apply in_seq in I, J, K.
    apply norm_dot_le. unfold vec, row. rewrite !zipw_length; rewrite !(nth_points D); auto; lia.
  - rewrite (flat_length _ (length p * length p)); [rewrite seq_length; reflexivity|]. intros i _.
    rewrite (flat_length _ (length p)); [rewrite seq_length; reflexivity|]. intros j _. rewrite map_length, seq_length. reflexivity.
Qed.
(** For all batches, coinciding examples included, the loss is between 0 and 3/2. *)
Theorem C95_angle_bounds (D E : nat) (l2 : bool) (w : R) (s t : list (list R)) : 0 <= w -> s <> [] ->
  points D s -> points E t -> length s = length t -> 0 <= angle_rkd l2 w s t <= w * (3 / 2).
Proof.
  assert (G : forall (s t : list (list R)), 0 <= w -> s <> [] -> points D s -> points E t -> length s = length t ->
    0 <= angle_rkd false w s t <= w * (3 / 2)).
  { intros a b W N PS PT L. unfold angle_rkd. destruct (angle_entries D a PS) as [FA LA]. destruct (angle_entries E b PT) as [FB LB].
    rewrite <- L in LB. rewrite Forall_forall in FA, FB.
    assert (NP : (0 < length a)%nat) by (destruct a; [congruence|cbn; lia]).
    assert (B : forall x y, In (x, y) (combine (angle a) (angle b)) -> 0 <= smooth_l1 x y <= 3 / 2).
    { intros x y I. rewrite smooth_huber. split; [apply huber_nonneg|]. apply huber_le.
      pose proof (FA x (in_combine_l _ _ _ _ I)) as X. pose proof (FB y (in_combine_r _ _ _ _ I)) as Y.
      unfold Rabs in *. repeat destruct (Rcase_abs _); lra. }
    assert (LZ : length (zipw smooth_l1 (angle a) (angle b)) = length (angle a)) by (apply zipw_length; congruence).
    assert (PL : 0 < INR (length (angle a))) by (apply lt_0_INR; rewrite LA; repeat apply Nat.mul_pos_pos; auto).
    assert (S1 : 0 <= rsum (zipw smooth_l1 (angle a) (angle b)) <= 3 / 2 * INR (length (angle a))).
    { split; [apply rsum_zipw_nonneg; intros; apply B; auto|].
      replace (length (angle a)) with (length (combine (angle a) (angle b))) by (rewrite combine_length; lia).
      rewrite Rmult_comm, <- (rsum_const (3 / 2) (combine (angle a) (angle b))). unfold zipw. apply rsum_le. intros [x y] I. apply B. auto. }
    assert (M : 0 <= rmean (zipw smooth_l1 (angle a) (angle b)) <= 3 / 2).
    { unfold rmean, rlen. rewrite LZ. split.
      - apply Rmult_le_pos; [apply S1|]. apply Rlt_le, Rinv_0_lt_compat. auto.
      - apply (Rmult_le_reg_r (INR (length (angle a)))); auto. unfold Rdiv. rewrite Rmult_assoc, Rinv_l by lra. lra. }
    nra. }
  intros W N PS PT L. destruct l2; [|apply G; auto].
  assert (NP : forall D p, points D p -> points D (map f_normalize p)).
  { intros D0 p H. unfold points in *. apply Forall_forall. intros r R1. apply in_map_iff in R1. destruct R1 as (q & <- & I).
    rewrite f_normalize_length. rewrite Forall_forall in H. auto. }
  apply (G (map f_normalize s) (map f_normalize t)); auto; [intros Q; apply map_eq_nil in Q; auto|rewrite !map_length; auto].
Qed.
(** Moving and enlarging all examples together does not change the angles. *)
Definition moved (k : R) (v r : list R) : list R := map (fun q => k * fst q + snd q) (combine r v).
Lemma ray_moved D k v p i j : points D p -> length v = D -> (i < length p)%nat -> (j < length p)%nat ->
  ray (map (moved k v) p) i j = map (Rmult k) (ray p i j).
Proof.
  intros P V I J. unfold ray.
  assert (M : forall q, nth q (map (moved k v) p) [] = moved k v (nth q p [])).
  { intros q. rewrite <- (map_nth (moved k v)). reflexivity. }
  rewrite !M.
  pose proof (nth_points D p i P I) as LI. pose proof (nth_points D p j P J) as LJ. revert LI LJ.
  generalize (nth i p []) (nth j p []). intros a b. revert b V a. revert D P. clear. intros D _. revert D.
  induction v as [|x v IH]; intros D b V a A B; cbn in V; subst D.
  - destruct a, b; try discriminate. reflexivity.
  - destruct a as [|a1 a], b as [|b1 b]; try discriminate. cbn. f_equal; [ring|].
    apply (IH (length v)); auto.
Qed.
Theorem C95_angle_moved (D : nat) (w k : R) (v : list R) (s t : list (list R)) : 0 < k ->
  points D s -> length v = D -> length s = length t -> separated s -> separated t -> separated (map (moved k v) s) ->
  angle_rkd false w (map (moved k v) s) t = angle_rkd false w s t.
Proof.
  intros K P V L A B C. rewrite !C95_angle_value by (rewrite ?map_length; auto). rewrite map_length. do 2 f_equal.
  unfold sum3, sum2. f_equal. apply map_ext_in. intros i I. f_equal. apply map_ext_in. intros j J. f_equal. apply map_ext_in. intros l LL.
  apply in_seq in I, J, LL. do 2 f_equal. unfold cos_at. destruct (Nat.eqb i j || Nat.eqb i l)%bool eqn:Q; [reflexivity|].
  apply orb_false_iff in Q. destruct Q as [Q1 Q2]. apply Nat.eqb_neq in Q1, Q2.
  rewrite !(ray_moved D) by (auto; lia). unfold cosine. rewrite !norm2_scale, Rabs_right by lra.
  fold (dot (map (Rmult k) (ray s i j)) (map (Rmult k) (ray s i l))). rewrite dot_scale. unfold dot.
  pose proof (strong_pos _ (A i j ltac:(lia) ltac:(lia) Q1)). pose proof (strong_pos _ (A i l ltac:(lia) ltac:(lia) Q2)). field. lra.
Qed.
Lemma norm2_one x : norm2 [x] = Rabs x.
Proof. unfold norm2, rsum, sq. cbn. rewrite Rplus_0_r. change (x * x) with (Rsqr x). apply sqrt_Rsqr_abs. Qed.
Example C95_angle_case : angle_rkd false 1 (map (moved 2 [5]) [[0]; [1]; [3]]) [[0]; [1]; [3]] = angle_rkd false 1 [[0]; [1]; [3]] [[0]; [1]; [3]] /\
  0 <= angle_rkd true 2 [[0]; [0]] [[0; 1]; [1; 1]] <= 2 * (3 / 2).
Proof.
  split.
  - assert (G : forall a b c, 1 <= Rabs (a - b) -> 1 <= Rabs (a - c) -> 1 <= Rabs (b - c) -> separated [[a]; [b]; [c]]).
    { intros a b c H1 H2 H3 i j I J N. pose proof tiny_le1. cbn [length] in I, J.
      pose proof H1 as H1'. pose proof H2 as H2'. pose proof H3 as H3'. rewrite Rabs_minus_sym in H1', H2', H3'.
      destruct i as [|[|[|i]]]; try lia; destruct j as [|[|[|j]]]; try lia; unfold strong, ray; cbn [nth combine map fst snd]; rewrite norm2_one; lra. }
    assert (A : separated [[0]; [1]; [3]]).
    { apply G; unfold Rabs; destruct (Rcase_abs _); lra. }
    apply (C95_angle_moved 1); auto; try lra; [repeat constructor|].
    unfold moved. cbn [map combine fst snd]. apply G; unfold Rabs; destruct (Rcase_abs _); lra.
  - apply (C95_angle_bounds 1 2); [lra|discriminate|repeat constructor|repeat constructor|reflexivity].
Qed.
Print Assumptions C95_angle_value.
