(** Lemmas for the feature losses. *)
From Verif Require Import Prelude Loss_Model Loss_Lemmas Regress_Model.
From Coq Require Import Reals Lra.
Open Scope R_scope.

Lemma sq_nonneg x : 0 <= sq x.
Proof. unfold sq. nra. Qed.
Lemma sq_zero x : sq x = 0 <-> x = 0.
Proof. unfold sq. split; [|intros ->; ring]. intros H. destruct (Rmult_integral _ _ H); auto. Qed.
Lemma rsum_zipw_nonneg {A B} (f : A -> B -> R) l m : (forall x y, In (x, y) (combine l m) -> 0 <= f x y) -> 0 <= rsum (zipw f l m).
Proof.
  intros H. apply rsum_nonneg. unfold zipw. apply Forall_forall. intros v V.
  apply in_map_iff in V. destruct V as ([x y] & <- & I). apply H; auto.
Qed.
Lemma rsum_zipw_zero {A B} (f : A -> B -> R) l m : (forall x y, In (x, y) (combine l m) -> 0 <= f x y) ->
  (rsum (zipw f l m) = 0 <-> forall x y, In (x, y) (combine l m) -> f x y = 0).
Proof.
  intros P. split.
  - intros Z x y I. assert (F : Forall (Rle 0) (zipw f l m)).
    { unfold zipw. apply Forall_forall. intros v V. apply in_map_iff in V. destruct V as ([a b] & <- & J). apply P; auto. }
    pose proof (rsum_zero _ F Z) as G. rewrite Forall_forall in G. apply G. unfold zipw.
    apply in_map_iff. exists (x, y). auto.
  - intros H. apply rsum_all_zero. apply Forall_forall. intros v V. unfold zipw in V.
    apply in_map_iff in V. destruct V as ([x y] & <- & I). apply H; auto.
Qed.
Lemma sumsq_nonneg l : 0 <= rsum (map sq l).
Proof. apply rsum_nonneg. apply Forall_forall. intros v V. apply in_map_iff in V. destruct V as (x & <- & _). apply sq_nonneg. Qed.
Lemma sumsq_zero l : rsum (map sq l) = 0 <-> Forall (fun x => x = 0) l.
Proof.
  induction l as [|a l IH]; [split; [constructor|reflexivity]|].
  cbn [map]. rewrite rsum_cons. pose proof (sq_nonneg a). pose proof (sumsq_nonneg l). split.
  - intros E. constructor; [apply sq_zero; lra|apply IH; lra].
  - intros F. inversion F; subst. rewrite (proj2 IH) by auto. unfold sq. ring.
Qed.
Lemma norm2_nonneg l : 0 <= norm2 l.
Proof. apply sqrt_pos. Qed.
Lemma norm2_sq l : norm2 l * norm2 l = rsum (map sq l).
Proof. apply sqrt_sqrt, sumsq_nonneg. Qed.
Lemma norm2_zero l : norm2 l = 0 <-> Forall (fun x => x = 0) l.
Proof.
  rewrite <- sumsq_zero, <- norm2_sq. split; [intros ->; ring|].
  intros E. destruct (Rmult_integral _ _ E); auto.
Qed.
Lemma norm2_pos l : ~ Forall (fun x => x = 0) l -> 0 < norm2 l.
Proof. intros H. destruct (norm2_nonneg l); auto. exfalso. apply H, norm2_zero. auto. Qed.
Lemma sumsq_scale c l : rsum (map sq (map (Rmult c) l)) = sq c * rsum (map sq l).
Proof.
  rewrite map_map, <- rsum_map_scale. f_equal. apply map_ext. intros x. unfold sq. ring.
Qed.
Lemma norm2_scale c l : norm2 (map (Rmult c) l) = Rabs c * norm2 l.
Proof.
  unfold norm2. rewrite sumsq_scale, sqrt_mult; [|apply sq_nonneg|apply sumsq_nonneg].
  f_equal. unfold sq. change (c * c) with (Rsqr c). apply sqrt_Rsqr_abs.
Qed.
(** Squared distance, expanded. *)
Lemma dist_expand : forall a b, length a = length b ->
  rsum (zipw (fun x y => sq (x - y)) a b) = rsum (map sq a) + rsum (map sq b) - 2 * dot a b.
Proof.
  unfold dot. induction a as [|x a IH]; intros [|y b] L; try discriminate; [cbn; ring|].
  rewrite !zipw_cons. cbn [map]. rewrite !rsum_cons, IH by auto. unfold sq. ring.
Qed.
Lemma dot_scale c d : forall a b, dot (map (Rmult c) a) (map (Rmult d) b) = c * d * dot a b.
Proof.
  unfold dot. induction a as [|x a IH]; intros [|y b]; try (cbn; ring).
  cbn [map]. rewrite !zipw_cons, !rsum_cons, IH. ring.
Qed.
Lemma dot_self a : dot a a = rsum (map sq a).
Proof. unfold dot. induction a as [|x a IH]; [reflexivity|]. rewrite zipw_cons. cbn [map]. rewrite !rsum_cons, IH. reflexivity. Qed.
Lemma dot_comm : forall a b, dot a b = dot b a.
Proof.
  unfold dot. induction a as [|x a IH]; intros [|y b]; try reflexivity.
  rewrite !zipw_cons, !rsum_cons, IH. ring.
Qed.
Lemma dist_zero : forall a b, length a = length b ->
  (rsum (zipw (fun x y => sq (x - y)) a b) = 0 <-> a = b).
Proof.
  induction a as [|x a IH]; intros [|y b] L; try discriminate; [split; reflexivity|].
  rewrite zipw_cons, rsum_cons. pose proof (sq_nonneg (x - y)).
  pose proof (rsum_zipw_nonneg (fun x y => sq (x - y)) a b (fun _ _ _ => sq_nonneg _)).
  injection L as L. specialize (IH b L). split.
  - intros E. assert (X : sq (x - y) = 0) by lra. apply (proj1 (sq_zero _)) in X.
    assert (Y : rsum (zipw (fun x y => sq (x - y)) a b) = 0) by lra.
    f_equal; [lra|apply IH; exact Y].
  - intros E. injection E as -> E. rewrite (proj2 IH E). unfold sq. ring.
Qed.
(** Cauchy-Schwarz, with the case of equality. *)
Lemma cauchy a b : length a = length b -> dot a b <= norm2 a * norm2 b.
Proof.
  intros L. destruct (Req_dec (norm2 a) 0) as [Z|Z].
  { rewrite Z. apply norm2_zero in Z.
    enough (dot a b = 0) by lra. clear L. revert b. induction Z as [|x a -> _ IH]; intros [|y b]; try reflexivity.
    unfold dot in *. rewrite zipw_cons, rsum_cons, IH. ring. }
  destruct (Req_dec (norm2 b) 0) as [Y|Y].
  { rewrite Y. apply norm2_zero in Y.
    enough (dot a b = 0) by lra. clear - Y. revert a. induction Y as [|x b -> _ IH]; intros [|y a]; try reflexivity.
    unfold dot in *. rewrite zipw_cons, rsum_cons, IH. ring. }
  pose proof (norm2_nonneg a). pose proof (norm2_nonneg b).
  set (p := norm2 a) in *. set (q := norm2 b) in *.
  pose proof (rsum_zipw_nonneg (fun x y => sq (x - y)) (map (Rmult q) a) (map (Rmult p) b) (fun _ _ _ => sq_nonneg _)) as N.
  rewrite dist_expand in N by (rewrite !map_length; auto).
  rewrite !sumsq_scale, dot_scale, <- !norm2_sq in N. fold p q in N. unfold sq in N.
  assert (0 < p * q) by (apply Rmult_lt_0_compat; lra). nra.
Qed.
Lemma map_opp_dot a : forall b, dot (map (Rmult (-1)) a) b = - dot a b.
Proof.
  unfold dot. induction a as [|x a IH]; intros [|y b]; cbn [map]; try (cbn; ring).
  rewrite !zipw_cons, !rsum_cons, IH. ring.
Qed.
Lemma cs_abs a b : length a = length b -> Rabs (dot a b) <= norm2 a * norm2 b.
Proof.
  intros L. apply Rabs_le. split; [|apply cauchy; auto].
  pose proof (cauchy (map (Rmult (-1)) a) b) as H. rewrite map_length in H. specialize (H L).
  rewrite map_opp_dot, norm2_scale in H. rewrite Rabs_left in H by lra. lra.
Qed.
(** Distance of the two unit vectors. *)
Lemma unit_dist a b : length a = length b -> 0 < norm2 a -> 0 < norm2 b ->
  rsum (zipw (fun x y => sq (x - y)) (map (Rmult (/ norm2 a)) a) (map (Rmult (/ norm2 b)) b))
  = 2 - 2 * (dot a b / (norm2 a * norm2 b)).
Proof.
  intros L A B. rewrite dist_expand by (rewrite !map_length; auto).
  rewrite !sumsq_scale, dot_scale, <- !norm2_sq. unfold sq. field. lra.
Qed.
Lemma map_scale_inj c d a b : c <> 0 -> map (Rmult c) a = map (Rmult d) b -> a = map (Rmult (d / c)) b.
Proof.
  intros C. revert b. induction a as [|x a IH]; intros [|y b] E; try discriminate; [reflexivity|].
  cbn [map] in *. injection E as E1 E2. f_equal; [|apply IH; auto].
  apply (Rmult_eq_reg_l c); [|auto]. rewrite E1. field. auto.
Qed.
(** The two unit vectors agree exactly when the vectors are positive multiples. *)
Lemma unit_equal a b : length a = length b -> 0 < norm2 a -> 0 < norm2 b ->
  (map (Rmult (/ norm2 a)) a = map (Rmult (/ norm2 b)) b <-> exists k, 0 < k /\ a = map (Rmult k) b).
Proof.
  intros L A B. split.
  - intros E. apply map_scale_inj in E; [|apply Rinv_neq_0_compat; lra].
    exists (/ norm2 b / / norm2 a). split; [|exact E].
    apply Rmult_lt_0_compat; repeat apply Rinv_0_lt_compat; auto.
  - intros (k & K & ->). rewrite norm2_scale, Rabs_right by lra. rewrite map_map. apply map_ext. intros x. field. lra.
Qed.
Lemma combine_concat_same {A B} (l : list (list A)) (m : list (list B)) :
  Forall2 (fun a b => length a = length b) l m ->
  combine (concat l) (concat m) = concat (zipw (@combine A B) l m).
Proof.
  induction 1 as [|a b l m L _ IH]; [reflexivity|].
  rewrite zipw_cons. cbn [concat]. rewrite <- IH. clear - L. revert b L.
  induction a as [|x a IH]; intros [|y b] L; try discriminate; [reflexivity|].
  cbn. f_equal. apply IH. auto.
Qed.
Lemma zipw_concat {A B C} (f : A -> B -> C) l m : Forall2 (fun a b => length a = length b) l m ->
  zipw f (concat l) (concat m) = concat (zipw (zipw f) l m).
Proof.
  intros H. unfold zipw at 1. rewrite combine_concat_same by auto. rewrite concat_map. unfold zipw.
  rewrite map_map. reflexivity.
Qed.
Lemma rsum_zipw_concat (f : R -> R -> R) l m : Forall2 (fun a b : list R => length a = length b) l m ->
  rsum (zipw f (concat l) (concat m)) = rsum (zipw (fun a b => rsum (zipw f a b)) l m).
Proof.
  intros H. rewrite zipw_concat, rsum_concat by auto. unfold zipw at 1. rewrite map_map. reflexivity.
Qed.
Lemma combine_Forall2 {A B} (P : A -> B -> Prop) l m : length l = length m ->
  ((forall x y, In (x, y) (combine l m) -> P x y) <-> Forall2 P l m).
Proof.
  revert m. induction l as [|a l IH]; intros [|b m] L; try discriminate.
  - split; [constructor|intros _ ? ? []].
  - injection L as L. specialize (IH m L). split.
    + intros H. constructor; [apply H; left; auto|apply IH; intros; apply H; right; auto].
    + intros F. inversion F; subst. intros x y [E|I]; [injection E as <- <-; auto|apply IH; auto].
Qed.
Lemma Forall2_len {A B} (P : A -> B -> Prop) l m : Forall2 P l m -> length l = length m.
Proof. induction 1; cbn; auto. Qed.
Lemma rmean_nonneg l : Forall (Rle 0) l -> 0 <= rmean l.
Proof.
  intros F. unfold rmean. destruct l as [|x l]; [unfold rsum, rlen; cbn; unfold Rdiv; lra|].
  apply Rmult_le_pos; [apply rsum_nonneg; auto|]. apply Rlt_le, Rinv_0_lt_compat, rlen_pos. discriminate.
Qed.
Lemma rmean_zero l : l <> [] -> (rmean l = 0 <-> rsum l = 0).
Proof.
  intros N. pose proof (rlen_pos l N). unfold rmean. split; [|intros ->; unfold Rdiv; ring].
  intros E. apply (Rmult_eq_reg_r (/ rlen l)); [unfold Rdiv in E; lra|]. apply Rinv_neq_0_compat. lra.
Qed.
