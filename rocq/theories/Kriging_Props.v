(** Properties of Kriging_Model. *)
From Coq Require Import Reals Lra Lia Psatz.
From Verif Require Import Prelude Kriging_Model.
Open Scope list_scope.
Open Scope R_scope.

(** Sum and mean square, independent of the model's functions. *)
Definition total (l : list R) : R := fold_right Rplus 0 l.
Definition average (l : list R) : R := total l / INR (length l).
(** The sample variance (divided by n - 1). *)
Definition variance (l : list R) : R :=
  total (map (fun x => Rsqr (x - average l)) l) / (INR (length l) - 1).

Lemma sum_total : forall l, sum l = total l.
Proof. induction l as [|x l IH]; cbn [sum total fold_right]; [reflexivity|]. unfold total in *. rewrite IH. reflexivity. Qed.
Lemma mean_average : forall l, mean l = average l.
Proof. intros l. unfold mean, average. rewrite sum_total. reflexivity. Qed.
Lemma std_variance : forall l, std l = sqrt (variance l).
Proof. intros l. unfold std, variance. rewrite sum_total, mean_average. reflexivity. Qed.
Lemma total_nonneg : forall (f : R -> R) l, (forall x, 0 <= f x) -> 0 <= total (map f l).
Proof. intros f l P. induction l as [|x l IH]; cbn; [lra|]. specialize (P x). unfold total in IH. lra. Qed.
Lemma INR_two : forall l : list R, (2 <= length l)%nat -> 2 <= INR (length l).
Proof. intros l H. apply le_INR in H. cbn [INR] in H. lra. Qed.
Lemma variance_nonneg : forall l, (2 <= length l)%nat -> 0 <= variance l.
Proof.
  intros l H. unfold variance. apply INR_two in H.
  apply Rmult_le_pos; [apply total_nonneg; intros x; apply Rle_0_sqr|].
  apply Rlt_le, Rinv_0_lt_compat. lra.
Qed.
Lemma scale_pos : forall l, 0 < scale l.
Proof. intros l. unfold scale, std. pose proof (sqrt_pos (sum (map (fun x => (x - mean l) * (x - mean l)) l) / (INR (length l) - 1))). lra. Qed.
Lemma total_linear : forall (a b : R) l, total (map (fun x => (x - a) / b) l) = (total l - INR (length l) * a) / b.
Proof.
  intros a b l. induction l as [|x l IH]; cbn [map length].
  - cbn [total fold_right INR]. unfold Rdiv. ring.
  - rewrite S_INR. cbn [total fold_right]. unfold total in IH. rewrite IH. unfold total, Rdiv. ring.
Qed.
Lemma normalise_total : forall l, (1 <= length l)%nat -> total (normalise l) = 0.
Proof.
  intros l H. unfold normalise. rewrite total_linear, mean_average. unfold average.
  assert (INR (length l) <> 0) by (apply not_0_INR; lia).
  replace (total l - INR (length l) * (total l / INR (length l))) with 0 by (field; assumption).
  unfold Rdiv. ring.
Qed.
Lemma normalise_average : forall l, (1 <= length l)%nat -> average (normalise l) = 0.
Proof. intros l H. unfold average. rewrite normalise_total by exact H. unfold Rdiv. ring. Qed.
Lemma normalise_length : forall l, length (normalise l) = length l.
Proof. intros l. apply map_length. Qed.

Theorem C247_centred : forall l, (1 <= length l)%nat -> length (normalise l) = length l /\ average (normalise l) = 0.
Proof. intros l H. split; [apply normalise_length|apply normalise_average; exact H]. Qed.

Theorem C247_put_back : forall l, map (put_back (mean l) (scale l)) (normalise l) = l.
Proof.
  intros l. unfold normalise. rewrite map_map.
  transitivity (map (fun x => x) l); [|apply map_id]. apply map_ext. intros x.
  unfold put_back. pose proof (scale_pos l). field. lra.
Qed.

Theorem C247_order_kept : forall l i j, (i < length l)%nat -> (j < length l)%nat ->
  (nth i l 0 < nth j l 0 <-> nth i (normalise l) 0 < nth j (normalise l) 0).
Proof.
  intros l i j Hi Hj. pose proof (scale_pos l) as P.
  assert (E : forall k, (k < length l)%nat -> nth k (normalise l) 0 = (nth k l 0 - mean l) / scale l).
  { intros k Hk. unfold normalise.
    rewrite (nth_indep _ 0 ((0 - mean l) / scale l)) by (rewrite map_length; exact Hk).
    exact (map_nth (fun x => (x - mean l) / scale l) l 0 k). }
  rewrite (E i Hi), (E j Hj). unfold Rdiv. split; intros H.
  - apply Rmult_lt_compat_r; [apply Rinv_0_lt_compat; exact P|lra].
  - apply Rmult_lt_reg_r in H; [lra|apply Rinv_0_lt_compat; exact P].
Qed.

(** Constant features do not divide by zero: they become zeros. *)
Theorem C247_constant_column : forall c n, (1 <= n)%nat -> normalise (repeat c n) = repeat 0 n.
Proof.
  intros c n H. unfold normalise.
  assert (T : forall k, total (repeat c k) = INR k * c).
  { induction k as [|k IH]; [cbn; ring|]. rewrite S_INR. cbn [repeat total fold_right]. unfold total in IH. rewrite IH. ring. }
  assert (M : mean (repeat c n) = c).
  { rewrite mean_average. unfold average. rewrite T, repeat_length. field. apply not_0_INR. lia. }
  rewrite M. remember (scale (repeat c n)) as s eqn:Es. clear Es M T H.
  induction n as [|n IH]; cbn [repeat map]; [reflexivity|]. rewrite IH. f_equal. unfold Rdiv. ring.
Qed.
Example C247_ex : normalise [3; 3; 3] = [0; 0; 0] /\ average (normalise [1; 5]) = 0 /\ map (put_back (mean [1; 5]) (scale [1; 5])) (normalise [1; 5]) = [1; 5].
Proof.
  split; [exact (C247_constant_column 3 3 (le_S _ _ (le_S _ _ (le_n 1))))|].
  split; [apply C247_centred; cbn; lia|apply C247_put_back].
Qed.
Example C247_order_ex : nth 0 (normalise [1; 5]) 0 < nth 1 (normalise [1; 5]) 0.
Proof. apply (proj1 (C247_order_kept [1; 5] 0 1 ltac:(cbn; lia) ltac:(cbn; lia))). cbn [nth]. lra. Qed.

(** Normalised data should have variance 1 unless it is constant. *)
Definition C247_claim : Prop := forall l, (2 <= length l)%nat -> variance l <> 0 -> variance (normalise l) = 1.
(** What it is: by the 1e-6 a little less. *)
Theorem C247_unit_variance_partial : forall l, (2 <= length l)%nat ->
  variance (normalise l) = Rsqr (sqrt (variance l) / (sqrt (variance l) + / 1000000))
  /\ variance (normalise l) < 1.
Proof.
  intros l H. pose proof (INR_two l H) as N. pose proof (scale_pos l) as P.
  assert (V : variance (normalise l) = variance l / Rsqr (scale l)).
  { unfold variance. rewrite normalise_average, normalise_length by lia.
    unfold normalise. rewrite map_map, mean_average.
    assert (T : forall k, total (map (fun x => Rsqr ((x - average l) / scale l - 0)) k)
                = total (map (fun x => Rsqr (x - average l)) k) / Rsqr (scale l)).
    { induction k as [|x k IH]; cbn [map total fold_right]; [unfold Rdiv; ring|].
      unfold total in IH. rewrite IH. unfold Rsqr. field. lra. }
    rewrite T. unfold Rsqr. field. split; lra. }
  assert (Q : variance l = Rsqr (sqrt (variance l))) by (symmetry; apply Rsqr_sqrt, variance_nonneg; exact H).
  unfold scale in *. rewrite std_variance in *.
  assert (V2 : variance (normalise l) = Rsqr (sqrt (variance l)) / Rsqr (sqrt (variance l) + / 1000000)).
  { rewrite V, <- Q. reflexivity. }
  rewrite V2. pose proof (sqrt_pos (variance l)) as S0. remember (sqrt (variance l)) as s eqn:Es. clear Es Q V V2.
  split; [unfold Rsqr; field; lra|].
  assert (Q : 0 < Rsqr (s + / 1000000)) by (unfold Rsqr; apply Rmult_lt_0_compat; exact P).
  apply Rmult_lt_reg_r with (Rsqr (s + / 1000000)); [exact Q|].
  unfold Rdiv. rewrite Rmult_assoc, Rinv_l by (apply Rgt_not_eq; exact Q). unfold Rsqr. nra.
Qed.
Theorem C247_unit_variance_refuted : ~ C247_claim.
Proof.
  intros H. specialize (H [0; 2]). assert (L : (2 <= length [0; 2])%nat) by (cbn; lia).
  assert (V : variance [0; 2] = 2).
  { unfold variance, average, total. cbn [map fold_right length INR]. unfold Rsqr. lra. }
  specialize (H L). assert (NZ : variance [0; 2] <> 0) by (rewrite V; lra). specialize (H NZ).
  destruct (C247_unit_variance_partial [0; 2] L) as [_ B]. lra.
Qed.
Example C247_variance_ex : variance (normalise [0; 2]) < 1.
Proof. apply C247_unit_variance_partial. cbn. lia. Qed.

(** The fit fails exactly if the numbers of rows differ; every column is prepared by itself. *)
Definition label_rows (y : labels) : nat := match y with Flat l => length l | Matrix r _ => r end.
Definition label_columns (y : labels) : list (list R) := match y with Flat l => [l] | Matrix _ c => c end.
Theorem C247_prepare : forall rows cols y,
  (rows <> label_rows y -> prepare rows cols y = Raise GenericException)
  /\ (rows = label_rows y -> exists kx ky, prepare rows cols y = Ok (kx, ky)
      /\ length kx = length cols /\ length ky = length (label_columns y)
      /\ (forall i c, nth_error cols i = Some c ->
            nth_error kx i = Some (if (2 <=? length c)%nat then Some (mean c, scale c, normalise c) else None))
      /\ (forall i c, nth_error (label_columns y) i = Some c ->
            nth_error ky i = Some (if (2 <=? length c)%nat then Some (mean c, scale c, normalise c) else None))).
Proof.
  intros rows cols y.
  assert (K : forall c, keep c = if (2 <=? length c)%nat then Some (mean c, scale c, normalise c) else None).
  { intros c. unfold keep. destruct (Nat.leb_spec (length c) 1); destruct (Nat.leb_spec 2 (length c)); try lia; reflexivity. }
  assert (E : prepare rows cols y = if negb (rows =? label_rows y)%nat then Raise GenericException
              else Ok (map keep cols, map keep (label_columns y))) by (destruct y; reflexivity).
  rewrite E. split; intros H.
  - apply Nat.eqb_neq in H. rewrite H. reflexivity.
  - apply Nat.eqb_eq in H. rewrite H. cbn [negb]. exists (map keep cols), (map keep (label_columns y)).
    rewrite !map_length. repeat split; intros i c Hc; rewrite (map_nth_error keep _ _ Hc), K; reflexivity.
Qed.
Example C247_prepare_ex : prepare 2 [[1; 2]] (Flat [1; 2; 3]) = Raise GenericException
  /\ exists kx ky, prepare 1 [[4]] (Flat [7]) = Ok (kx, ky) /\ kx = [None].
Proof. split; [reflexivity|]. eexists _, _. split; reflexivity. Qed.

(** The kernels accepted. *)
Theorem C247_kernels : forall r c,
  (In r ["constant"; "linear"; "quadratic"]%string /\ In c ["cubic"; "exp"; "expg"; "gauss"; "spherical"; "spline"]%string
   -> handler_init r c = Ok (r, c))
  /\ (~ In r ["constant"; "linear"; "quadratic"]%string \/ ~ In c ["cubic"; "exp"; "expg"; "gauss"; "spherical"; "spline"]%string
   -> handler_init r c = Raise AssertionError).
Proof.
  intros r c.
  assert (A : existsb (String.eqb r) regr_names = true <-> In r ["constant"; "linear"; "quadratic"]%string).
  { rewrite existsb_exists. unfold regr_names. cbn [In]. split.
    - intros (x & H & E). apply String.eqb_eq in E. subst x. intuition.
    - intros H. exists r. split; [intuition|apply String.eqb_refl]. }
  assert (B : existsb (String.eqb c) corr_names = true <-> In c ["cubic"; "exp"; "expg"; "gauss"; "spherical"; "spline"]%string).
  { rewrite existsb_exists. unfold corr_names. cbn [In]. split.
    - intros (x & H & E). apply String.eqb_eq in E. subst x. intuition.
    - intros H. exists c. split; [intuition|apply String.eqb_refl]. }
  unfold handler_init. split.
  - intros [P Q]. rewrite (proj2 A P), (proj2 B Q). reflexivity.
  - destruct (existsb (String.eqb r) regr_names); destruct (existsb (String.eqb c) corr_names); cbn [negb]; intros [N|N]; try reflexivity;
      exfalso; apply N; [apply A|apply B]; reflexivity.
Qed.
Example C247_kernels_ex : handler_init "linear" "gauss" = Ok ("linear", "gauss")%string /\ handler_init "cubic" "gauss" = Raise AssertionError.
Proof. split; reflexivity. Qed.
Print Assumptions C247_centred.
Print Assumptions C247_put_back.
Print Assumptions C247_order_kept.
Print Assumptions C247_constant_column.
Print Assumptions C247_unit_variance_partial.
Print Assumptions C247_unit_variance_refuted.
Print Assumptions C247_prepare.
Print Assumptions C247_kernels.
