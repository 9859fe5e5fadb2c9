(** Sums over lists of reals, softmax and Gibbs' inequality. *)
From Verif Require Import Prelude Loss_Model.
From Coq Require Import Reals Lra.
Open Scope R_scope.

Lemma rsum_cons x l : rsum (x :: l) = x + rsum l.
Proof. reflexivity. Qed.
Lemma rsum_nil : rsum [] = 0.
Proof. reflexivity. Qed.
Lemma rsum_app l m : rsum (l ++ m) = rsum l + rsum m.
Proof. induction l as [|x l IH]; cbn [app]; rewrite ?rsum_cons, ?rsum_nil; [lra|]. rewrite IH. lra. Qed.
Lemma rsum_concat (l : list (list R)) : rsum (concat l) = rsum (map rsum l).
Proof.
  induction l as [|x l IH]; [reflexivity|]. cbn [concat map]. rewrite rsum_app, rsum_cons, IH. reflexivity.
Qed.
Lemma rsum_scale c l : rsum (map (Rmult c) l) = c * rsum l.
Proof. induction l as [|x l IH]; cbn [map]; rewrite ?rsum_cons, ?rsum_nil; [lra|]. rewrite IH. lra. Qed.
Lemma rsum_nonneg l : Forall (Rle 0) l -> 0 <= rsum l.
Proof. induction 1 as [|x l H _ IH]; rewrite ?rsum_cons, ?rsum_nil; lra. Qed.
Lemma rsum_zero l : Forall (Rle 0) l -> rsum l = 0 -> Forall (fun x => x = 0) l.
Proof.
  induction 1 as [|x l H Hl IH]; intros E; constructor; rewrite rsum_cons in E; pose proof (rsum_nonneg l Hl).
  - lra.
  - apply IH. lra.
Qed.
Lemma rsum_all_zero l : Forall (fun x => x = 0) l -> rsum l = 0.
Proof. induction 1 as [|x l H Hl IH]; rewrite ?rsum_cons, ?rsum_nil; lra. Qed.
Lemma rsum_pos l : l <> [] -> Forall (Rlt 0) l -> 0 < rsum l.
Proof.
  intros NE F. destruct F as [|x l H F]; [congruence|]. rewrite rsum_cons.
  assert (0 <= rsum l); [|lra]. apply rsum_nonneg. eapply Forall_impl; [|exact F]. intros; cbn; lra.
Qed.
Lemma rsum_map_plus {A} (f g : A -> R) l : rsum (map (fun x => f x + g x) l) = rsum (map f l) + rsum (map g l).
Proof. induction l as [|x l IH]; cbn [map]; rewrite ?rsum_cons, ?rsum_nil; [lra|]. rewrite IH. lra. Qed.
Lemma rsum_map_scale {A} (f : A -> R) c l : rsum (map (fun x => c * f x) l) = c * rsum (map f l).
Proof. induction l as [|x l IH]; cbn [map]; rewrite ?rsum_cons, ?rsum_nil; [lra|]. rewrite IH. lra. Qed.
Lemma rsum_const {A} c (l : list A) : rsum (map (fun _ => c) l) = INR (length l) * c.
Proof.
  induction l as [|x l IH]; [cbn; lra|]. cbn [map length]. rewrite rsum_cons, IH, S_INR. lra.
Qed.
Lemma rsum_le {A} (f g : A -> R) l : (forall x, In x l -> f x <= g x) -> rsum (map f l) <= rsum (map g l).
Proof.
  induction l as [|x l IH]; intros H; cbn [map]; rewrite ?rsum_cons, ?rsum_nil; [lra|].
  pose proof (H x (or_introl eq_refl)). pose proof (IH (fun y Hy => H y (or_intror Hy))). lra.
Qed.

Lemma zipw_cons {A B C} (f : A -> B -> C) x l y m : zipw f (x :: l) (y :: m) = f x y :: zipw f l m.
Proof. reflexivity. Qed.
Lemma zipw_map {A A' B B' C} (f : A' -> B' -> C) (g : A -> A') (h : B -> B') l : forall m,
  zipw f (map g l) (map h m) = zipw (fun x y => f (g x) (h y)) l m.
Proof. induction l as [|x l IH]; intros [|y m]; cbn; auto. unfold zipw in *. cbn. rewrite IH. reflexivity. Qed.
Lemma zipw_length {A B C} (f : A -> B -> C) l : forall m, length l = length m -> length (zipw f l m) = length l.
Proof. intros m H. unfold zipw. rewrite map_length, combine_length. lia. Qed.
Lemma zipw_ext {A B C} (f g : A -> B -> C) l : forall m, (forall x y, In (x, y) (combine l m) -> f x y = g x y) -> zipw f l m = zipw g l m.
Proof. intros m H. unfold zipw. apply map_ext_in. intros [x y] I. apply H. exact I. Qed.
Lemma rlen_pos {A} (l : list A) : l <> [] -> 0 < rlen l.
Proof. intros H. unfold rlen. apply lt_0_INR. destruct l; [congruence|cbn; lia]. Qed.

(** * Softmax *)
Definition z (l : list R) : R := rsum (map exp l).
Lemma z_pos l : l <> [] -> 0 < z l.
Proof.
  intros H. apply rsum_pos; [destruct l; [congruence|discriminate]|].
  apply Forall_forall. intros x I. apply in_map_iff in I as (y & <- & _). apply exp_pos.
Qed.
Lemma softmax_pos l : Forall (Rlt 0) (softmax l).
Proof.
  unfold softmax. apply Forall_forall. intros x I. apply in_map_iff in I as (y & <- & J).
  apply Rdiv_lt_0_compat; [apply exp_pos|]. apply z_pos. intros ->. destruct J.
Qed.
Lemma softmax_length l : length (softmax l) = length l.
Proof. apply map_length. Qed.
Lemma softmax_sum l : l <> [] -> rsum (softmax l) = 1.
Proof.
  intros H. unfold softmax. fold (z l).
  assert (E : forall m, rsum (map (fun x => exp x / z l) m) = z m / z l).
  { induction m as [|x m IH]; [unfold z; cbn; lra|]. cbn [map]. rewrite rsum_cons, IH.
    unfold z at 4. cbn [map]. rewrite rsum_cons. fold (z m). unfold Rdiv. ring. }
  rewrite E. pose proof (z_pos l H). field. lra.
Qed.
Lemma ln_softmax l : log_softmax l = map ln (softmax l).
Proof.
  unfold log_softmax, softmax. fold (z l). rewrite map_map. apply map_ext_in. intros x I.
  assert (P : 0 < z l) by (apply z_pos; intros ->; destruct I).
  unfold Rdiv. rewrite ln_mult, ln_Rinv, ln_exp; auto using exp_pos. apply Rinv_0_lt_compat. exact P.
Qed.

(** * Gibbs' inequality *)
Lemma ln_le_minus x : 0 < x -> ln x <= x - 1 /\ (ln x = x - 1 -> x = 1).
Proof.
  intros P. split.
  - pose proof (exp_ineq1_le (ln x)) as H. rewrite exp_ln in H by auto. lra.
  - intros E. destruct (Req_dec (ln x) 0) as [Z|Z].
    + lra.
    + pose proof (exp_ineq1 (ln x) Z) as H. rewrite exp_ln in H by auto. lra.
Qed.
Lemma kl_term p q : 0 < p -> 0 < q ->
  p - q <= p * (ln p - ln q) /\ (p * (ln p - ln q) = p - q -> p = q).
Proof.
  intros P Q. assert (X : 0 < q / p) by (apply Rdiv_lt_0_compat; auto).
  destruct (ln_le_minus (q / p) X) as [L E].
  assert (LN : ln (q / p) = ln q - ln p).
  { unfold Rdiv. rewrite ln_mult, ln_Rinv; auto. apply Rinv_0_lt_compat. auto. }
  rewrite LN in L, E.
  assert (QP : p * (q / p) = q) by (field; lra).
  split.
  - assert (p * (ln q - ln p) <= p * (q / p - 1)) by (apply Rmult_le_compat_l; lra). lra.
  - intros H. assert (E1 : p * (ln q - ln p) = p * (q / p - 1)) by lra.
    apply Rmult_eq_reg_l in E1; [|lra]. specialize (E E1). rewrite E in QP. lra.
Qed.
Definition kl (p q : list R) : R := rsum (zipw (fun a b => a * (ln a - ln b)) p q).
Lemma gibbs_gen : forall p q, Forall (Rlt 0) p -> Forall (Rlt 0) q -> length p = length q ->
  rsum p - rsum q <= kl p q /\ (kl p q = rsum p - rsum q -> p = q).
Proof.
  unfold kl. induction p as [|a p IH]; intros [|b q] P Q L; cbn in L; try lia.
  - split; [unfold zipw; cbn; lra|auto].
  - rewrite zipw_cons, !rsum_cons. inversion P; inversion Q; subst.
    destruct (kl_term a b) as [K1 K2]; auto. destruct (IH q) as [I1 I2]; auto.
    split; [lra|]. intros E.
    rewrite K2 by lra. rewrite I2 by lra. reflexivity.
Qed.
Lemma gibbs p q : Forall (Rlt 0) p -> Forall (Rlt 0) q -> length p = length q -> rsum p = rsum q ->
  0 <= kl p q /\ (kl p q = 0 <-> p = q).
Proof.
  intros P Q L S1. destruct (gibbs_gen p q P Q L) as [G E]. split; [lra|]. split.
  - intros H. apply E. lra.
  - intros ->. unfold kl. clear. induction q as [|b q IH]; [reflexivity|]. rewrite zipw_cons, rsum_cons, IH. ring.
Qed.

(** Logits with the same softmax differ by a constant. *)
Definition shifted (s t : list R) : Prop := exists c, s = map (fun x => x + c) t.
Lemma softmax_shift s t : length s = length t -> (softmax s = softmax t <-> shifted s t).
Proof.
  intros L. split.
  - intros E. destruct s as [|x s]; [exists 0; destruct t; [reflexivity|discriminate]|].
    destruct t as [|y t]; [discriminate|].
    set (a := x :: s) in *. set (b := y :: t) in *.
    assert (NA : a <> []) by discriminate. assert (NB : b <> []) by discriminate.
    exists (ln (z a) - ln (z b)).
    assert (E' : log_softmax a = log_softmax b) by (rewrite !ln_softmax, E; reflexivity).
    unfold log_softmax in E'. fold (z a) (z b) in E'. clearbody a b. clear - E'. 
    revert E'. generalize (ln (z a)) (ln (z b)). intros u v. revert b.
    induction a as [|p a IH]; intros [|q b] E; cbn [map] in *; try discriminate; auto.
    inversion E. f_equal; [lra|]. apply IH. assumption.
  - intros [c ->]. unfold softmax. rewrite map_map. fold (z t).
    assert (E : rsum (map exp (map (fun x => x + c) t)) = z t * exp c).
    { unfold z. clear. induction t as [|x t IH]; cbn [map]; rewrite ?rsum_cons, ?rsum_nil; [lra|]. rewrite IH, exp_plus. lra. }
    rewrite E. apply map_ext_in. intros x I. rewrite exp_plus.
    assert (0 < z t) by (apply z_pos; intros ->; destruct I). pose proof (exp_pos c). field. lra.
Qed.

(** One row of the divergence. *)
Lemma kl_row s t : length s = length t ->
  rsum (zipw kl_point (log_softmax s) (softmax t)) = kl (softmax t) (softmax s).
Proof.
  intros L. rewrite ln_softmax. unfold kl.
  rewrite <- (map_id (softmax t)) at 1. rewrite zipw_map.
  pose proof (softmax_pos t) as P. assert (LL : length (softmax s) = length (softmax t)) by (rewrite !softmax_length; auto).
  revert P LL. generalize (softmax s) (softmax t). clear.
  induction l as [|x l IH]; intros [|y m] P LL; try discriminate; [reflexivity|].
  rewrite !zipw_cons, !rsum_cons. inversion P; subst. rewrite IH; auto.
  unfold kl_point. destruct (Rlt_dec 0 y); [reflexivity|contradiction].
Qed.
Lemma kl_softmax s t : length s = length t ->
  0 <= kl (softmax t) (softmax s) /\ (kl (softmax t) (softmax s) = 0 <-> shifted s t).
Proof.
  intros L. destruct (gibbs (softmax t) (softmax s)) as [G1 G2]; auto using softmax_pos.
  - rewrite !softmax_length. auto.
  - destruct s as [|x s]; destruct t as [|y t]; try discriminate; [reflexivity|]. rewrite !softmax_sum by discriminate. reflexivity.
  - split; [exact G1|]. rewrite G2. rewrite <- (softmax_shift s t L). split; congruence.
Qed.
Lemma shifted_divide tau s t : tau <> 0 -> (shifted (divide tau s) (divide tau t) <-> shifted s t).
Proof.
  intros T. unfold shifted, divide. split; intros [c E].
  - exists (c * tau). revert t E. induction s as [|x s IH]; intros [|y t] E; cbn [map] in *; try discriminate; auto.
    inversion E. f_equal; [|auto]. assert (x = (x / tau) * tau) by (field; auto). rewrite H, H0. field. auto.
  - exists (c / tau). subst s. rewrite !map_map. apply map_ext. intros x. field. auto.
Qed.
Lemma divide_length tau l : length (divide tau l) = length l.
Proof. apply map_length. Qed.
