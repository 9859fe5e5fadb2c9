(** C160: the margins of overhaul feature distillation are the means of the negative responses. *)
From Coq Require Import Reals Lra Lia.
From Coquelicot Require Import Coquelicot.
From Verif Require Import Prelude Onnx_Model Onnx_Lemmas Distiller_Model Loss_Model Regress_Model Ofd_Model.
Local Open Scope R_scope.

(** * The normal distribution *)
Definition phi (x : R) : R := exp (- x ^ 2 / 2) / sqrt (2 * PI).
(** The distribution function of the standard normal distribution: the antiderivative of its
    density that vanishes at minus infinity. *)
Definition vanishes (f : R -> R) : Prop := forall e, 0 < e -> exists x0, forall x, x <= x0 -> Rabs (f x) < e.
Definition normal_cdf (F : R -> R) : Prop := (forall x, derivable_pt_lim F x (phi x)) /\ vanishes F.

Lemma sqrt2pi : 0 < sqrt (2 * PI). Proof. apply sqrt_lt_R0. pose proof PI_RGT_0. lra. Qed.
Lemma phi_pos x : 0 < phi x. Proof. apply Rdiv_lt_0_compat; [apply exp_pos|apply sqrt2pi]. Qed.
Lemma phi_deriv x : is_derive phi x (- x * phi x).
Proof. unfold phi. auto_derive; [exact I|]. replace (- (x * (x * 1)) * / 2) with (- x ^ 2 / 2) by (unfold Rdiv; ring). pose proof sqrt2pi. field. lra. Qed.
Lemma phi_cont x : continuous phi x.
Proof. apply (ex_derive_continuous phi). eexists. apply phi_deriv. Qed.
Lemma incr_of_deriv f df : (forall x, is_derive f x (df x)) -> forall a b, a < b -> (forall x, a < x < b -> 0 <= df x) -> f a <= f b.
Proof.
  intros H a b Hab Hp. destruct (MVT_cor2 f df a b Hab) as (c & E & Hc); [intros c _; apply is_derive_Reals, H|].
  specialize (Hp c Hc). nra.
Qed.
Lemma sincr_of_deriv f df : (forall x, is_derive f x (df x)) -> forall a b, a < b -> (forall x, a < x < b -> 0 < df x) -> f a < f b.
Proof.
  intros H a b Hab Hp. destruct (MVT_cor2 f df a b Hab) as (c & E & Hc); [intros c _; apply is_derive_Reals, H|].
  specialize (Hp c Hc). nra.
Qed.
(** A function that vanishes and grows strictly is positive. *)
Lemma vanish_pos f a : vanishes f -> (forall x y, x < y -> y <= a -> f x < f y) -> forall x, x <= a -> 0 < f x.
Proof.
  intros V M x Hx. destruct (Rlt_le_dec 0 (f x)) as [H|H]; [exact H|exfalso].
  assert (H1 : f (x - 1) < f x) by (apply M; lra).
  destruct (V (- f (x - 1)) ltac:(lra)) as [x0 Hv].
  set (y := Rmin x0 (x - 2)). assert (Hy : y <= x0) by apply Rmin_l. assert (Hy2 : y <= x - 2) by apply Rmin_r.
  specialize (Hv y Hy). assert (f y < f (x - 1)) by (apply M; lra). rewrite Rabs_left in Hv by lra. lra.
Qed.

Section Normal.
Variable F : R -> R.
Hypothesis HF : normal_cdf F.
Lemma F_deriv x : is_derive F x (phi x). Proof. apply is_derive_Reals, HF. Qed.
Lemma F_pos x : 0 < F x.
Proof.
  apply (vanish_pos F x); [apply HF| |lra]. intros a b Hab _. apply (sincr_of_deriv F phi); [exact F_deriv|exact Hab|]. intros; apply phi_pos.
Qed.
(** phi / |t| vanishes because phi is bounded by 1. *)
Lemma phi_le1 x : phi x <= 1.
Proof.
  unfold phi. apply (Rmult_le_reg_r (sqrt (2 * PI))); [apply sqrt2pi|]. unfold Rdiv at 1. rewrite Rmult_assoc, Rinv_l, Rmult_1_r, Rmult_1_l by (pose proof sqrt2pi; lra).
  apply Rle_trans with 1.
  - rewrite <- exp_0. assert (H : - x ^ 2 / 2 <= 0) by nra. destruct H as [H|H]; [left; apply exp_increasing; exact H|rewrite H; lra].
  - rewrite <- sqrt_1. apply sqrt_le_1_alt. assert (2 <= PI) by (pose proof PI2_1; lra). lra.
Qed.
Lemma mills t : 0 < phi t + t * F t.
Proof.
  destruct (Rle_lt_dec 0 t) as [Ht|Ht].
  { pose proof (phi_pos t). pose proof (F_pos t). nra. }
  (* h = - F - phi / t is positive for negative t *)
  set (h := fun x => - F x - phi x / x).
  assert (D : forall x, x < 0 -> is_derive h x (phi x / x ^ 2)).
  { intros x Hx. unfold h. pose proof (phi_deriv x) as D1. pose proof (F_deriv x) as D2.
    evar_last; [apply (is_derive_minus (fun x => - F x) (fun x => phi x / x))|].
    - exact (is_derive_opp F x (phi x) D2).
    - refine (is_derive_div phi (fun x => x) x (- x * phi x) 1 D1 _ _); [exact (is_derive_id x)|lra].
    - unfold minus, plus, opp; cbn. field. lra. }
  assert (V : vanishes h).
  { intros e He. destruct (proj2 HF (e / 2) ltac:(lra)) as [x0 H0]. exists (Rmin x0 (Rmin (-1) (- (2 / e + 1)))). intros x Hx.
    pose proof (Rmin_l x0 (Rmin (-1) (- (2 / e + 1)))). pose proof (Rmin_r x0 (Rmin (-1) (- (2 / e + 1)))).
    pose proof (Rmin_l (-1) (- (2 / e + 1))). pose proof (Rmin_r (-1) (- (2 / e + 1))).
    specialize (H0 x ltac:(lra)). unfold h.
    assert (Hb : Rabs (phi x / x) < e / 2).
    { unfold Rdiv. rewrite Rabs_mult, (Rabs_right (phi x)) by (left; apply phi_pos). rewrite Rabs_inv, Rabs_left by lra.
      assert (Hq : / - x < e / 2).
      { rewrite <- (Rinv_inv (e / 2)). apply Rinv_lt_contravar.
        - apply Rmult_lt_0_compat; [apply Rinv_0_lt_compat; lra|lra].
        - replace (/ (e / 2)) with (2 / e) by (field; lra). lra. }
      assert (0 < / - x) by (apply Rinv_0_lt_compat; lra). pose proof (phi_le1 x). pose proof (phi_pos x). nra. }
    replace (- F x - phi x / x) with (- (F x + phi x / x)) by ring. rewrite Rabs_Ropp.
    eapply Rle_lt_trans; [apply Rabs_triang|]. lra. }
  assert (P : 0 < h t).
  { apply (vanish_pos h t V); [|lra]. intros a b Hab Hb.
    destruct (MVT_cor2 h (fun x => phi x / x ^ 2) a b Hab) as (c & E & Hc).
    - intros c Hc. apply is_derive_Reals, D. lra.
    - assert (0 < phi c / c ^ 2) by (apply Rdiv_lt_0_compat; [apply phi_pos|nra]). nra. }
  unfold h in P. assert (E : phi t + t * F t = (- t) * (- F t - phi t / t)) by (field; lra). rewrite E. nra.
Qed.
End Normal.

(** Such a function exists. *)
Lemma normal_cdf_exists : exists F, normal_cdf F.
Proof.
  set (I := fun x => RInt phi 0 x).
  assert (D : forall x, is_derive I x (phi x)).
  { intros x. apply (is_derive_RInt phi I 0 x).
    - apply filter_forall. intros y. apply (RInt_correct phi). apply (ex_RInt_continuous phi). intros; apply phi_cont.
    - apply phi_cont. }
  set (c := exp (1 / 2) / sqrt (2 * PI)).
  assert (Hc : 0 < c) by (apply Rdiv_lt_0_compat; [apply exp_pos|apply sqrt2pi]).
  assert (B : forall x, phi x <= c * exp x).
  { intros x. unfold phi, c, Rdiv. rewrite Rmult_assoc, (Rmult_comm (/ _)), <- Rmult_assoc, <- exp_plus.
    apply Rmult_le_compat_r; [left; apply Rinv_0_lt_compat, sqrt2pi|].
    assert (H : - x ^ 2 * / 2 <= 1 * / 2 + x) by (pose proof (pow2_ge_0 (x + 1)); lra). destruct H as [H|H]; [left; apply exp_increasing; exact H|rewrite H; lra]. }
  assert (DD : forall x, is_derive (fun x => c * exp x - I x) x (c * exp x - phi x)).
  { intros x. apply (is_derive_minus (fun x => c * exp x) I x); [|apply D]. evar_last; [apply is_derive_scal, is_derive_exp|]. cbn. ring. }
  assert (LB : forall a b, a <= b -> I b - I a <= c * exp b - c * exp a).
  { intros a b Hab. destruct Hab as [Hab| ->]; [|lra].
    assert (H : c * exp a - I a <= c * exp b - I b).
    { apply (incr_of_deriv (fun x => c * exp x - I x) (fun x => c * exp x - phi x) DD a b Hab). intros x _. specialize (B x). lra. }
    lra. }
  assert (I0 : I 0 = 0) by (unfold I; rewrite RInt_point; reflexivity).
  (* the greatest lower bound of I *)
  destruct (completeness (fun y => exists x, y = - I x)) as [L [HL1 HL2]].
  { exists (c + 0). intros y (x & ->). destruct (Rle_lt_dec x 0) as [Hx|Hx].
    - specialize (LB x 0 Hx). rewrite exp_0, I0 in LB. pose proof (exp_pos x). nra.
    - pose proof (incr_of_deriv I phi D 0 x Hx) as H. specialize (H ltac:(intros; left; apply phi_pos)). rewrite I0 in H. lra. }
  { exists (- I 0). exists 0. reflexivity. }
  exists (fun x => I x + L). split.
  - intros x. apply is_derive_Reals. evar_last; [apply (is_derive_plus I (fun _ => L)); [apply D|apply is_derive_const]|]. cbn. unfold plus, zero; cbn. ring.
  - intros e He. assert (Hn : ~ forall x, - I x <= L - e / 2).
    { intros H. specialize (HL2 (L - e / 2)). assert (L <= L - e / 2); [|lra]. apply HL2. intros y (x & ->). apply H. }
    assert (Hex : exists x0, L - e / 2 < - I x0).
    { destruct (Classical_Pred_Type.not_all_ex_not _ _ Hn) as [x0 H0]. exists x0. lra. }
    destruct Hex as [x0 H0]. exists x0. intros x Hx.
    assert (I x <= I x0).
    { destruct Hx as [Hx| ->]; [|lra]. apply (incr_of_deriv I phi D x x0 Hx). intros; left; apply phi_pos. }
    assert (- I x <= L) by (apply HL1; exists x; reflexivity).
    rewrite Rabs_right by lra. lra.
Qed.

(** * The margins *)
(** The density of a normally distributed response with this mean and standard deviation. *)
Definition density (m s x : R) : R := phi ((x - m) / s) / s.

Lemma margin_pos cdf w m : w <> 0 -> cdf (- m / Rabs w) > 1 / 1000 ->
  margin_of cdf w m = Ok (m - Rabs w * phi (m / Rabs w) / cdf (- m / Rabs w)).
Proof.
  intros Hw Hc. unfold margin_of. destruct (Req_EM_T (Rabs w) 0) as [E|E]; [apply Rabs_eq_0 in E; contradiction|].
  destruct (Rgt_dec _ _) as [G|G]; [|contradiction]. f_equal. unfold phi. pose proof sqrt2pi. field. split; lra.
Qed.

(** Where more than a thousandth of the responses of a batch norm is negative, the margin times
    the share of the negative responses is the integral of the response over them. *)
Theorem C160_mean : forall cdf w m margin, normal_cdf cdf -> w <> 0 -> cdf (- m / Rabs w) > 1 / 1000 ->
  margin_of cdf w m = Ok margin ->
  let integral (H : R -> R) := (forall x, derivable_pt_lim H x (x * density m (Rabs w) x)) /\ vanishes H in
  (exists H, integral H) /\ forall H, integral H -> H 0 = margin * cdf (- m / Rabs w).
Proof.
  intros cdf w m margin HF Hw Hc HM integral. rewrite (margin_pos _ _ _ Hw Hc) in HM. apply Ok_inj in HM. subst margin.
  set (s := Rabs w) in *. assert (Hs : 0 < s) by (apply Rabs_pos_lt; exact Hw).
  assert (Hp : phi (m / s) = phi ((0 - m) / s)) by (unfold phi; do 2 f_equal; field; lra).
  (* the antiderivative in closed form *)
  set (K := fun x => m * cdf ((x - m) / s) - s * phi ((x - m) / s)).
  assert (DI : forall x, is_derive (fun x => (x - m) / s) x (/ s)) by (intros x; auto_derive; [exact I|ring]).
  assert (KD : forall x, is_derive K x (x * density m s x)).
  { intros x. unfold K. evar_last; [apply (is_derive_minus (fun x => m * cdf ((x - m) / s)) (fun x => s * phi ((x - m) / s)))|].
    - apply is_derive_scal. apply (is_derive_comp cdf (fun x => (x - m) / s)); [apply F_deriv; exact HF|apply DI].
    - apply is_derive_scal. apply (is_derive_comp phi (fun x => (x - m) / s)); [apply phi_deriv|apply DI].
    - unfold minus, plus, opp, scal, density; cbn. unfold mult; cbn. field. lra. }
  assert (PV : vanishes phi).
  { intros e He. exists (- (1 + / e)). intros x Hx. assert (0 < / e) by (apply Rinv_0_lt_compat; exact He). rewrite Rabs_right by (left; apply phi_pos).
    (* phi x < 1 / |x| *)
    assert (B : phi x * (- x) <= 1).
    { unfold phi. apply Rle_trans with (exp (- x ^ 2 / 2) * (- x) / 1).
      - unfold Rdiv. rewrite !Rmult_assoc. apply Rmult_le_compat_l; [left; apply exp_pos|]. rewrite Rmult_comm. apply Rmult_le_compat_l; [lra|].
        rewrite Rinv_1. rewrite <- Rinv_1. apply Rinv_le_contravar; [lra|]. rewrite <- sqrt_1. apply sqrt_le_1_alt. assert (2 <= PI) by (pose proof PI2_1; lra). lra.
      - assert (E1 : 1 + x ^ 2 / 2 <= exp (x ^ 2 / 2)).
        { destruct (Req_dec x 0) as [->|Hne]; [replace (0 ^ 2 / 2) with 0 by field; rewrite exp_0; lra|]. left. apply exp_ineq1. intros Hz. apply Hne. nra. }
        replace (- x ^ 2 / 2) with (- (x ^ 2 / 2)) by field. rewrite exp_Ropp. unfold Rdiv. rewrite Rinv_1, Rmult_1_r.
        apply (Rmult_le_reg_l (exp (x ^ 2 / 2))); [apply exp_pos|]. rewrite <- Rmult_assoc, Rinv_r, Rmult_1_l, Rmult_1_r by (pose proof (exp_pos (x ^ 2 / 2)); lra).
        unfold Rdiv in *. nra. }
    assert (/ e < - x) by lra. assert (e * (- x) > 1).
    { apply Rlt_gt. replace 1 with (e * / e) by (field; lra). apply Rmult_lt_compat_l; lra. }
    pose proof (phi_pos x). nra. }
  assert (SH : forall f, vanishes f -> vanishes (fun x => f ((x - m) / s))).
  { intros f Vf e He. destruct (Vf e He) as [x0 H0]. exists (s * x0 + m). intros x Hx. apply H0.
    apply (Rmult_le_reg_l s); [exact Hs|]. replace (s * ((x - m) / s)) with (x - m) by (field; lra). lra. }
  assert (KV : vanishes K).
  { intros e He. pose proof (Rabs_pos m) as Hm. destruct (SH cdf (proj2 HF) (e / 2 / (Rabs m + 1))) as [x0 Hx0]; [apply Rdiv_lt_0_compat; lra|].
    destruct (SH phi PV (e / 2 / s)) as [x1 H1]; [apply Rdiv_lt_0_compat; lra|].
    exists (Rmin x0 x1). intros x Hx. pose proof (Rmin_l x0 x1). pose proof (Rmin_r x0 x1). specialize (Hx0 x ltac:(lra)). specialize (H1 x ltac:(lra)). cbn in Hx0, H1.
    unfold K, Rminus. eapply Rle_lt_trans; [apply Rabs_triang|]. rewrite Rabs_Ropp, !Rabs_mult, (Rabs_right s) by lra.
    assert (A1 : Rabs m * Rabs (cdf ((x + - m) / s)) < e / 2 \/ Rabs m * Rabs (cdf ((x + - m) / s)) = 0 /\ 0 < e / 2).
    { destruct (Req_dec (Rabs m) 0) as [E|E]; [right; rewrite E; lra|]. left.
      apply Rle_lt_trans with (Rabs m * (e / 2 / (Rabs m + 1))); [apply Rmult_le_compat_l; [lra|left; exact Hx0]|].
      apply (Rmult_lt_reg_r (Rabs m + 1)); [lra|]. replace (Rabs m * (e / 2 / (Rabs m + 1)) * (Rabs m + 1)) with (Rabs m * (e / 2)) by (field; lra). nra. }
    assert (A2 : s * Rabs (phi ((x + - m) / s)) < e / 2).
    { apply Rlt_le_trans with (s * (e / 2 / s)); [apply Rmult_lt_compat_l; [exact Hs|exact H1]|right; field; lra]. }
    lra. }
  split; [exists K; split; [intros x; apply is_derive_Reals, KD|exact KV]|]. intros H [HD HV].
  (* two antiderivatives that vanish agree *)
  assert (EQ : H 0 = K 0).
  { set (d := fun x => H x - K x). assert (Dd : forall x, is_derive d x 0).
    { intros x. unfold d. evar_last; [apply (is_derive_minus H K x); [apply is_derive_Reals, HD|apply KD]|]. unfold minus, plus, opp; cbn. ring. }
    assert (Cst : forall x, x <= 0 -> d x = d 0).
    { intros x [Hx| ->]; [|reflexivity]. destruct (MVT_cor2 d (fun _ => 0) x 0 Hx) as (c & E & _); [intros; apply is_derive_Reals, Dd|]. lra. }
    assert (d 0 = 0); [|unfold d in *; lra].
    destruct (Req_dec (d 0) 0) as [E|E]; [exact E|exfalso]. assert (0 < Rabs (d 0)) by (apply Rabs_pos_lt; exact E).
    destruct (HV (Rabs (d 0) / 2) ltac:(lra)) as [x0 Ha]. destruct (KV (Rabs (d 0) / 2) ltac:(lra)) as [x1 Hb].
    set (x := Rmin 0 (Rmin x0 x1)). pose proof (Rmin_l 0 (Rmin x0 x1)). pose proof (Rmin_r 0 (Rmin x0 x1)). pose proof (Rmin_l x0 x1). pose proof (Rmin_r x0 x1).
    specialize (Ha x ltac:(unfold x; lra)). specialize (Hb x ltac:(unfold x; lra)). assert (Ex : d x = d 0) by (apply Cst; unfold x; lra).
    unfold d in Ex at 1. rewrite <- Ex in Ha, Hb. pose proof (Rabs_triang (H x) (- K x)) as T. rewrite Rabs_Ropp in T. fold (Rminus (H x) (K x)) in T. lra. }
  rewrite EQ. unfold K. rewrite Hp. replace ((0 - m) / s) with (- m / s) by (field; lra). field. pose proof (F_pos cdf HF (- m / s)). lra.
Qed.
Print Assumptions C160_mean.

(** Every margin of a batch norm without zero weights is negative. *)
Theorem C160_negative : forall cdf w m, normal_cdf cdf ->
  (w <> 0 -> exists margin, margin_of cdf w m = Ok margin /\ margin < 0) /\
  (w = 0 -> margin_of cdf w m = Raise ZeroDivisionError).
Proof.
  intros cdf w m HF. split.
  - intros Hw. assert (Hs : 0 < Rabs w) by (apply Rabs_pos_lt; exact Hw).
    destruct (Rgt_dec (cdf (- m / Rabs w)) (1 / 1000)) as [G|G].
    + eexists. split; [apply margin_pos; assumption|]. pose proof (mills cdf HF (- m / Rabs w)) as M. pose proof (F_pos cdf HF (- m / Rabs w)) as P.
      assert (Ep : phi (m / Rabs w) = phi (- m / Rabs w)) by (unfold phi; do 2 f_equal; field; lra). rewrite Ep.
      set (t := - m / Rabs w) in *. assert (Em : m = - Rabs w * t) by (unfold t; field; lra). rewrite Em at 1.
      replace (- Rabs w * t - Rabs w * phi t / cdf t) with (- (Rabs w * ((phi t + t * cdf t) / cdf t))) by (field; lra).
      assert (0 < Rabs w * ((phi t + t * cdf t) / cdf t)); [|lra]. apply Rmult_lt_0_compat; [exact Hs|]. apply Rdiv_lt_0_compat; assumption.
    + exists (-3 * Rabs w). split; [|lra]. unfold margin_of. destruct (Req_EM_T (Rabs w) 0) as [E|E]; [lra|]. destruct (Rgt_dec _ _); [contradiction|reflexivity].
  - intros ->. unfold margin_of. rewrite Rabs_R0. destruct (Req_EM_T 0 0) as [_|E]; [reflexivity|contradiction].
Qed.
Print Assumptions C160_negative.

(** A standard normal response; and a batch norm that never answers negatively. *)
Example C160_example : exists cdf, normal_cdf cdf /\ (exists margin, margin_of cdf 1 0 = Ok margin /\ margin < 0) /\
  margin_of cdf 0 5 = Raise ZeroDivisionError /\ (cdf (-10) <= 1 / 1000 -> margin_of cdf 2 20 = Ok (-6)).
Proof.
  destruct normal_cdf_exists as [F HF]. exists F. split; [exact HF|]. split; [apply (C160_negative F 1 0 HF); lra|]. split; [apply (C160_negative F 0 5 HF); reflexivity|].
  intros H. unfold margin_of. rewrite Rabs_right by lra. destruct (Req_EM_T 2 0) as [E|_]; [lra|].
  replace (- (20) / 2) with (-10) by field. destruct (Rgt_dec _ _); [lra|]. f_equal. ring.
Qed.

(** With a negative margin, the transformed teacher feature costs nothing exactly where the student
    matches a positive teacher response, or stays below the larger of the teacher response and
    the margin where the teacher response is not positive. *)
Theorem C160_loss : forall margin s t, margin < 0 ->
  (ofd_point s (Rmax t margin) = 0 <-> (0 < t /\ s = t) \/ (t <= 0 /\ s <= Rmax t margin)).
Proof.
  intros mg s t Hm. unfold ofd_point, sq, flag, gtb.
  destruct (Rlt_le_dec 0 t) as [Ht|Ht].
  - rewrite (Rmax_left t mg) by lra. destruct (Rgt_dec s t) as [G|G]; destruct (Rgt_dec t 0) as [K|K]; try lra; cbn [orb].
    + split; [intros E; exfalso; nra|intros [[_ E]|[E _]]; lra].
    + split; [intros E; left; split; [exact Ht|nra]|intros [[_ E]|[E _]]; [subst; ring|lra]].
  - assert (Hx : Rmax t mg <= 0) by (apply Rmax_lub; lra).
    destruct (Rgt_dec s (Rmax t mg)) as [G|G]; destruct (Rgt_dec (Rmax t mg) 0) as [K|K]; try lra; cbn [orb].
    + split; [intros E; exfalso; nra|intros [[E _]|[_ E]]; lra].
    + split; [intros _; right; lra|intros _; ring].
Qed.
Print Assumptions C160_loss.
Example C160_loss_ex : ofd_point (-1) (Rmax (-5) (-(1/2))) = 0.
Proof. apply C160_loss; [lra|]. right. split; [lra|]. apply Rle_trans with (-(1/2)); [lra|apply Rmax_r]. Qed.
