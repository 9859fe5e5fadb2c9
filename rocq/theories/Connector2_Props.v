(** C178: the attention masks of the FBKD connectors.  C179: the embeddings of the CRD connector.
    C180: what the MGD connector hides. *)
From Coq Require Import List ZArith Bool Reals Lra Lia.
From Verif Require Import Prelude Loss_Model Loss_Lemmas Connector_Model.
Import ListNotations.
Local Open Scope R_scope.

(* ------------------------------------------------------------------ *)
(** ** Specification *)
Fixpoint total (l : list R) : R := match l with [] => 0 | x :: r => x + total r end.
Definition average (l : list R) : R := total l / INR (length l).
(** The mean magnitude over the channels at position [j], and over the positions of one channel. *)
Definition at_position (x : list (list R)) (j : nat) : R := average (map (fun c => Rabs (nth j c 0)) x).
Definition of_channel (c : list R) : R := average (map Rabs c).
(** [mask] has one positive value for each magnitude, they add up to [n], and they are in the ratios of the exponentials of
    the magnitudes divided by the temperature. *)
Definition attention (t n : R) (magnitudes mask : list R) : Prop :=
  length mask = length magnitudes /\ Forall (Rlt 0) mask /\ total mask = n /\
  forall j k, (j < length mask)%nat -> (k < length mask)%nat ->
    nth j mask 0 = nth k mask 0 * exp ((nth j magnitudes 0 - nth k magnitudes 0) / t).

Lemma total_rsum l : total l = rsum l.
Proof. induction l as [|a l IH]; cbn; [reflexivity|]. rewrite IH. reflexivity. Qed.
Lemma average_rmean l : average l = rmean l.
Proof. unfold average, rmean, rlen. rewrite total_rsum. reflexivity. Qed.
Lemma nth_map0 {A} (f : A -> R) (d : A) l j : (j < length l)%nat -> nth j (map f l) 0 = f (nth j l d).
Proof. revert j. induction l as [|a l IH]; intros [|j] h; cbn in *; try lia; [reflexivity|]. apply IH. lia. Qed.
Lemma mask_spec t n l : l <> [] -> 0 < n -> attention t n l (map (fun v => v * n) (softmax (divide t l))).
Proof.
  intros hl hn. assert (divide t l <> []) as hd by (destruct l; [contradiction|discriminate]).
  unfold attention. rewrite map_length, softmax_length, divide_length. split; [reflexivity|]. split; [|split].
  - apply Forall_forall. intros v hv. apply in_map_iff in hv as (u & <- & hu). pose proof (softmax_pos (divide t l)) as hp.
    rewrite Forall_forall in hp. specialize (hp u hu). apply Rmult_lt_0_compat; assumption.
  - rewrite total_rsum. rewrite (map_ext _ (fun v => n * v)) by (intros; ring).
    rewrite rsum_map_scale, map_id, softmax_sum by exact hd. ring.
  - intros j k hj hk.
    assert (forall i, (i < length l)%nat -> nth i (map (fun v => v * n) (softmax (divide t l))) 0 = exp (nth i l 0 / t) / rsum (map exp (divide t l)) * n) as e.
    { intros i hi. rewrite (nth_map0 _ 0) by (rewrite softmax_length, divide_length; exact hi). f_equal. unfold softmax.
      rewrite (nth_map0 _ 0) by (rewrite divide_length; exact hi). f_equal. f_equal. unfold divide. apply (nth_map0 (fun v => v / t) 0). exact hi. }
    rewrite !e by assumption. replace ((nth j l 0 - nth k l 0) / t) with (nth j l 0 / t - nth k l 0 / t) by (unfold Rdiv; ring).
    replace (exp (nth j l 0 / t)) with (exp (nth k l 0 / t) * exp (nth j l 0 / t - nth k l 0 / t)).
    + unfold Rdiv. ring.
    + rewrite <- exp_plus. f_equal. ring.
Qed.

(* ------------------------------------------------------------------ *)
(** The spatial mask weighs the positions of the feature map by their mean magnitude, with mean weight one. *)
Theorem C178_spatial : forall t h w x,
  (0 < h)%nat -> (0 < w)%nat ->
  attention t (INR (h * w)) (map (at_position x) (seq 0 (h * w))) (spatial_mask t h w x).
Proof.
  intros t h w x hh hw. unfold spatial_mask.
  rewrite (map_ext (fun v => v * INR w * INR h) (fun v => v * INR (h * w))) by (intros; rewrite mult_INR; ring).
  rewrite (map_ext (at_position x) (fun j => rmean (map Rabs (column x j)))).
  - apply mask_spec.
    + destruct (h * w)%nat eqn:e; [nia|discriminate].
    + apply lt_0_INR. nia.
  - intros j. unfold at_position, column. rewrite average_rmean, map_map. reflexivity.
Qed.
Example C178_spatial_example :
  attention (1 / 2) 4 [2; 1; 1; 0] (spatial_mask (1 / 2) 2 2 [[-1; 1; 2; 0]; [3; 1; 0; 0]]).
Proof.
  pose proof (C178_spatial (1 / 2) 2 2 [[-1; 1; 2; 0]; [3; 1; 0; 0]] ltac:(lia) ltac:(lia)) as h.
  cbn [Nat.mul Nat.add INR seq map at_position average total length nth] in h.
  assert (forall a b c d a' b' c' d' : R, a = a' -> b = b' -> c = c' -> d = d' -> [a; b; c; d] = [a'; b'; c'; d']) as e by (intros; subst; reflexivity).
  replace 4 with (1 + 1 + 1 + 1) by ring.
  replace [2; 1; 1; 0] with [at_position [[-1; 1; 2; 0]; [3; 1; 0; 0]] 0; at_position [[-1; 1; 2; 0]; [3; 1; 0; 0]] 1;
                             at_position [[-1; 1; 2; 0]; [3; 1; 0; 0]] 2; at_position [[-1; 1; 2; 0]; [3; 1; 0; 0]] 3]; [exact h|].
  apply e; unfold at_position, average; cbn [map nth total length INR];
    repeat match goal with |- context [Rabs ?a] => unfold Rabs at 1; destruct (Rcase_abs a); try lra end.
Qed.
(** The channel mask weighs the channels by their mean magnitude; its mean is one if the feature map has the channels that the
    connector was configured with. *)
Theorem C178_channel : forall t n x,
  x <> [] -> (0 < n)%nat -> attention t (INR n) (map of_channel x) (channel_mask t n x).
Proof.
  intros t n x hx hn. unfold channel_mask. rewrite (map_ext of_channel (fun c => rmean (map Rabs c))).
  - apply mask_spec; [destruct x; [contradiction|discriminate]|apply lt_0_INR; exact hn].
  - intros c. unfold of_channel. apply average_rmean.
Qed.
Example C178_channel_example : attention 1 2 [2; 1] (channel_mask 1 2 [[-2; 2]; [0; 2]]).
Proof.
  pose proof (C178_channel 1 2 [[-2; 2]; [0; 2]] ltac:(discriminate) ltac:(lia)) as h. replace 2 with (INR 2) at 1 by (cbn; ring).
  replace [2; 1] with (map of_channel [[-2; 2]; [0; 2]]); [exact h|]. cbn [map]. unfold of_channel, average. cbn [map total length INR].
  assert (forall a b a' b' : R, a = a' -> b = b' -> [a; b] = [a'; b']) as e by (intros; subst; reflexivity).
  apply e; repeat match goal with |- context [Rabs ?a] => unfold Rabs at 1; destruct (Rcase_abs a); try lra end.
Qed.
(** With a positive temperature the louder of two places gets the larger weight. *)
Theorem C178_order : forall t n magnitudes mask j k,
  0 < t -> attention t n magnitudes mask -> (j < length mask)%nat -> (k < length mask)%nat ->
  (nth j mask 0 < nth k mask 0 <-> nth j magnitudes 0 < nth k magnitudes 0).
Proof.
  intros t n ms mask j k ht (_ & hp & _ & hr) hj hk. rewrite (hr j k hj hk).
  assert (0 < nth k mask 0) as h0 by (rewrite Forall_forall in hp; apply hp, nth_In, hk).
  set (a := nth j ms 0) in *. set (b := nth k ms 0) in *. set (m := nth k mask 0) in *. split.
  - intros h. assert (exp ((a - b) / t) < exp 0) as he by (rewrite exp_0; nra). apply exp_lt_inv in he.
    assert ((a - b) / t * t < 0 * t) as hq by (apply Rmult_lt_compat_r; assumption). unfold Rdiv in hq. rewrite Rmult_assoc, Rinv_l in hq by lra. lra.
  - intros h. assert (exp ((a - b) / t) < exp 0) as he; [|rewrite exp_0 in he; nra]. apply exp_increasing.
    assert (0 < / t) by (apply Rinv_0_lt_compat; exact ht). unfold Rdiv. nra.
Qed.
Example C178_order_example :
  nth 3 (spatial_mask (1 / 2) 2 2 [[-1; 1; 2; 0]; [3; 1; 0; 0]]) 0 < nth 0 (spatial_mask (1 / 2) 2 2 [[-1; 1; 2; 0]; [3; 1; 0; 0]]) 0.
Proof. apply (C178_order (1 / 2) 4 [2; 1; 1; 0] _ 3 0 ltac:(lra) C178_spatial_example); [cbn; lia|cbn; lia|cbn; lra]. Qed.
Print Assumptions C178_spatial.
Print Assumptions C178_channel.
Print Assumptions C178_order.

(* ------------------------------------------------------------------ *)
(** ** C179 *)
Definition squares (l : list R) : R := total (map (fun v => v * v) l).
Fixpoint inner (a b : list R) : R := match a, b with x :: a', y :: b' => x * y + inner a' b' | _, _ => 0 end.

Lemma squares_nonneg l : 0 <= squares l.
Proof. unfold squares. induction l as [|a l IH]; cbn; [lra|]. nra. Qed.
Lemma squares_0 l : squares l = 0 <-> Forall (fun v => v = 0) l.
Proof.
  unfold squares. induction l as [|a l IH]; cbn; [split; [constructor|reflexivity]|].
  pose proof (squares_nonneg l) as hn. unfold squares in hn. split.
  - intros h. assert (a * a = 0) as ha by nra. constructor; [nra|apply IH; nra].
  - intros h. inversion h; subst. rewrite (proj2 IH) by assumption. ring.
Qed.
Lemma row_norm_sq l : row_norm l = sqrt (squares l).
Proof. unfold row_norm, squares. rewrite <- (total_rsum (map (fun v => v ^ 2) l)). f_equal. f_equal. apply map_ext. intros. ring. Qed.
Lemma squares_scale c l : squares (map (fun v => v / c) l) = squares l * (/ c * / c).
Proof. unfold squares. induction l as [|a l IH]; cbn; [ring|]. rewrite IH. unfold Rdiv. ring. Qed.
Lemma row_norm_0 l : row_norm l = 0 <-> Forall (fun v => v = 0) l.
Proof.
  rewrite row_norm_sq. split.
  - intros h. apply squares_0. apply sqrt_eq_0 in h; auto using squares_nonneg.
  - intros h. rewrite (proj2 (squares_0 l) h). apply sqrt_0.
Qed.
Lemma row_norm_nonneg l : 0 <= row_norm l.
Proof. unfold row_norm. apply sqrt_pos. Qed.
Lemma normalize_inv l out : normalize l = Some out -> row_norm l <> 0 /\ out = map (fun v => v / row_norm l) l.
Proof. unfold normalize. destruct (Req_EM_T (row_norm l) 0); [discriminate|]. intros [= <-]. auto. Qed.

(** Every embedding has norm one and is a positive multiple of the image under the linear layer; there is none exactly if that image is zero. *)
Theorem C179_unit : forall weight bias x,
  let image := zipw (fun w b => dot w (concat x) + b) weight bias in
  match crd_forward weight bias x with
  | Some out => squares out = 1 /\ exists c, 0 < c /\ out = map (Rmult c) image
  | None => Forall (fun v => v = 0) image
  end.
Proof.
  intros weight bias x image. unfold crd_forward. fold image. clearbody image. destruct (normalize image) as [out|] eqn:e.
  - apply normalize_inv in e as [hn ->]. pose proof (row_norm_nonneg image) as h0. split.
    + rewrite squares_scale. assert (squares image = row_norm image * row_norm image) as -> by (rewrite row_norm_sq; symmetry; apply sqrt_sqrt, squares_nonneg).
      field. exact hn.
    + exists (/ row_norm image). split; [apply Rinv_0_lt_compat; lra|]. apply map_ext. intros. unfold Rdiv. ring.
  - apply row_norm_0. unfold normalize in e. destruct (Req_EM_T (row_norm image) 0); [assumption|discriminate].
Qed.
Example C179_unit_example : exists c, 0 < c /\ crd_forward [[1; 0]; [0; 1]] [0; 1] [[3]; [3]] = Some [c * 3; c * 4] /\ squares [c * 3; c * 4] = 1.
Proof.
  pose proof (C179_unit [[1; 0]; [0; 1]] [0; 1] [[3]; [3]]) as h. cbn [zipw combine map fst snd concat app] in h.
  destruct (crd_forward [[1; 0]; [0; 1]] [0; 1] [[3]; [3]]) as [out|].
  - destruct h as [h1 (c & h2 & h3)]. exists c. split; [exact h2|].
    assert (out = [c * 3; c * 4]) as e.
    { rewrite h3. unfold dot. cbn [zipw combine map fst snd concat app rsum fold_right].
      assert (forall a b a' b' : R, a = a' -> b = b' -> [a; b] = [a'; b']) as e by (intros; subst; reflexivity). apply e; ring. }
    subst out. rewrite <- e. split; [reflexivity|exact h1].
  - exfalso. inversion h as [|? ? h1 _]; subst. unfold dot in h1. cbn [zipw combine map fst snd concat app rsum fold_right] in h1. lra.
Qed.
(** Features that only differ by a positive factor have the same embedding when the layer has no bias. *)
Theorem C179_scale : forall weight x c,
  0 < c -> crd_forward weight (map (fun _ => 0) weight) (map (map (Rmult c)) x) = crd_forward weight (map (fun _ => 0) weight) x.
Proof.
  intros weight x c hc. unfold crd_forward.
  assert (forall w l, dot w (map (Rmult c) l) = c * dot w l) as hd.
  { intros w l. unfold dot. revert l. induction w as [|a w IH]; intros [|b l]; unfold zipw in *; cbn [map combine fst snd];
      rewrite ?rsum_cons, ?rsum_nil; [ring|ring|ring|]. rewrite IH. ring. }
  assert (zipw (fun w b => dot w (concat (map (map (Rmult c)) x)) + b) weight (map (fun _ => 0) weight) =
          map (Rmult c) (zipw (fun w b => dot w (concat x) + b) weight (map (fun _ => 0) weight))) as ->.
  { rewrite <- concat_map. induction weight as [|w l IH]; [reflexivity|]. unfold zipw in *. cbn [map combine fst snd]. rewrite IH, hd. f_equal. ring. }
  generalize (zipw (fun w b => dot w (concat x) + b) weight (map (fun _ : list R => 0) weight)). intros l.
  assert (row_norm (map (Rmult c) l) = c * row_norm l) as hn.
  { rewrite !row_norm_sq. rewrite (map_ext (Rmult c) (fun v => v / / c)) by (intros; unfold Rdiv; rewrite Rinv_inv; ring). rewrite squares_scale, Rinv_inv.
    rewrite sqrt_mult by (auto using squares_nonneg; nra). rewrite sqrt_square by lra. ring. }
  unfold normalize. rewrite hn. destruct (Req_EM_T (c * row_norm l) 0) as [e|e], (Req_EM_T (row_norm l) 0) as [e'|e']; try reflexivity.
  - exfalso. apply e'. nra.
  - exfalso. apply e. rewrite e'. ring.
  - f_equal. rewrite map_map. apply map_ext. intros v. field. split; [exact e'|lra].
Qed.
Example C179_scale_example : crd_forward [[1; 2]] [0] [[2 * 1; 2 * 1]] = crd_forward [[1; 2]] [0] [[1; 1]].
Proof. exact (C179_scale [[1; 2]] [[1; 1]] 2 ltac:(lra)). Qed.
(** The similarity of two embeddings, their inner product, lies between -1 and 1. *)
Theorem C179_similarity : forall weight bias weight' bias' x y a b,
  crd_forward weight bias x = Some a -> crd_forward weight' bias' y = Some b -> length a = length b -> -1 <= inner a b <= 1.
Proof.
  intros weight bias weight' bias' x y a b ha hb hl.
  assert (squares a = 1) as qa by (pose proof (C179_unit weight bias x) as h; rewrite ha in h; apply h).
  assert (squares b = 1) as qb by (pose proof (C179_unit weight' bias' y) as h; rewrite hb in h; apply h).
  assert (forall a b, length a = length b -> - (squares a + squares b) <= 2 * inner a b <= squares a + squares b) as h.
  { clear. unfold squares. induction a as [|u a IH]; intros [|v b] h; try discriminate; cbn; [lra|]. specialize (IH b ltac:(cbn in h; lia)).
    pose proof (Rle_0_sqr (u - v)) as q1. pose proof (Rle_0_sqr (u + v)) as q2. unfold Rsqr in q1, q2.
    set (A := total (map (fun w => w * w) a)) in *. set (B := total (map (fun w => w * w) b)) in *. set (I0 := inner a b) in *. clearbody A B I0. split; nra. }
  specialize (h a b hl). lra.
Qed.
Example C179_similarity_example : forall a b,
  crd_forward [[1; 0]; [0; 1]] [0; 1] [[3]; [3]] = Some a -> crd_forward [[1; 0]; [0; 1]] [0; 0] [[1]; [2]] = Some b -> inner a b <= 1.
Proof.
  intros a b ha hb. eapply C179_similarity; [exact ha|exact hb|].
  apply normalize_inv in ha as [_ ->]. apply normalize_inv in hb as [_ ->]. reflexivity.
Qed.
Print Assumptions C179_unit.
Print Assumptions C179_scale.
Print Assumptions C179_similarity.

(* ------------------------------------------------------------------ *)
(** ** C180 *)
Definition value (x : list (list R)) (c j : nat) : R := nth j (nth c x []) 0.
Definition rectangular (x : list (list R)) (n : nat) : Prop := Forall (fun c => length c = n) x.
(** What the draw for a place says: the value there is hidden. *)
Definition hidden (lambda r : R) : Prop := 1 - lambda < r.

Lemma keep_of_spec lambda r : (hidden lambda r -> keep_of lambda r = 0) /\ (~ hidden lambda r -> keep_of lambda r = 1).
Proof. unfold keep_of, hidden. destruct (Rlt_dec (1 - lambda) r); split; intros; try reflexivity; contradiction. Qed.
Lemma nth_zipw {A B} (f : A -> B -> R) (da : A) (db : B) a : forall b j, (j < length a)%nat -> (j < length b)%nat ->
  nth j (zipw f a b) 0 = f (nth j a da) (nth j b db).
Proof. unfold zipw. induction a as [|u a IH]; intros [|v b] [|j] h1 h2; cbn in *; try lia; [reflexivity|]. apply IH; lia. Qed.
Lemma nth_zipw_l {A B} (f : A -> B -> list R) (da : A) (db : B) a : forall b j, (j < length a)%nat -> (j < length b)%nat ->
  nth j (zipw f a b) [] = f (nth j a da) (nth j b db).
Proof. unfold zipw. induction a as [|u a IH]; intros [|v b] [|j] h1 h2; cbn in *; try lia; [reflexivity|]. apply IH; lia. Qed.
Lemma masked_value lambda (on : bool) draws x n c j : rectangular x n -> length draws = (if on then length x else n) ->
  (c < length x)%nat -> (j < n)%nat ->
  value (mgd_masked lambda on draws x) c j = value x c j * keep_of lambda (nth (if on then c else j) draws 0).
Proof.
  intros hr hl hc hj. unfold value, mgd_masked. assert (length (nth c x []) = n) as hn by (unfold rectangular in hr; rewrite Forall_forall in hr; apply hr, nth_In, hc).
  destruct on.
  - rewrite (nth_zipw_l (fun (c : list R) (m : R) => map (fun v => v * m) c) [] 0) by (rewrite ?map_length; lia). rewrite (nth_map0 _ 0) by lia. f_equal. apply (nth_map0 (keep_of lambda) 0). lia.
  - rewrite (nth_indep _ [] (zipw Rmult [] (map (keep_of lambda) draws))) by (rewrite map_length; exact hc).
    rewrite (map_nth (fun c0 => zipw Rmult c0 (map (keep_of lambda) draws))). rewrite (nth_zipw _ 0 0) by (rewrite ?map_length; lia).
    f_equal. apply (nth_map0 (keep_of lambda) 0). lia.
Qed.

(** A value is hidden, with all the values at its position (or with its whole channel), or it is kept as it is. *)
Theorem C180_masked : forall lambda (on : bool) draws x n c j,
  rectangular x n -> length draws = (if on then length x else n) -> (c < length x)%nat -> (j < n)%nat ->
  let r := nth (if on then c else j) draws 0 in
  (hidden lambda r -> value (mgd_masked lambda on draws x) c j = 0) /\
  (~ hidden lambda r -> value (mgd_masked lambda on draws x) c j = value x c j).
Proof.
  intros lambda on draws x n c j hr hl hc hj r. rewrite (masked_value _ _ _ _ n) by assumption. fold r. destruct (keep_of_spec lambda r) as [h0 h1].
  split; intros h; [rewrite (h0 h)|rewrite (h1 h)]; ring.
Qed.
Example C180_masked_example :
  value (mgd_masked (1 / 2) false [1 / 4; 3 / 4] [[5; 6]; [7; 8]]) 1 0 = 7 /\ value (mgd_masked (1 / 2) false [1 / 4; 3 / 4] [[5; 6]; [7; 8]]) 1 1 = 0 /\
  value (mgd_masked (1 / 2) true [1 / 4; 3 / 4] [[5; 6]; [7; 8]]) 0 1 = 6 /\ value (mgd_masked (1 / 2) true [1 / 4; 3 / 4] [[5; 6]; [7; 8]]) 1 0 = 0.
Proof.
  assert (rectangular [[5; 6]; [7; 8]] 2) as hr by (repeat constructor).
  repeat split.
  - apply (C180_masked (1 / 2) false [1 / 4; 3 / 4] _ 2 1 0 hr eq_refl); [cbn; lia|lia|unfold hidden; cbn; lra].
  - apply (C180_masked (1 / 2) false [1 / 4; 3 / 4] _ 2 1 1 hr eq_refl); [cbn; lia|lia|unfold hidden; cbn; lra].
  - apply (C180_masked (1 / 2) true [1 / 4; 3 / 4] _ 2 0 1 hr eq_refl); [cbn; lia|lia|unfold hidden; cbn; lra].
  - apply (C180_masked (1 / 2) true [1 / 4; 3 / 4] _ 2 1 0 hr eq_refl); [cbn; lia|lia|unfold hidden; cbn; lra].
Qed.
(** torch.rand draws from [0, 1): a ratio of zero or less hides nothing, a ratio above one everything, and a larger ratio hides
    whatever a smaller one hides. *)
Theorem C180_ratio : forall lambda lambda' r,
  0 <= r < 1 ->
  (lambda <= 0 -> ~ hidden lambda r) /\ (1 < lambda -> hidden lambda r) /\ (lambda <= lambda' -> hidden lambda r -> hidden lambda' r).
Proof. unfold hidden. intros lambda lambda' r h. repeat split; intros; lra. Qed.
Example C180_ratio_example : ~ hidden 0 (99 / 100) /\ hidden (65 / 100) (1 / 2).
Proof. unfold hidden. split; lra. Qed.
(** The generation block is applied to the masked features, after the channels have been aligned if they differ. *)
Theorem C180_forward : forall align generation lambda (on : bool) draws x n,
  (lambda <= 0) -> Forall (fun r => r < 1) draws ->
  let y := match align with Some f => f x | None => x end in
  rectangular y n -> length draws = (if on then length y else n) -> mgd_forward align generation lambda on draws x = generation y.
Proof.
  intros align generation lambda on draws x n h0 hd y hr hl. unfold mgd_forward. fold y. f_equal.
  assert (map (keep_of lambda) draws = map (fun _ => 1) draws) as em.
  { apply map_ext_in. intros r hin. rewrite Forall_forall in hd. specialize (hd r hin). apply (proj2 (keep_of_spec lambda r)). unfold hidden. lra. }
  unfold mgd_masked. rewrite em. clearbody y. destruct on.
  - clear em hd hr. revert draws hl. induction y as [|c y IH]; intros [|r draws] hl; try discriminate; [reflexivity|]. cbn [map]. unfold zipw in *. cbn [combine map fst snd].
    rewrite IH by (cbn in hl; lia). f_equal. rewrite <- (map_id c) at 2. apply map_ext. intros; ring.
  - rewrite <- (map_id y) at 2. apply map_ext_in. intros c hc. unfold rectangular in hr. rewrite Forall_forall in hr. specialize (hr c hc).
    clear em hd hc. revert draws n hl hr. induction c as [|v c IH]; intros [|r draws] n hl hr; cbn in *; try reflexivity; [lia|].
    unfold zipw in *. cbn [map combine fst snd]. rewrite (IH draws (length c)) by lia. f_equal. ring.
Qed.
Example C180_forward_example :
  mgd_forward (Some (map (map (Rmult 2)))) (map (map Ropp)) 0 false [1 / 2; 1 / 3] [[1; 2]] = [[- (2 * 1); - (2 * 2)]].
Proof.
  rewrite (C180_forward _ _ 0 false [1 / 2; 1 / 3] [[1; 2]] 2); [reflexivity|lra| |repeat constructor|reflexivity].
  repeat constructor; lra.
Qed.
Print Assumptions C180_masked.
Print Assumptions C180_ratio.
Print Assumptions C180_forward.
