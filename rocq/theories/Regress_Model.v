(** Distillation losses on features and relations: mmrazor/models/losses/ab_loss.py,
    ofd_loss.py, l1_loss.py, l2_loss.py, mgd_loss.py, at_loss.py, factor_transfer_loss.py,
    pkd_loss.py, dist_loss.py, relational_kd.py, fbkd_loss.py, cross_entropy_loss.py,
    kd_soft_ce_loss.py and [ActivationLoss] of dafl_loss.py.

    Tensor entries are real numbers; rounding, overflow and gradients are not modelled.  A
    result that torch returns as NaN (0 / 0, or the mean of no entries) is [None]. *)
From Verif Require Import Prelude Loss_Model.
From Coq Require Import Reals.
Open Scope R_scope.

Definition sq (x : R) : R := x * x.
(** [feature.norm(2)] of one row. *)
Definition norm2 (l : list R) : R := sqrt (rsum (map sq l)).
Definition flag (b : bool) : R := if b then 1 else 0.
Definition gtb (x y : R) : bool := if Rgt_dec x y then true else false.
Definition rleb (x y : R) : bool := if Rle_dec x y then true else false.

(** * Activation boundaries (ab_loss.py), one list of entries per sample *)
(** 59-64, one entry. *)
Definition ab_point (margin s t : R) : R :=
  Rabs (sq (s + margin) * flag (gtb s (- margin) && rleb t 0)
        + sq (s - margin) * flag (rleb s margin && gtb t 0)).
(** 30-44, [ABLoss.forward]. *)
Definition ab_loss (margin loss_weight : R) (s_feature t_feature : list (list R)) : R :=
  let loss := rsum (zipw (ab_point margin) (concat s_feature) (concat t_feature)) in
  loss_weight * (loss / rlen s_feature / 1000 * 3).

(** ofd_loss.py:27-55, [OFDLoss.forward]. *)
Definition ofd_point (s t : R) : R := sq (s - t) * flag (gtb s t || gtb t 0).
Definition ofd_loss (mul_factor loss_weight : R) (s_feature t_feature : list (list R)) : R :=
  loss_weight * (rsum (zipw ofd_point (concat s_feature) (concat t_feature)) / rlen s_feature / mul_factor).

(** * l1_loss.py *)
(** [F.l1_loss(input, target, size_average, reduce, reduction)]: a given [size_average] or
    [reduce] decides the reduction; otherwise 'batchmean' is not one of those of torch. *)
Definition l1_reduction (size_average reduce : option bool) (red : reduction) : outcome reduction :=
  match size_average, reduce with
  | None, None => match red with RBatchmean => Raise ValueError | r => Ok r end
  | _, _ =>
    let sa := match size_average with Some b => b | None => true end in
    let re := match reduce with Some b => b | None => true end in
    Ok (if sa && re then RMean else if re then RSum else RNone)
  end.
(** 54-68, [L1Loss.forward] on the entries of the two tensors. *)
Definition l1_loss (loss_weight : R) (size_average reduce : option bool) (red : reduction)
    (s_feature t_feature : list R) : outcome lossval :=
  do how <- l1_reduction size_average reduce red;
  let es := zipw (fun s t => Rabs (s - t)) s_feature t_feature in
  Ok (scale loss_weight (match how with
                         | RNone => Elems es
                         | RMean => Scalar (rmean es)
                         | _ => Scalar (rsum es)
                         end)).

(** * l2_loss.py, one row per sample *)
(** 66-74, [normalize_feature]: a row of zeros becomes 0 / 0. *)
Definition normalize_feature (mult : R) (r : list R) : option (list R) :=
  if Req_EM_T (norm2 r) 0 then None else Some (map (fun x => x / norm2 r * mult) r).
Fixpoint all_some {A} (l : list (option A)) : option (list A) :=
  match l with
  | [] => Some []
  | None :: _ => None
  | Some x :: r => match all_some r with Some r => Some (x :: r) | None => None end
  end.
Definition l2_value (div_element dist : bool) (loss_weight : R) (s t : list (list R)) : R :=
  let loss := rsum (zipw (fun a b => sq (a - b)) (concat s) (concat t)) in
  loss_weight * (if dist then sqrt loss
                 else if div_element then loss / rlen (concat s) else loss / rlen s).
(** 36-64, [L2Loss.forward]. *)
Definition l2_loss (normalize : bool) (mult : R) (div_element dist : bool) (loss_weight : R)
    (s t : list (list R)) : option R :=
  if normalize then
    match all_some (map (normalize_feature mult) s), all_some (map (normalize_feature mult) t) with
    | Some s, Some t => Some (l2_value div_element dist loss_weight s t)
    | _, _ => None
    end
  else Some (l2_value div_element dist loss_weight s t).

(** mgd_loss.py:24-55; [shape_S] and [shape_T] are the shapes of the two feature maps. *)
Definition mgd_loss (alpha_mgd : R) (shape_S shape_T : list nat) (s t : list R) : outcome R :=
  if list_eq_dec Nat.eq_dec shape_S shape_T
  then Ok (rsum (zipw (fun a b => sq (a - b)) s t) / INR (nth 0 shape_T 0%nat) * alpha_mgd)
  else Raise AssertionError.

(** * Normalised features *)
(** [F.normalize] of a row: divided by its norm, or by [eps] = 1e-12 where that is larger. *)
Definition tiny : R := / (10 ^ 12).
Definition f_normalize (r : list R) : list R := map (fun x => x / Rmax (norm2 r) tiny) r.
(** at_loss.py:34-40, [calc_attention_matrix] of one sample, given as one row of H * W entries
    per channel: mean over the channels of the squares. *)
Definition attention (P : nat) (x : list (list R)) : list R :=
  f_normalize (map (fun i => rmean (map (fun ch => sq (nth i ch 0)) x)) (seq 0 P)).
(** 26-32, [ATLoss.forward]; [P] is H * W. *)
Definition at_loss (P : nat) (loss_weight : R) (s t : list (list (list R))) : R :=
  loss_weight * rmean (concat (zipw (zipw (fun a b => sq (a - b)))
                                    (map (attention P) s) (map (attention P) t))).
(** factor_transfer_loss.py:25-39, one row per sample. *)
Definition ft_loss (loss_weight : R) (s t : list (list R)) : R :=
  loss_weight * rmean (concat (zipw (zipw (fun a b => Rabs (a - b)))
                                    (map f_normalize s) (map f_normalize t))).

(** * pkd_loss.py *)
(** A feature map (N, C, H, W): samples, each one row of H * W entries per channel. *)
Record fmap := FMap { fm_h : nat; fm_w : nat; fm_c : nat; fm_data : list (list (list R)) }.
(** 31, [feat.permute(1, 0, 2, 3).reshape(C, -1)]. *)
Definition by_channel (f : fmap) : list (list R) :=
  map (fun c => concat (map (fun sample => nth c sample []) (fm_data f))) (seq 0 (fm_c f)).
Definition micro : R := / (10 ^ 6).
(** [feat.std] with torch's default correction; NaN for fewer than two entries. *)
Definition stdev (l : list R) : option R :=
  if Nat.leb (length l) 1 then None
  else Some (sqrt (rsum (map (fun x => sq (x - rmean l)) l) / (rlen l - 1))).
(** 22-36, [norm] of one channel. *)
Definition pkd_norm (l : list R) : option (list R) :=
  match stdev l with
  | Some sd => Some (map (fun x => (x - rmean l) / (sd + micro)) l)
  | None => None
  end.
(** 67-73: the loss of one pair of feature maps, on their channels (both are permuted alike,
    so the entries of the mean are listed channel by channel). *)
Definition pkd_pair (s t : list (list R)) : option R :=
  match all_some (map pkd_norm s), all_some (map pkd_norm t) with
  | Some s, Some t => Some (rmean (zipw (fun a b => sq (a - b)) (concat s) (concat t)) / 2)
  | _, _ => None
  end.
Section Pkd.
  (** [F.interpolate(feat, (h, w), mode='bilinear')]. *)
  Variable interpolate : fmap -> nat -> nat -> fmap.
  (** 57-64: the two feature maps compared. *)
  Definition pkd_align (resize_stu : bool) (s t : fmap) : outcome (fmap * fmap) :=
    let '(s, t) :=
      if Nat.eqb (fm_h s) (fm_h t) then (s, t)
      else if resize_stu then (interpolate s (fm_h t) (fm_w t), t)
      else (s, interpolate t (fm_h s) (fm_w s)) in
    if (Nat.eqb (fm_h s) (fm_h t) && Nat.eqb (fm_w s) (fm_w t) && Nat.eqb (fm_c s) (fm_c t)
        && Nat.eqb (length (fm_data s)) (length (fm_data t)))%bool
    then Ok (s, t) else Raise AssertionError.
  Fixpoint pkd_sum (resize_stu : bool) (pairs : list (fmap * fmap)) (loss : option R) : outcome (option R) :=
    match pairs with
    | [] => Ok loss
    | (s, t) :: r =>
      do st <- pkd_align resize_stu s t;
      pkd_sum resize_stu r
        (match loss, pkd_pair (by_channel (fst st)) (by_channel (snd st)) with
         | Some a, Some b => Some (a + b)
         | _, _ => None
         end)
    end.
  (** 38-75, [PKDLoss.forward] on tuples of feature maps. *)
  Definition pkd_loss (resize_stu : bool) (loss_weight : R) (preds_S preds_T : list fmap) : outcome (option R) :=
    do loss <- pkd_sum resize_stu (combine preds_S preds_T) (Some 0);
    Ok (option_map (fun x => x * loss_weight) loss).
End Pkd.

(** * dist_loss.py *)
Definition nano8 : R := / (10 ^ 8).
Definition dot (a b : list R) : R := rsum (zipw Rmult a b).
(** 8-9, one row. *)
Definition cosine_similarity (a b : list R) : R := dot a b / (norm2 a * norm2 b + nano8).
Definition centred (a : list R) : list R := map (fun x => x - rmean a) a.
(** 12-14. *)
Definition pearson_correlation (a b : list R) : R := cosine_similarity (centred a) (centred b).
(** 17-18. *)
Definition inter_class_relation (y_s y_t : list (list R)) : R :=
  1 - rmean (zipw pearson_correlation y_s y_t).
(** [y.transpose(0, 1)] of rows of [C] entries. *)
Definition transpose (C : nat) (y : list (list R)) : list (list R) :=
  map (fun c => map (fun r => nth c r 0) y) (seq 0 C).
(** 21-22. *)
Definition intra_class_relation (C : nat) (y_s y_t : list (list R)) : R :=
  inter_class_relation (transpose C y_s) (transpose C y_t).
(** 43-51, [DISTLoss.forward]; [C] classes. *)
Definition dist_loss (C : nat) (inter_w intra_w tau loss_weight : R) (logits_S logits_T : list (list R)) : R :=
  let y_s := map (fun r => softmax (divide tau r)) logits_S in
  let y_t := map (fun r => softmax (divide tau r)) logits_T in
  let inter_loss := tau * tau * inter_class_relation y_s y_t in
  let intra_loss := tau * tau * intra_class_relation C y_s y_t in
  (inter_w * inter_loss + intra_w * intra_loss) * loss_weight.

(** * relational_kd.py *)
(** 9-33, [euclidean_distance] with [squared=False], as a matrix of rows. *)
Definition row (pred : list (list R)) (i : nat) : list R := nth i pred [].
Definition euclidean_distance (pred : list (list R)) : list (list R) :=
  let n := length pred in
  let square i := rsum (map sq (row pred i)) in
  map (fun i => map (fun j =>
    if Nat.eqb i j then 0
    else sqrt (Rmax (square i + square j - 2 * dot (row pred i) (row pred j)) tiny)) (seq 0 n)) (seq 0 n).
(** [d[d > 0].mean()]. *)
Definition mean_positive (l : list R) : option R :=
  match filter (fun x => gtb x 0) l with [] => None | p => Some (rmean p) end.
(** [F.smooth_l1_loss] with beta 1, one entry. *)
Definition smooth_l1 (x y : R) : R :=
  if Rlt_dec (Rabs (x - y)) 1 then sq (x - y) / 2 else Rabs (x - y) - / 2.
(** 76-88, [distance_loss]. *)
Definition distance_loss (s t : list (list R)) : option R :=
  let d_T := concat (euclidean_distance t) in
  let d_S := concat (euclidean_distance s) in
  match mean_positive d_T, mean_positive d_S with
  | Some m_T, Some m_S =>
    Some (rmean (zipw smooth_l1 (map (fun x => x / m_S) d_S) (map (fun x => x / m_T) d_T)))
  | _, _ => None
  end.
(** 90-109, [DistanceWiseRKD.forward]; one row per sample. *)
Definition distance_rkd (with_l2_norm : bool) (loss_weight : R) (s t : list (list R)) : option R :=
  let s := if with_l2_norm then map f_normalize s else s in
  let t := if with_l2_norm then map f_normalize t else t in
  option_map (fun x => x * loss_weight) (distance_loss s t).
(** 36-48, [angle]: for every i, j, k the product of the normalised vectors from i to j and k. *)
Definition vec (pred : list (list R)) (i j : nat) : list R := zipw Rminus (row pred j) (row pred i).
Definition angle (pred : list (list R)) : list R :=
  let n := length pred in
  flat_map (fun i => flat_map (fun j => map (fun k =>
    dot (f_normalize (vec pred i j)) (f_normalize (vec pred i k))) (seq 0 n)) (seq 0 n)) (seq 0 n).
(** 129-153, [AngleWiseRKD.forward]. *)
Definition angle_rkd (with_l2_norm : bool) (loss_weight : R) (s t : list (list R)) : R :=
  let s := if with_l2_norm then map f_normalize s else s in
  let t := if with_l2_norm then map f_normalize t else t in
  rmean (zipw smooth_l1 (angle s) (angle t)) * loss_weight.

(** * fbkd_loss.py *)
(** 10-36, [mask_l2_loss] with a spatial mask only; samples of channels of rows of H * W
    entries, the mask one row per sample. *)
Definition mask_l2 (a b : list (list (list R))) (mask : list (list R)) : R :=
  sqrt (rsum (map rsum (concat (zipw (fun ab m =>
    zipw (fun x y => zipw Rmult (zipw (fun p q => sq (p - q)) x y) m) (fst ab) (snd ab))
    (combine a b) mask)))).
(** [torch.dist] on the entries. *)
Definition tdist (a b : list R) : R := sqrt (rsum (zipw (fun x y => sq (x - y)) a b)).
(** 74-124, [FBKDLoss.forward]. *)
Definition fbkd_loss (w_mask w_channel w_spatial w_nonlocal loss_weight : R)
    (s_mask t_mask : list (list R)) (s_channel s_spatial s_relation : list R) (s_feat : list (list (list R)))
    (t_spatial t_relation : list R) (t_feat : list (list (list R))) : R :=
  let mask := zipw (zipw (fun t s => (t + s) / 2)) t_mask s_mask in
  loss_weight * (mask_l2 t_feat s_feat mask * w_mask
                 + tdist (concat (map (map rmean) t_feat)) s_channel * w_channel
                 + tdist t_spatial s_spatial * w_spatial
                 + tdist t_relation s_relation * w_nonlocal).

(** * Targets from the teacher, one row of logits per sample *)
(** cross_entropy_loss.py:20-23. *)
Definition ce_loss (loss_weight : R) (preds_S preds_T : list (list R)) : R :=
  rmean (zipw (fun s t => - nth (argmax t) (log_softmax s) 0) preds_S preds_T) * loss_weight.
(** kd_soft_ce_loss.py:57-94, [KDSoftCELoss.forward] with reduction 'mean', no weight and no
    [avg_factor]; mmcls's [soft_cross_entropy] is the sum over the classes of
    [-label * log_softmax(pred)], averaged over the samples. *)
Definition soft_ce_loss (tau loss_weight : R) (mult_tem_square : bool) (preds_S preds_T : list (list R)) : R :=
  let l := loss_weight * rmean (zipw (fun s t =>
      rsum (zipw (fun p q => - p * q) (softmax (divide tau t)) (log_softmax (divide tau s)))) preds_S preds_T) in
  if mult_tem_square then l * (tau * tau) else l.
(** dafl_loss.py:87-124, [ActivationLoss.forward]. *)
Definition activation_loss (use_norm : bool) (loss_weight : R) (feat_T : list (list R)) : R :=
  loss_weight * (if use_norm then - norm2 (concat feat_T)
                 else - rmean (map Rabs (concat feat_T))).
