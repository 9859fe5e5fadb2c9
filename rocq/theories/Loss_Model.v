(** Distillation losses built on softmax: mmrazor/models/losses/kl_divergence.py, cwd.py,
    decoupled_kd.py, weighted_soft_label_distillation.py, dafl_loss.py.

    Tensor entries are real numbers (Coq's [R]); rounding, overflow and gradients are not
    modelled.  [softmax], [log_softmax], [kl_div] and [cross_entropy] are torch's functions,
    written out from their documentation. *)
From Verif Require Import Prelude.
From Coq Require Import Reals.
Open Scope R_scope.

Definition rsum (l : list R) : R := fold_right Rplus 0 l.
Definition zipw {A B C} (f : A -> B -> C) (l : list A) (m : list B) : list C :=
  map (fun p => f (fst p) (snd p)) (combine l m).
Definition rlen {A} (l : list A) : R := INR (length l).
Definition rmean (l : list R) : R := rsum l / rlen l.

(** [F.softmax] and [F.log_softmax] of one row. *)
Definition softmax (l : list R) : list R := map (fun x => exp x / rsum (map exp l)) l.
Definition log_softmax (l : list R) : list R := map (fun x => x - ln (rsum (map exp l))) l.
(** [preds / tau]. *)
Definition divide (tau : R) (l : list R) : list R := map (fun x => x / tau) l.

(** * F.kl_div *)
Inductive reduction := RNone | RBatchmean | RSum | RMean.
(** A loss value: one number, or the unreduced entries. *)
Inductive lossval := Scalar (x : R) | Elems (l : list R).
Definition scale (c : R) (v : lossval) : lossval :=
  match v with Scalar x => Scalar (c * x) | Elems l => Elems (map (Rmult c) l) end.
(** One entry: target * (log target - input), and 0 where the target is 0. *)
Definition kl_point (input target : R) : R :=
  if Rlt_dec 0 target then target * (ln target - input) else 0.
(** A batch: samples, each a list of rows (one row for shape (N, C), H * W rows for shape
    (N, C, H, W)); a row runs over dimension 1. *)
Definition batch := list (list (list R)).
Definition entries (input target : batch) : list R :=
  concat (concat (zipw (zipw (zipw kl_point)) input target)).
(** [F.kl_div(input, target, size_average, reduction)]: a given [size_average] decides the
    reduction ([False]: sum), only the final division looks at [reduction] again. *)
Definition kl_div (size_average : option bool) (red : reduction) (input target : batch) : lossval :=
  let es := entries input target in
  let how := match size_average with
             | Some true => RMean
             | Some false => RSum
             | None => match red with RBatchmean => RSum | r => r end
             end in
  let v := match how with
           | RNone => Elems es
           | RMean => Scalar (rmean es)
           | _ => Scalar (rsum es)
           end in
  match red, input with
  | RBatchmean, _ :: _ => scale (/ rlen input) v
  | _, _ => v
  end.

(** kl_divergence.py:48-66, [KLDivergence.forward]. *)
Definition kl_loss (tau : R) (red : reduction) (loss_weight : R) (preds_S preds_T : batch) : lossval :=
  let softmax_pred_T := map (map (fun r => softmax (divide tau r))) preds_T in
  let logsoftmax_preds_S := map (map (fun r => log_softmax (divide tau r))) preds_S in
  scale loss_weight (scale (tau * tau) (kl_div None red logsoftmax_preds_S softmax_pred_T)).

(** cwd.py:25-51, [ChannelWiseDivergence.forward]: the rows of [view(-1, W * H)], one per
    sample and channel; [N] and [C] are those of the student. *)
Definition cwd_loss (tau loss_weight : R) (N C : nat) (rows_S rows_T : list (list R)) : R :=
  let loss := rsum (zipw (fun s t =>
      rsum (zipw Rminus
              (zipw Rmult (softmax (divide tau t)) (log_softmax (divide tau t)))
              (zipw Rmult (softmax (divide tau t)) (log_softmax (divide tau s))))) rows_S rows_T) * (tau * tau) in
  loss_weight * loss / (INR C * INR N).

(** * Decoupled distillation (decoupled_kd.py) *)
(** 123-139 and 141-157: the mask of the label and its complement, as floats. *)
Definition gt_mask (c : nat) (g : nat) : list R := map (fun j => if Nat.eqb j g then 1 else 0) (seq 0 c).
Definition non_gt_mask (c : nat) (g : nat) : list R := map (fun j => if Nat.eqb j g then 0 else 1) (seq 0 c).
(** 112-121, [_cat_mask] of one row. *)
Definition cat_mask (p : list R) (g : nat) : list R :=
  [rsum (zipw Rmult p (gt_mask (length p) g)); rsum (zipw Rmult p (non_gt_mask (length p) g))].
(** 101-110, [_kl_loss]; one row per sample. *)
Definition dkd_kl (tau : R) (red : reduction) (input target : list (list R)) : lossval :=
  scale (tau * tau) (kl_div (Some false) red (map (fun r => [r]) input) (map (fun r => [r]) target)).
(** 74-84: the logits of one row with the label masked out. *)
Definition masked (tau : R) (g : nat) (r : list R) : list R :=
  zipw (fun x m => x - 1000 * m) (divide tau r) (gt_mask (length r) g).
Definition nckd (tau : R) (red : reduction) (preds_S preds_T : list (list R)) (labels : list nat) : lossval :=
  dkd_kl tau red (zipw (fun r g => log_softmax (masked tau g r)) preds_S labels)
                 (zipw (fun r g => softmax (masked tau g r)) preds_T labels).
(** 86-99. *)
Definition tckd (tau : R) (red : reduction) (preds_S preds_T : list (list R)) (labels : list nat) : lossval :=
  dkd_kl tau red (zipw (fun r g => map ln (cat_mask (softmax (divide tau r)) g)) preds_S labels)
                 (zipw (fun r g => cat_mask (softmax (divide tau r)) g) preds_T labels).
(** [a * x + b * y] of two losses of one shape. *)
Definition mix (a b : R) (x y : lossval) : lossval :=
  match x, y with
  | Scalar x, Scalar y => Scalar (a * x + b * y)
  | Elems l, Elems m => Elems (zipw Rplus (map (Rmult a) l) (map (Rmult b) m))
  | Scalar x, Elems m => Elems (map (fun y => a * x + b * y) m)
  | Elems l, Scalar y => Elems (map (fun x => a * x + b * y) l)
  end.
(** 52-72, [DKDLoss.forward]. *)
Definition dkd_loss (tau alpha beta : R) (red : reduction) (loss_weight : R)
    (preds_S preds_T : list (list R)) (labels : list nat) : lossval :=
  scale loss_weight (mix alpha beta (tckd tau red preds_S preds_T labels) (nckd tau red preds_S preds_T labels)).

(** * Weighted soft labels (weighted_soft_label_distillation.py:30-59), one row per sample,
    [num_classes] equal to the row length. *)
Definition wsld_ce (tau : R) (s t : list R) : R :=
  - rsum (zipw Rmult (softmax (divide tau t)) (log_softmax (divide tau s))).
Definition wsld_label_ce (r : list R) (g : nat) : R :=
  - rsum (zipw Rmult (gt_mask (length r) g) (log_softmax r)).
Definition focal_weight (s t : list R) (g : nat) : R :=
  1 - exp (- Rmax (wsld_label_ce s g / (wsld_label_ce t g + 1 / 10000000)) 0).
Definition wsld_loss (tau loss_weight : R) (student teacher : list (list R)) (labels : list nat) : R :=
  loss_weight * (tau * tau *
    rmean (zipw (fun st g => focal_weight (fst st) (snd st) g * wsld_ce tau (fst st) (snd st))
                (combine student teacher) labels)).

(** * Data-free losses (dafl_loss.py), one row per sample *)
(** [preds.max(1)[1]] of a row: position of the first largest entry. *)
Fixpoint argmax_from (i : nat) (best : R) (at_ : nat) (l : list R) : nat :=
  match l with
  | [] => at_
  | x :: r => if Rlt_dec best x then argmax_from (S i) x i r else argmax_from (S i) best at_ r
  end.
Definition argmax (l : list R) : nat :=
  match l with [] => O | x :: r => argmax_from 1 x 0 r end.
(** 49-56, [OnehotLikeLoss.forward_train]: [F.cross_entropy] with the mean over the batch. *)
Definition onehot_loss (preds_T : list (list R)) : R :=
  rmean (map (fun r => - nth (argmax r) (log_softmax r) 0) preds_T).
(** 73-84, [InformationEntropyLoss.forward_train] after gathering; [C] classes. *)
Definition class_prob (C : nat) (preds_T : list (list R)) : list R :=
  map (fun j => rmean (map (fun r => nth j (softmax r) 0) preds_T)) (seq 0 C).
Definition entropy_loss (C : nat) (preds_T : list (list R)) : R :=
  rsum (map (fun p => p * (ln p / ln 10)) (class_prob C preds_T)).
