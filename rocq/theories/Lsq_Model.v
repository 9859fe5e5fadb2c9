(** Model of models/fake_quants/lsq.py (LearnableFakeQuantize) and models/observers/lsq.py
    (LSQObserver, LSQPerChannelObserver). Numbers are reals and a tensor is the list of its channels,
    for LSQObserver a single one; one process. *)
From Coq Require Import Reals.
From Verif Require Import Prelude.
Local Open Scope list_scope.
Local Open Scope R_scope.

Definition tensor : Type := list (list R).
Definition numel (X : tensor) : nat := length (concat X).

(** observers/lsq.py:30-31 and the bounds of the observer; [] stands for bounds of no data. *)
Record observer : Type := Observer { o_min : list R; o_max : list R; o_norm : option (list R) }.
(** [torch.aminmax] and [abs().mean()] of a channel. *)
Definition least (l : list R) : R := match l with [] => 0 | x :: r => fold_left Rmin r x end.
Definition greatest (l : list R) : R := match l with [] => 0 | x :: r => fold_left Rmax r x end.
Definition mean_abs (l : list R) : R := fold_right Rplus 0 (map Rabs l) / INR (length l).
(** [torch.min] and [torch.max] of two vectors; other numbers of channels do not fit. *)
Fixpoint zip (f : R -> R -> R) (a b : list R) : outcome (list R) :=
  match a, b with [], [] => Ok [] | x :: a', y :: b' => do r <- zip f a' b'; Ok (f x y :: r) | _, _ => Raise RuntimeError end.
(** observers/lsq.py:58-70 and 91-122, [forward]. *)
Definition observe (o : observer) (X : tensor) : outcome observer :=
  if Nat.eqb (numel X) 0 then Ok o
  else
    do lo <- (match o_min o, o_max o with [], _ | _, [] => Ok (map least X) | m, _ => zip Rmin (map least X) m end);
    do hi <- (match o_min o, o_max o with [], _ | _, [] => Ok (map greatest X) | _, m => zip Rmax (map greatest X) m end);
    Ok (Observer lo hi (Some (map mean_abs X))).

Section Lsq.
(** [quant_max], the zero points that MinMaxObserver computes from the bounds, and what
    [torch._fake_quantize_learnable_per_*_affine] computes from scale, zero point and input. *)
Variable quant_max : R.
Variable zero_points : list R -> list R -> list R.
Variable fake : list R -> list R -> tensor -> tensor.
Variable eps : R.

(** observers/lsq.py:33-44 and 72-77, [calculate_qparams]; [2 * None] is a TypeError. *)
Definition observer_qparams (o : observer) : outcome (list R * list R) :=
  match o_norm o with
  | None => Raise TypeError
  | Some n => Ok (map (fun v => 2 * v / sqrt quant_max) n, zero_points (o_min o) (o_max o))
  end.

(** fake_quants/lsq.py:83-130. *)
Record lsq : Type := Lsq {
  scale : list R; zero_point : list R; trainable : bool;
  fake_quant_enabled : bool; static_enabled : bool; learning_enabled : bool;
  scale_grad : bool; zero_point_grad : bool; obs : observer }.
Definition init (zero_point_trainable : bool) : lsq := Lsq [1] [0] zero_point_trainable true true false true zero_point_trainable (Observer [] [] None).
(** Lines 177-201, the toggles. *)
Definition toggle_observer_update (b : bool) (s : lsq) : lsq := Lsq (scale s) (zero_point s) (trainable s) (fake_quant_enabled s) b (learning_enabled s) (scale_grad s) (zero_point_grad s) (obs s).
Definition toggle_qparam_learning (b : bool) (s : lsq) : lsq :=
  Lsq (scale s) (zero_point s) (trainable s) (fake_quant_enabled s) (static_enabled s) b b (if trainable s then b else zero_point_grad s) (obs s).
Definition toggle_fake_quant (b : bool) (s : lsq) : lsq := Lsq (scale s) (zero_point s) (trainable s) b (static_enabled s) (learning_enabled s) (scale_grad s) (zero_point_grad s) (obs s).
(** Lines 132-175. *)
Definition enable_param_learning (s : lsq) : lsq := toggle_observer_update false (toggle_fake_quant true (toggle_qparam_learning true s)).
Definition enable_static_estimate (s : lsq) : lsq := toggle_observer_update true (toggle_fake_quant true (toggle_qparam_learning false s)).
Definition enable_val (s : lsq) : lsq := toggle_observer_update false (toggle_fake_quant true (toggle_qparam_learning false s)).
Definition enable_static_observation (s : lsq) : lsq := toggle_observer_update true (toggle_fake_quant false (toggle_qparam_learning false s)).
(** Lines 219-259, [forward]. *)
Definition forward (s : lsq) (X : tensor) : outcome (lsq * tensor) :=
  do s' <- (if static_enabled s
            then do o <- observe (obs s) X; do q <- observer_qparams o;
                 Ok (Lsq (fst q) (snd q) (trainable s) (fake_quant_enabled s) (static_enabled s) (learning_enabled s) (scale_grad s) (zero_point_grad s) o)
            else Ok (Lsq (map (Rmax eps) (scale s)) (zero_point s) (trainable s) (fake_quant_enabled s) (static_enabled s) (learning_enabled s) (scale_grad s) (zero_point_grad s) (obs s)));
  Ok (s', if fake_quant_enabled s' then fake (scale s') (zero_point s') X else X).

(** A call of a method, or a step of the optimizer, which gives new values to what requires a gradient. *)
Inductive op : Type :=
| EnableParamLearning | EnableStaticEstimate | EnableVal | EnableStaticObservation
| ToggleObserver (b : bool) | ToggleLearning (b : bool) | ToggleFake (b : bool)
| Forward (X : tensor) | Step (new_scale new_zero_point : list R).
Definition step (s : lsq) (c : op) : outcome (lsq * list tensor) :=
  match c with
  | EnableParamLearning => Ok (enable_param_learning s, [])
  | EnableStaticEstimate => Ok (enable_static_estimate s, [])
  | EnableVal => Ok (enable_val s, [])
  | EnableStaticObservation => Ok (enable_static_observation s, [])
  | ToggleObserver b => Ok (toggle_observer_update b s, [])
  | ToggleLearning b => Ok (toggle_qparam_learning b s, [])
  | ToggleFake b => Ok (toggle_fake_quant b s, [])
  | Forward X => do r <- forward s X; Ok (fst r, [snd r])
  | Step a z => Ok (Lsq (if scale_grad s then a else scale s) (if zero_point_grad s then z else zero_point s) (trainable s) (fake_quant_enabled s) (static_enabled s) (learning_enabled s) (scale_grad s) (zero_point_grad s) (obs s), [])
  end.
(** The calls in order, with the outputs of all forward passes. *)
Fixpoint run (s : lsq) (ops : list op) : outcome (lsq * list tensor) :=
  match ops with
  | [] => Ok (s, [])
  | c :: r => do x <- step s c; do y <- run (fst x) r; Ok (fst y, snd x ++ snd y)
  end.
End Lsq.
