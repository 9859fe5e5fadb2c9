(** Model of models/algorithms/nas/darts.py:80-268 ([Darts]; [DartsDDP] has the same steps). The
    parameters of the architecture and of the mutator are one vector each and all of them take part in
    the loss; accumulative_counts is 1; numbers are reals. *)
From Coq Require Import Reals String.
From Verif Require Import Prelude Evolution_Model Recorder_Model.
Local Open Scope string_scope.
Local Open Scope list_scope.
Local Open Scope R_scope.

Definition vec : Type := list R.
Fixpoint vadd (a b : vec) : vec := match a, b with x :: a', y :: b' => (x + y) :: vadd a' b' | _, _ => [] end.
Definition vscale (c : R) (a : vec) : vec := map (Rmult c) a.
Definition vsub (a b : vec) : vec := vadd a (vscale (-1) b).

(** Tensors that can be referred to, here the gradients. *)
Definition heap : Type := list vec.
Definition deref (h : heap) (r : nat) : vec := nth r h [].
Fixpoint store (h : heap) (r : nat) (v : vec) : heap :=
  match h, r with [], _ => [] | _ :: t, O => v :: t | x :: t, S k => x :: store t k v end.

Section Darts.
(** Batches and the states of the two optimizers. *)
Variables D SW SA : Type.
(** The gradients of the parsed loss of a batch at some weights and architecture parameters, and the
    values that are logged. *)
Variables dW dA : D -> vec -> vec -> vec.
Variable logs : D -> vec -> vec -> subnet.
(** A step of the two optimizers: the state and the parameters after it. *)
Variable stepW : SW -> vec -> vec -> SW * vec.
Variable stepA : SA -> vec -> vec -> SA * vec.
(** lr, momentum, weight decay and momentum buffer of the optimizer of the architecture. *)
Variables (lr momentum weight_decay : R) (buffer : SW -> vec).
(** [torch.Tensor.norm]. *)
Variable norm : vec -> R.
(** Whether [zero_grad] sets gradients to None (PyTorch 2) or to zero. *)
Variable to_none : bool.

(** The parameters of [architecture] and [mutator], where their gradients are stored, and the
    optimizers. *)
Record dstate : Type := { d_w : vec; d_a : vec; d_gw : option nat; d_ga : option nat; d_heap : heap; d_sw : SW; d_sa : SA }.

(** [loss.backward()] adds to the gradients in place, or stores new ones. *)
Definition accumulate (h : heap) (r : option nat) (g : vec) : heap * option nat :=
  match r with
  | Some k => (store h k (vadd (deref h k) g), Some k)
  | None => (h ++ [g], Some (length h))
  end.
Definition backward (b : D) (s : dstate) : dstate :=
  let '(h1, gw) := accumulate (d_heap s) (d_gw s) (dW b (d_w s) (d_a s)) in
  let '(h2, ga) := accumulate h1 (d_ga s) (dA b (d_w s) (d_a s)) in
  {| d_w := d_w s; d_a := d_a s; d_gw := gw; d_ga := ga; d_heap := h2; d_sw := d_sw s; d_sa := d_sa s |}.
(** [Optimizer.zero_grad]. *)
Definition zero (h : heap) (r : option nat) : heap * option nat :=
  match r with
  | Some k => if to_none then (h, None) else (store h k (vscale 0 (deref h k)), Some k)
  | None => (h, None)
  end.
Definition zero_grad_w (s : dstate) : dstate :=
  let '(h, r) := zero (d_heap s) (d_gw s) in
  {| d_w := d_w s; d_a := d_a s; d_gw := r; d_ga := d_ga s; d_heap := h; d_sw := d_sw s; d_sa := d_sa s |}.
Definition zero_grad_a (s : dstate) : dstate :=
  let '(h, r) := zero (d_heap s) (d_ga s) in
  {| d_w := d_w s; d_a := d_a s; d_gw := d_gw s; d_ga := r; d_heap := h; d_sw := d_sw s; d_sa := d_sa s |}.
(** [Optimizer.step]; parameters without a gradient are skipped. *)
Definition step_w (s : dstate) : dstate :=
  match d_gw s with
  | None => s
  | Some k => let '(o, w) := stepW (d_sw s) (d_w s) (deref (d_heap s) k) in
              {| d_w := w; d_a := d_a s; d_gw := d_gw s; d_ga := d_ga s; d_heap := d_heap s; d_sw := o; d_sa := d_sa s |}
  end.
Definition step_a (s : dstate) : dstate :=
  match d_ga s with
  | None => s
  | Some k => let '(o, a) := stepA (d_sa s) (d_a s) (deref (d_heap s) k) in
              {| d_w := d_w s; d_a := a; d_gw := d_gw s; d_ga := d_ga s; d_heap := d_heap s; d_sw := d_sw s; d_sa := o |}
  end.
Definition set_w (w : vec) (s : dstate) : dstate :=
  {| d_w := w; d_a := d_a s; d_gw := d_gw s; d_ga := d_ga s; d_heap := d_heap s; d_sw := d_sw s; d_sa := d_sa s |}.
(** What is stored as [.grad]; [None] has no value. *)
Definition grad_of (r : option nat) : outcome nat := match r with Some k => Ok k | None => Raise AttributeError end.

(** Lines 202-220, [_compute_virtual_model]; [w = w - lr * (...)] gives a new value to the loop
    variable and leaves the parameter as it is. *)
Definition compute_virtual_model (supernet_data : D) (s : dstate) : outcome dstate :=
  let s1 := backward supernet_data s in
  do g <- grad_of (d_gw s1);
  let w := vsub (d_w s1) (vscale lr (vadd (vscale momentum (buffer (d_sw s1))) (vadd (deref (d_heap s1) g) (vscale weight_decay (d_w s1))))) in
  let _ := w in Ok s1.
(** Lines 222-227, [_restore_weights]. *)
Definition restore_weights (backup : vec) (s : dstate) : dstate := set_w backup s.
(** Lines 229-268, [_compute_hessian]; [dw] refers to the stored gradients. *)
Definition shifted (e : R) (dw : nat) (b : D) (s : dstate) : dstate :=
  backward b (set_w (vadd (d_w s) (vscale e (deref (d_heap s) dw))) s).
Definition compute_hessian (backup : vec) (dw : nat) (supernet_data : D) (s : dstate) : outcome (dstate * vec) :=
  let s0 := restore_weights backup s in
  let eps := / 100 / norm (deref (d_heap s0) dw) in
  let s1 := shifted eps dw supernet_data s0 in
  do pos <- grad_of (d_ga s1);
  let s2 := shifted (- 2 * eps) dw supernet_data s1 in
  do neg <- grad_of (d_ga s2);
  Ok (s2, vscale (/ (2 * eps)) (vsub (deref (d_heap s2) pos) (deref (d_heap s2) neg))).
(** Lines 161-200, [_unrolled_backward]. *)
Definition unrolled_backward (mutator_data supernet_data : D) (s : dstate) : outcome (dstate * subnet) :=
  let backup := d_w s in
  do s1 <- compute_virtual_model supernet_data s;
  let mutator_log_vars := logs mutator_data (d_w s1) (d_a s1) in
  let s2 := backward mutator_data s1 in
  do d_model <- grad_of (d_gw s2);
  do d_arch <- grad_of (d_ga s2);
  do sh <- compute_hessian backup d_model supernet_data s2;
  let s3 := fst sh in
  let g := vsub (deref (d_heap s3) d_arch) (vscale lr (snd sh)) in
  let s4 := {| d_w := d_w s3; d_a := d_a s3; d_gw := d_gw s3; d_ga := Some (length (d_heap s3)); d_heap := d_heap s3 ++ [g]; d_sw := d_sw s3; d_sa := d_sa s3 |} in
  Ok (restore_weights backup s4, mutator_log_vars).

(** [OptimWrapper.update_params] of the two wrappers. *)
Definition update_w (b : D) (s : dstate) : dstate := zero_grad_w (step_w (backward b s)).
Definition update_a (b : D) (s : dstate) : dstate := zero_grad_a (step_a (backward b s)).

(** Lines 80-159, [train_step] with an OptimWrapperDict of [n] optimizers. *)
Definition train_step (unroll : bool) (n : nat) (data : list D) (s : dstate) : outcome (dstate * subnet) :=
  do _ <- assert_ (Nat.eqb (length data) n);
  match data with
  | [supernet_data; mutator_data] =>
      do r <- (if unroll
               then do r <- unrolled_backward mutator_data supernet_data (zero_grad_a s); Ok (step_a (fst r), snd r)
               else Ok (update_a mutator_data s, logs mutator_data (d_w s) (d_a s)));
      let s1 := fst r in
      Ok (update_w supernet_data s1,
          dupdate (dupdate [] (add_prefix "mutator" (snd r))) (add_prefix "supernet" (logs supernet_data (d_w s1) (d_a s1))))
  | _ => Raise ValueError
  end.
(** A training run over pairs of batches. *)
Fixpoint train_run (unroll : bool) (batches : list (D * D)) (s : dstate) : outcome dstate :=
  match batches with
  | [] => Ok s
  | (b, v) :: r => do x <- train_step unroll 2 [b; v] s; train_run unroll r (fst x)
  end.
End Darts.
