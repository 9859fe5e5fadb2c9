(** Model of the training steps that train several subnets at once:
    models/algorithms/nas/autoslim.py:100-160, nas/bignas.py:107-179,
    pruning/slimmable_network.py:88-113 and models/utils/optim_wrapper.py:7-29. *)
From Coq Require Import String.
From Verif Require Import Prelude Evolution_Model Recorder_Model Engine_Model.
Local Open Scope string_scope.
Local Open Scope list_scope.
Local Open Scope Z_scope.

(** mmengine's OptimWrapper, from its documentation: accumulative_counts and the counters. *)
Record wrapper : Type := { w_acc : Z; w_inner : Z; w_max : Z; w_rem : Z }.
(** OptimWrapper.initialize_count_status. *)
Definition initialize_count_status (w : wrapper) (init max : Z) : wrapper :=
  {| w_acc := w_acc w; w_inner := init; w_max := max; w_rem := max mod w_acc w |}.
(** optim_wrapper.py:7-29, [reinitialize_optim_wrapper_count_status]; [iter] and [max_iters] are those of the message hub. *)
Definition reinitialize (w : wrapper) (iter max_iters k : Z) : wrapper :=
  initialize_count_status w (iter * k) (max_iters * k).
(** OptimWrapper.scale_loss: the divisor of the loss. *)
Definition loss_factor (w : wrapper) : outcome Z :=
  if w_acc w =? 1 then Ok 1
  else if w_max w =? -1 then Ok (w_acc w)
  else let f := if w_inner w <? w_max w - w_rem w then w_acc w else w_rem w in
       do _ <- assert_ (0 <? f); Ok f.
(** OptimWrapper.should_update. *)
Definition should_update (w : wrapper) : bool :=
  (w_inner w mod w_acc w =? 0) || (w_inner w =? w_max w).

Section Train.
(** Parameters, gradients of one loss, the optimizer step, choices and recorded outputs. *)
Variables P G C R : Type.
(** A step of the optimizer with the accumulated gradients, each with the factor of its loss. *)
Variable sgd : P -> list (Q * G) -> P.
(** The loss dictionary of a subnet on the batch (values are opaque), what the recorders see of it,
    and the distillation losses. *)
Variable hard : P -> C -> subnet.
Variable record : P -> C -> R.
Variable soft : R -> R -> subnet.
(** The gradient of the parsed loss of a subnet: of the sum of the losses that are passed. *)
Variable grad : P -> C -> subnet -> G.

(** The model and its optimizer: parameters, accumulated gradients, counters and
    [_optim_wrapper_count_status_reinitialized]. *)
Record tstate : Type := { t_par : P; t_pend : list (Q * G); t_wrap : wrapper; t_ready : bool }.

(** BaseModel.parse_losses sums the entries whose name contains 'loss'. *)
Definition parsed (l : subnet) : subnet := filter (fun kv => contains "loss" (fst kv)) l.

(** OptimWrapper.update_params: scale_loss, backward (which counts), and step with zero_grad. *)
Definition update_params (s : tstate) (c : C) (l : subnet) : outcome tstate :=
  do f <- loss_factor (t_wrap s);
  let w := {| w_acc := w_acc (t_wrap s); w_inner := w_inner (t_wrap s) + 1; w_max := w_max (t_wrap s); w_rem := w_rem (t_wrap s) |} in
  let pend := t_pend s ++ [((1 / inject_Z f)%Q, grad (t_par s) c (parsed l))] in
  if should_update w
  then Ok {| t_par := sgd (t_par s) pend; t_pend := []; t_wrap := w; t_ready := t_ready s |}
  else Ok {| t_par := t_par s; t_pend := pend; t_wrap := w; t_ready := t_ready s |}.

(** The head of the training steps (autoslim.py:121-126, bignas.py:126-131,
    slimmable_network.py:96-101). *)
Definition reinitialized (s : tstate) (iter max_iters : Z) (k : nat) : tstate :=
  if t_ready s then s
  else {| t_par := t_par s; t_pend := t_pend s;
          t_wrap := reinitialize (t_wrap s) iter max_iters (Z.of_nat k); t_ready := true |}.

(** autoslim.py:71-73 and bignas.py:78-80, [sample_kinds]. *)
Definition sample_kinds (n : nat) : list string :=
  "max" :: "min" :: map (fun i => "random" ++ decimal i)%string (seq 0 n).

(** autoslim.py:104-119 (also the hard losses, [both]) and bignas.py:110-124, [distill_step]; [tea]
    is what the teacher recorders hold.  The set_dropout of BigNAS is part of the choice. *)
Definition distill_step (both : bool) (s : tstate) (tea : option R) (c : C) : outcome (tstate * subnet) :=
  match tea with
  | None => Raise AssertionError
  | Some t =>
      let sl := soft t (record (t_par s) c) in
      let l := if both then dupdate (dupdate [] (hard (t_par s) c)) sl else dupdate [] sl in
      do s' <- update_params s c l;
      Ok (s', l)
  end.
(** autoslim.py:132-160 and bignas.py:136-179, the loop over the kinds; [sample i] is what sample_choices returned for
    kind number [i]. *)
Section Step.
Variables (both : bool) (max_choice min_choice : C) (sample : nat -> C).
Fixpoint kinds_loop (i : nat) (kinds : list string) (s : tstate) (tea : option R) (total : subnet)
  : outcome (tstate * subnet) :=
  match kinds with
  | [] => Ok (s, total)
  | k :: r =>
      if String.eqb k "max"
      then let l := hard (t_par s) max_choice in
           do s' <- update_params s max_choice l;
           kinds_loop (1 + i) r s' (Some (record (t_par s) max_choice)) (dupdate total (add_prefix "max_subnet" l))
      else if String.eqb k "min"
      then do sl <- distill_step both s tea min_choice;
           kinds_loop (1 + i) r (fst sl) tea (dupdate total (add_prefix "min_subnet" (snd sl)))
      else if contains "random" k
      then do sl <- distill_step both s tea (sample i);
           kinds_loop (1 + i) r (fst sl) tea (dupdate total (add_prefix (k ++ "_subnet")%string (snd sl)))
      else kinds_loop (1 + i) r s tea total
  end.
(** [train_step] in iteration [iter]. *)
Definition train_step (n iter max_iters : nat) (s : tstate) : outcome (tstate * subnet) :=
  let kinds := sample_kinds n in
  let s1 := reinitialized s (Z.of_nat iter) (Z.of_nat max_iters) (length kinds) in
  kinds_loop 0 kinds s1 None [].
End Step.

(** slimmable_network.py:88-113, [_slimmable_train_step]. *)
Fixpoint subnets_loop (i : nat) (subnets : list C) (s : tstate) (total : subnet) : outcome (tstate * subnet) :=
  match subnets with
  | [] => Ok (s, total)
  | c :: r =>
      let l := hard (t_par s) c in
      do s' <- update_params s c l;
      subnets_loop (1 + i) r s' (dupdate total (add_prefix ("subnet_" ++ decimal i)%string l))
  end.
Definition slimmable_step (subnets : list C) (iter max_iters : nat) (s : tstate) : outcome (tstate * subnet) :=
  subnets_loop 0 subnets (reinitialized s (Z.of_nat iter) (Z.of_nat max_iters) (length subnets)) [].

(** A training run from iteration [iter] (0, or where a checkpoint was resumed): [steps] iterations,
    [draw it] being the samples of iteration [it]. *)
Fixpoint train_run (both : bool) (max_choice min_choice : C) (draw : nat -> nat -> C) (n max_iters : nat)
    (steps iter : nat) (s : tstate) : outcome tstate :=
  match steps with
  | O => Ok s
  | S k => do r <- train_step both max_choice min_choice (draw iter) n iter max_iters s;
           train_run both max_choice min_choice draw n max_iters k (S iter) (fst r)
  end.
End Train.
