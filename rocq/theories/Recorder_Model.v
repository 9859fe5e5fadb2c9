(** Model of mmrazor/models/task_modules/recorder and .../delivery, of
    StopDistillHook and of SingleTeacherDistill.loss. *)
From Verif Require Import Prelude Evolution_Model FixSubnet_Model.

(** * Recorders *)
(** Recorded data: an atom or a list/tuple. *)
Inductive val : Type := VAtom (n : Z) | VList (l : list val).
(** The object bound to an attribute of a module or a class: an original function, or the
    wrapper made by recorder [r], which closes over that recorder's buffer object; buffer
    objects of a recorder are numbered by [ep]. *)
Inductive fn : Type := FOrig (n : nat) | FWrap (r ep : nat) (inner : fn).

(** Function recorders look the function up when they are entered; method recorders hold the
    method they found at construction (method_outputs_recorder.py:62-90). *)
Inductive rkind : Type := RFunc | RMeth (origin : fn) | RModule.
Record recorder : Type := { r_id : nat; r_kind : rkind; r_target : string }.

(** Attribute bindings; for each recorder the number of its current buffer, its saved
    original and its recording flag; buffer contents. *)
Record world : Type := {
  w_env : string -> fn; w_ep : nat -> nat; w_saved : nat -> fn; w_on : nat -> bool;
  w_buf : nat -> nat -> list val }.
Definition upd {A} (f : nat -> A) (i : nat) (x : A) : nat -> A := fun j => if Nat.eqb i j then x else f j.
Definition upds {A} (f : string -> A) (i : string) (x : A) : string -> A := fun j => if String.eqb i j then x else f j.

(** base_recorder.py:105-113 (reset of the buffer) and the [__enter__] of
    function_outputs_recorder.py:114-144, method_outputs_recorder.py:146-157 and
    module_outputs_recorder.py:88-91. *)
Definition enter (r : recorder) (w : world) : world :=
  let i := r_id r in
  let ep := S (w_ep w i) in
  let buf := upd (w_buf w) i (upd (w_buf w i) ep []) in
  match r_kind r with
  | RFunc => let o := w_env w (r_target r) in
      {| w_env := upds (w_env w) (r_target r) (FWrap i ep o); w_ep := upd (w_ep w) i ep;
         w_saved := upd (w_saved w) i o; w_on := w_on w; w_buf := buf |}
  | RMeth o =>
      {| w_env := upds (w_env w) (r_target r) (FWrap i ep o); w_ep := upd (w_ep w) i ep;
         w_saved := upd (w_saved w) i o; w_on := w_on w; w_buf := buf |}
  | RModule =>
      {| w_env := w_env w; w_ep := upd (w_ep w) i ep;
         w_saved := w_saved w; w_on := upd (w_on w) i true; w_buf := buf |}
  end.
(** function_outputs_recorder.py:146-163, method_outputs_recorder.py:159-167,
    module_outputs_recorder.py:93-96. *)
Definition exit_ (r : recorder) (w : world) : world :=
  match r_kind r with
  | RModule => {| w_env := w_env w; w_ep := w_ep w; w_saved := w_saved w; w_on := upd (w_on w) (r_id r) false; w_buf := w_buf w |}
  | _ => {| w_env := upds (w_env w) (r_target r) (w_saved w (r_id r)); w_ep := w_ep w; w_saved := w_saved w; w_on := w_on w; w_buf := w_buf w |}
  end.
(** recorder_manager.py:108-116: both walk the recorders in the same order. The delivery
    manager does the same (delivery_manager.py:105-113) with deliveries that patch attributes
    in the same two ways (function_outputs_delivery.py:103-139, method_outputs_delivery.py:62-98,123-136). *)
Definition enter_all (rs : list recorder) (w : world) : world := fold_left (fun w r => enter r w) rs w.
Definition exit_all (rs : list recorder) (w : world) : world := fold_left (fun w r => exit_ r w) rs w.

(** What the program does inside a block: it calls the function or method bound to a slot, or
    runs a module; [None] means that the call raised. *)
Inductive event : Type := ECall (slot : string) (out : option val) | EForward (name : string) (out : option val).
Definition push (b : nat -> nat -> list val) (i ep : nat) (v : val) : nat -> nat -> list val := upd b i (upd (b i) ep (b i ep ++ [v])).
(** function_outputs_recorder.py:104-112: the wrapper calls what it wraps, then appends. *)
Fixpoint invoke (f : fn) (v : val) (b : nat -> nat -> list val) : nat -> nat -> list val :=
  match f with FOrig _ => b | FWrap i ep g => push (invoke g v b) i ep v end.
Definition set_buf (w : world) (b : nat -> nat -> list val) : world :=
  {| w_env := w_env w; w_ep := w_ep w; w_saved := w_saved w; w_on := w_on w; w_buf := b |}.
Definition step (rs : list recorder) (w : world) (e : event) : world :=
  match e with
  | ECall t (Some v) => set_buf w (invoke (w_env w t) v (w_buf w))
  | EForward n (Some v) =>
      (* module_outputs_recorder.py:61-86: the forward hooks, registered in [initialize] *)
      set_buf w (fold_left (fun b r => match r_kind r with
                                       | RModule => if String.eqb (r_target r) n && w_on w (r_id r) then push b (r_id r) (w_ep w (r_id r)) v else b
                                       | _ => b end) rs (w_buf w))
  | _ => w
  end.
Definition run_block (rs : list recorder) (evs : list event) (w : world) : world :=
  exit_all rs (fold_left (step rs) evs (enter_all rs w)).
Definition run_blocks (rs : list recorder) (bs : list (list event)) (w : world) : world :=
  fold_left (fun w evs => run_block rs evs w) bs w.
Definition data_of (w : world) (r : recorder) : list val := w_buf w (r_id r) (w_ep w (r_id r)).

(** Python indexing of a list. *)
Definition py_index {A} (l : list A) (i : Z) : outcome A :=
  let k := if i <? 0 then i + Z.of_nat (length l) else i in
  if k <? 0 then Raise IndexError
  else match nth_error l (Z.to_nat k) with Some x => Ok x | None => Raise IndexError end.
(** base_recorder.py:61-98, [get_record_data]. *)
Definition get_record_data (buf : list val) (i : Z) (j : option Z) : outcome val :=
  do _ <- assert_ (i <? Z.of_nat (length buf));
  do rec <- py_index buf i;
  match j with
  | None => Ok rec
  | Some j =>
      match rec with
      | VList l => do _ <- assert_ (j <? Z.of_nat (length l)); py_index l j
      | VAtom _ => Raise TypeError
      end
  end.

(** function_inputs_recorder.py:57-71 and method_inputs_recorder.py:68-83 (there without the
    first positional argument): positional arguments, then the keyword arguments in the order
    of the signature. *)
Definition record_inputs (params : list string) (args : list val) (kwargs : list (string * val)) : list val :=
  args ++ flat_map (fun p => match find (fun kv => String.eqb (fst kv) p) kwargs with Some kv => [snd kv] | None => [] end) params.

(** * Deliveries *)
Record delivery : Type := { d_queue : list val; d_max : nat; d_override : bool }.
Definition set_override (d : delivery) (b : bool) : delivery := {| d_queue := d_queue d; d_max := d_max d; d_override := b |}.
(** function_outputs_delivery.py:141-158, method_outputs_delivery.py:138-155,
    [deliver_wrapper]: [src] is what the original would return if it were executed ([None]: it
    raises); the boolean tells whether the original was executed. *)
Definition deliver (d : delivery) (src : option val) : outcome (val * bool * delivery) :=
  if d_override d then
    match d_queue d with
    | [] => Raise AssertionError
    | v :: q => Ok (v, false, {| d_queue := q; d_max := d_max d; d_override := true |})
    end
  else if (length (d_queue d) <? d_max d)%nat then
    match src with
    | None => Raise GenericException
    | Some v => Ok (v, true, {| d_queue := d_queue d ++ [v]; d_max := d_max d; d_override := false |})
    end
  else Raise AssertionError.
Fixpoint deliver_all (d : delivery) (srcs : list (option val)) : outcome (list (val * bool) * delivery) :=
  match srcs with
  | [] => Ok ([], d)
  | s :: r => do x <- deliver d s; do y <- deliver_all (snd x) r; Ok ((fst (fst x), snd (fst x)) :: fst y, snd y)
  end.
(** One training iteration (single_teacher_distill.py:109-139): the teacher pass with
    [override_data = False], the student pass with [True]. *)
Definition distill_iter (d : delivery) (teacher student : list (option val)) : outcome (list (val * bool) * list (val * bool) * delivery) :=
  do t <- deliver_all (set_override d false) teacher;
  do s <- deliver_all (set_override (snd t) true) student;
  Ok (fst t, fst s, snd s).

(** Consecutive iterations: the queues are never cleared. *)
Fixpoint distill_run (d : delivery) (its : list (list (option val) * list (option val))) : outcome (list (list (val * bool)) * delivery) :=
  match its with
  | [] => Ok ([], d)
  | (t, s) :: r =>
      do x <- distill_iter d t s;
      do y <- distill_run (snd x) r;
      Ok (snd (fst x) :: fst y, snd y)
  end.

(** * Losses of a distilled training step *)
Record dcfg : Type := { teacher_trainable : bool; calculate_student_loss : bool; stop_epoch : Z }.
(** mmrazor/models/utils/misc.py:5-20, [add_prefix]. *)
Definition add_prefix (p : string) (l : subnet) : subnet := map (fun kv => ((p ++ "." ++ fst kv)%string, snd kv)) l.
Definition dupdate (d e : subnet) : subnet := fold_left (fun d kv => dput d (fst kv) (snd kv)) e d.
(** single_teacher_distill.py:100-148, [loss]: the returned dictionary, given the dictionaries
    of the teacher, of the student and of the distiller. *)
Definition loss_step (c : dcfg) (stopped : bool) (teacher student distill : subnet) : subnet :=
  let l0 := if teacher_trainable c then dupdate [] (add_prefix "teacher" teacher) else [] in
  let l1 := if calculate_student_loss c then dupdate l0 (add_prefix "student" student) else l0 in
  if stopped then l1 else dupdate l1 (add_prefix "distill" distill).
(** stop_distillation_hook.py:22-32, [before_train_epoch]. *)
Definition before_epoch (c : dcfg) (epoch : Z) (stopped : bool) : bool := if epoch >=? stop_epoch c then true else stopped.
(** An epoch-based run that starts at [epoch] (a resumed model starts with [stopped = false]
    again); [batches] holds the loss dictionaries of the iterations of each epoch.  Returns
    the losses with their epoch. *)
Fixpoint train (c : dcfg) (epoch : Z) (stopped : bool) (batches : list (list (subnet * subnet * subnet))) : list (Z * (subnet * subnet * subnet) * subnet) :=
  match batches with
  | [] => []
  | b :: r =>
      let stopped' := before_epoch c epoch stopped in
      map (fun x => (epoch, x, loss_step c stopped' (fst (fst x)) (snd (fst x)) (snd x))) b ++ train c (epoch + 1) stopped' r
  end.
