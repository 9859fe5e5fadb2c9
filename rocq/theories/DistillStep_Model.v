(** The steps of the configurable distillation algorithms: mmrazor/models/algorithms/distill/configurable/{single_teacher_distill,
    self_distill,fpn_teacher_distill}.py and BaseAlgorithm (algorithms/base.py).  What the networks compute is left out: a pass over a
    network is described by what is run, with which recorders and deliveries, and whether gradients are kept. *)
From Verif Require Import Prelude Evolution_Model FixSubnet_Model Recorder_Model.

(** ** Modules *)
(** The attributes of a module the algorithms change: [a_inplace] is None without an attribute of that name; [a_bn] tells a _BatchNorm;
    [a_grads] are the requires_grad of its own parameters.  Entries of _modules that are None are left out, and module names are taken to
    contain neither quotes nor backslashes (they are put into an expression that is evaluated, base.py 196-208). *)
Record attrs : Type := { a_inplace : option bool; a_bn : bool; a_training : bool; a_grads : list bool }.
Inductive tree : Type := Node (a : attrs) (cs : list tree).
Definition map_tree (f : attrs -> attrs) : tree -> tree := fix go t := match t with Node a cs => Node (f a) (map go cs) end.
Definition with_inplace (b : bool) (a : attrs) : attrs := {| a_inplace := Some b; a_bn := a_bn a; a_training := a_training a; a_grads := a_grads a |}.
Definition with_training (b : bool) (a : attrs) : attrs := {| a_inplace := a_inplace a; a_bn := a_bn a; a_training := b; a_grads := a_grads a |}.
Definition with_grads (b : bool) (a : attrs) : attrs := {| a_inplace := a_inplace a; a_bn := a_bn a; a_training := a_training a; a_grads := map (fun _ => b) (a_grads a) |}.
(** base.py 178-208, set_module_inplace_false. *)
Fixpoint set_inplace_false (t : tree) : tree :=
  match t with Node a cs => match a_inplace a with Some _ => Node (with_inplace false a) cs | None => Node a (map set_inplace_false cs) end end.
(** What the constructor does to the student (base.py 83-89) and to the teacher (single_teacher_distill.py 66-80; the checkpoint is left out). *)
Definition new_student (module_inplace : bool) (t : tree) : tree := if module_inplace then t else set_inplace_false t.
Definition new_teacher (module_inplace trainable : bool) (t : tree) : tree :=
  let t := if module_inplace then t else set_inplace_false t in
  if trainable then t else map_tree (with_grads false) t.
(** nn.Module.train. *)
Definition train (mode : bool) : tree -> tree := map_tree (with_training mode).
(** m.eval() for every _BatchNorm among the modules, each before its submodules. *)
Fixpoint eval_norms (t : tree) : tree :=
  match t with Node a cs => if a_bn a then train false (Node a cs) else Node a (map eval_norms cs) end.
(** single_teacher_distill.py 150-156, train: the teacher afterwards. *)
Definition train_teacher (norm_eval mode : bool) (t : tree) : tree :=
  let t := train mode t in if mode && norm_eval then eval_norms t else t.

(** ** Passes *)
Inductive algo : Type := Single | Self | Fpn.
Inductive runs : Type := TeacherLoss | TeacherFeat | StudentLoss.
(** [p_grad]: not inside no_grad; [p_override]: the override_data of the deliveries; which recorders are entered. *)
Record pass : Type := { p_runs : runs; p_grad : bool; p_override : bool; p_student_rec : bool; p_teacher_rec : bool }.
Record cfg : Type := { c_algo : algo; c_teacher_trainable : bool; c_student_trainable : bool; c_calculate : bool }.
(** The passes of [loss] (single_teacher_distill.py 109-139, self_distill.py 64-84, fpn_teacher_distill.py 33-51). *)
Definition passes (c : cfg) : list pass :=
  match c_algo c with
  | Single => [ {| p_runs := TeacherLoss; p_grad := c_teacher_trainable c; p_override := false; p_student_rec := false; p_teacher_rec := true |};
                {| p_runs := StudentLoss; p_grad := if c_calculate c then true else c_student_trainable c; p_override := true; p_student_rec := true; p_teacher_rec := false |} ]
  | Self => [ {| p_runs := StudentLoss; p_grad := if c_calculate c then true else c_student_trainable c; p_override := true; p_student_rec := true; p_teacher_rec := true |} ]
  | Fpn => [ {| p_runs := TeacherFeat; p_grad := c_teacher_trainable c; p_override := false; p_student_rec := false; p_teacher_rec := true |};
             {| p_runs := StudentLoss; p_grad := true; p_override := true; p_student_rec := true; p_teacher_rec := false |} ]
  end.
(** The dictionary [loss] returns (the same lines, and single_teacher_distill.py 141-148, self_distill.py 86-92, fpn_teacher_distill.py
    52-59), given what the networks and the distiller return.  SelfDistill has no distillation_stopped. *)
Definition losses (c : cfg) (stopped : bool) (teacher student distill : subnet) : subnet :=
  let l := match c_algo c with Single => if c_teacher_trainable c then dupdate [] (add_prefix "teacher" teacher) else [] | _ => [] end in
  let l := match c_algo c with
           | Fpn => dupdate l (add_prefix "student" student)
           | _ => if c_calculate c then dupdate l (add_prefix "student" student) else l
           end in
  match c_algo c with
  | Self => dupdate l (add_prefix "distill" distill)
  | _ => if stopped then l else dupdate l (add_prefix "distill" distill)
  end.

(** ** Deliveries *)
(** One delivery during the passes: [teacher] and [student] are what the delivered calls of each network would return. *)
Definition calls_of (p : pass) (teacher student : list (option val)) : list (option val) :=
  match p_runs p with StudentLoss => student | _ => teacher end.
Fixpoint run_passes (ps : list pass) (teacher student : list (option val)) (d : delivery) : outcome (list (list (val * bool)) * delivery) :=
  match ps with
  | [] => Ok ([], d)
  | p :: r => do x <- deliver_all (set_override d (p_override p)) (calls_of p teacher student);
              do y <- run_passes r teacher student (snd x); Ok (fst x :: fst y, snd y)
  end.
(** Steps one after another with the same delivery. *)
Fixpoint run_steps (c : cfg) (its : list (list (option val) * list (option val))) (d : delivery) : outcome (list (list (list (val * bool))) * delivery) :=
  match its with
  | [] => Ok ([], d)
  | (t, s) :: r => do x <- run_passes (passes c) t s d; do y <- run_steps c r (snd x); Ok (fst x :: fst y, snd y)
  end.

(** ** Recorders *)
(** with student_recorders, teacher_recorders (self_distill.py 70-72): the managers are left in the opposite order. *)
Definition self_block (ss ts : list recorder) (evs : list event) (w : world) : world :=
  exit_all ss (exit_all ts (fold_left (step (ss ++ ts)) evs (enter_all ts (enter_all ss w)))).
