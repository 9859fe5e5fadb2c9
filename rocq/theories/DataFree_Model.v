(** Model of models/algorithms/distill/configurable/datafree_distillation.py: the training steps of
    [DataFreeDistillation] and [DAFLDataFreeDistillation]. The weights of the student and of the generator are
    one vector of reals each; accumulative_counts is 1; batch statistics are not modelled. *)
From Coq Require Import Reals String.
From Verif Require Import Prelude Evolution_Model Recorder_Model Darts_Model.
Local Open Scope string_scope.
Local Open Scope list_scope.

Section DataFree.
(** Noise, generated images and the states of the two optimizers. *)
Variables N I SW SG : Type.
(** The generator. *)
Variable image : N -> vec -> I.
(** The gradient of the distillation losses of some images for the student's weights, and what is logged. *)
Variable dS : I -> vec -> vec.
Variable logS : I -> vec -> subnet.
(** The gradients of the generator's losses for the weights of the student and of the generator. *)
Variables gS gG : N -> vec -> vec -> vec.
Variable logG : N -> vec -> vec -> subnet.
Variable stepW : SW -> vec -> vec -> SW * vec.
Variable stepG : SG -> vec -> vec -> SG * vec.
(** Whether [zero_grad] sets gradients to None (PyTorch 2) or to zero. *)
Variable to_none : bool.

(** Weights, stored gradients and optimizers of the student (architecture) and the generator. *)
Record dfd : Type := { f_w : vec; f_gw : option vec; f_sw : SW; f_g : vec; f_gg : option vec; f_sg : SG }.

(** [backward] adds to stored gradients. *)
Definition accum (o : option vec) (g : vec) : option vec := match o with Some x => Some (vadd x g) | None => Some g end.
Definition cleared (o : option vec) : option vec := match o with Some x => if to_none then None else Some (vscale 0 x) | None => None end.
(** [update_params] of the student's optimizer after gradients were stored. *)
Definition update_student (s : dfd) : dfd :=
  match f_gw s with
  | Some x => let '(o, w) := stepW (f_sw s) (f_w s) x in {| f_w := w; f_gw := cleared (f_gw s); f_sw := o; f_g := f_g s; f_gg := f_gg s; f_sg := f_sg s |}
  | None => s
  end.
Definition update_generator (s : dfd) : dfd :=
  match f_gg s with
  | Some x => let '(o, g) := stepG (f_sg s) (f_g s) x in {| f_w := f_w s; f_gw := f_gw s; f_sw := f_sw s; f_g := g; f_gg := cleared (f_gg s); f_sg := o |}
  | None => s
  end.
(** The backward passes: the images are detached for the student, so the generator gets no gradient; the student's
    parameters take part in the generator's losses. *)
Definition backward_student (i : I) (s : dfd) : dfd :=
  {| f_w := f_w s; f_gw := accum (f_gw s) (dS i (f_w s)); f_sw := f_sw s; f_g := f_g s; f_gg := f_gg s; f_sg := f_sg s |}.
Definition backward_generator (z : N) (s : dfd) : dfd :=
  {| f_w := f_w s; f_gw := accum (f_gw s) (gS z (f_w s) (f_g s)); f_sw := f_sw s; f_g := f_g s; f_gg := accum (f_gg s) (gG z (f_w s) (f_g s)); f_sg := f_sg s |}.

(** Lines 107-141, [train_student] with the noise of each of the [student_iter] rounds; without a round
    [distill_log_vars] is not bound. *)
Fixpoint student_rounds (zs : list N) (s : dfd) (logs : option subnet) : dfd * option subnet :=
  match zs with
  | [] => (s, logs)
  | z :: r => let i := image z (f_g s) in student_rounds r (update_student (backward_student i s)) (Some (logS i (f_w s)))
  end.
Definition train_student (zs : list N) (s : dfd) : outcome (dfd * subnet) :=
  let '(s', l) := student_rounds zs s None in
  match l with Some l => Ok (s', dupdate [] (add_prefix "distill" l)) | None => Raise GenericException end.
(** Lines 143-173, [train_generator]. *)
Definition train_generator (z : N) (s : dfd) : dfd * subnet :=
  (update_generator (backward_generator z s), dupdate [] (add_prefix "generator" (logG z (f_w s) (f_g s)))).
(** Lines 78-105, [train_step]. *)
Definition train_step (student_train_first : bool) (zs : list N) (z : N) (s : dfd) : outcome (dfd * subnet) :=
  if student_train_first then
    do a <- train_student zs s;
    let b := train_generator z (fst a) in
    Ok (fst b, dupdate (dupdate [] (snd a)) (snd b))
  else
    let b := train_generator z s in
    do a <- train_student zs (fst b);
    Ok (fst a, dupdate (dupdate [] (snd a)) (snd b)).
(** Lines 179-229, [DAFLDataFreeDistillation.train_step]: both losses are computed before any update. *)
Definition dafl_step (z : N) (s : dfd) : dfd * subnet :=
  let i := image z (f_g s) in
  let s1 := update_generator (backward_generator z s) in
  let s2 := update_student {| f_w := f_w s1; f_gw := accum (f_gw s1) (dS i (f_w s)); f_sw := f_sw s1; f_g := f_g s1; f_gg := f_gg s1; f_sg := f_sg s1 |} in
  (s2, dupdate (dupdate [] (add_prefix "generator" (logG z (f_w s) (f_g s)))) (add_prefix "distill" (logS i (f_w s)))).
(** Training runs. *)
Fixpoint train_run (first : bool) (its : list (list N * N)) (s : dfd) : outcome dfd :=
  match its with [] => Ok s | (zs, z) :: r => do x <- train_step first zs z s; train_run first r (fst x) end.
Fixpoint dafl_run (zs : list N) (s : dfd) : dfd := match zs with [] => s | z :: r => dafl_run r (fst (dafl_step z s)) end.
End DataFree.
