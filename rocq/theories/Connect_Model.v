(** Model of the connectors of mmrazor/models/architectures/connectors/{base,convmodule,norm,
    torch}_connector.py and of
    mmrazor/models/task_modules/recorder/param_recorder.py. *)
From Coq Require Import String.
From Verif Require Import Prelude.
Open Scope string_scope.

(** ** ConvModuleConnector *)
Section ConvModule.
Context {T : Type}.
(** The layers of mmcv's ConvModule; an absent layer is [None]. *)
Record conv_module : Type := { c_pad : option (T -> T); c_conv : T -> T; c_norm : option (T -> T); c_act : option (T -> T); c_order : list string }.
(** The constructor of mmcv's ConvModule asserts that the order is a tuple of length 3 whose
    set is {'conv', 'norm', 'act'}; convmodule_connector.py:71-75 calls it. *)
Definition conv_ctor (order : list string) : outcome (list string) :=
  do _ <- assert_ ((length order =? 3)%nat && existsb (String.eqb "conv") order && existsb (String.eqb "norm") order && existsb (String.eqb "act") order);
  Ok order.
Definition opt_apply (f : option (T -> T)) (x : T) : T := match f with Some g => g x | None => x end.
(** convmodule_connector.py:77-92, [forward_train]. *)
Definition conv_layer (m : conv_module) (feature : T) (layer : string) : T :=
  if String.eqb layer "conv" then c_conv m (opt_apply (c_pad m) feature)
  else if String.eqb layer "norm" then opt_apply (c_norm m) feature
  else if String.eqb layer "act" then opt_apply (c_act m) feature
  else feature.
Definition conv_forward (m : conv_module) (feature : T) : T := fold_left (conv_layer m) (c_order m) feature.
End ConvModule.
Arguments conv_module : clear implicits.

(** ** TorchFunctionalConnector and TorchNNConnector *)
(** torch_connector.py:11-22. *)
Definition FUNCTION_LIST : list string :=
  ["adaptive_avg_pool2d"; "adaptive_max_pool2d"; "avg_pool2d"; "dropout"; "dropout2d"; "max_pool2d"; "normalize"; "relu"; "softmax"; "interpolate"].
(** torch_connector.py:71-83. *)
Definition MODULE_LIST : list string :=
  ["AdaptiveAvgPool2d"; "AdaptiveMaxPool2d"; "AvgPool2d"; "BatchNorm2d"; "Conv2d"; "Dropout"; "Dropout2d"; "Linear"; "MaxPool2d"; "ReLU"; "Softmax"].
Section Torch.
Context {T A : Type}.
(** [getattr(torch.nn.functional, name)] called on a tensor with arguments, and
    [getattr(torch.nn, name)( **module_args )]. *)
Variable functional : string -> A -> T -> outcome T.
Variable nn_build : string -> A -> outcome (T -> outcome T).
(** torch_connector.py:45-68. *)
Definition functional_ctor (function_name : option string) (func_args : A) : outcome (T -> outcome T) :=
  match function_name with
  | None => Raise AssertionError
  | Some n => if existsb (String.eqb n) FUNCTION_LIST then Ok (fun x => functional n func_args x) else Raise ValueError
  end.
(** torch_connector.py:114-135. *)
Definition nn_ctor (module_name : option string) (module_args : A) : outcome (T -> outcome T) :=
  match module_name with
  | None => Raise AssertionError
  | Some n => if existsb (String.eqb n) MODULE_LIST then nn_build n module_args else Raise ValueError
  end.
End Torch.

(** ** ParameterRecorder (param_recorder.py:36-57 and base_recorder.py:25-118).  A parameter
    is its address; the buffer holds addresses. *)
Record precorder : Type := { pr_source : string; pr_buffer : list nat; pr_ready : bool }.
Definition pr_new (source : string) : precorder := {| pr_source := source; pr_buffer := []; pr_ready := false |}.
(** torch's [named_parameters]: a parameter that several modules share is listed once, under
    its first name. *)
Fixpoint named_parameters (seen : list nat) (all : list (string * nat)) : list (string * nat) :=
  match all with
  | [] => []
  | (n, a) :: r => if existsb (Nat.eqb a) seen then named_parameters seen r else (n, a) :: named_parameters (a :: seen) r
  end.
(** param_recorder.py:41-46, the loop: the first parameter of that name. *)
Fixpoint find_param (named : list (string * nat)) (source : string) : option nat :=
  match named with
  | [] => None
  | (n, a) :: r => if String.eqb n source then Some a else find_param r source
  end.
(** param_recorder.py:36-48 and base_recorder.py:52-60. *)
Definition pr_initialize (model : option (list (string * nat))) (r : precorder) : outcome precorder :=
  match model with
  | None => Raise AssertionError
  | Some named =>
      match find_param (named_parameters [] named) (pr_source r) with
      | None => Raise AssertionError
      | Some a => Ok {| pr_source := pr_source r; pr_buffer := pr_buffer r ++ [a]; pr_ready := true |}
      end
  end.
(** base_recorder.py:105-115 with param_recorder.py:50-57: entering does not clear. *)
Definition pr_enter (r : precorder) : outcome precorder := do _ <- assert_ (pr_ready r); Ok r.
(** base_recorder.py:62-98 with data_idx None, followed by reading the parameter's value. *)
Definition pr_get {V : Type} (mem : nat -> V) (record_idx : nat) (r : precorder) : outcome V :=
  match nth_error (pr_buffer r) record_idx with Some a => Ok (mem a) | None => Raise AssertionError end.
