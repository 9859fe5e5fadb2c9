(** Model of models/distillers/configurable_distiller.py and byot_distiller.py: checking
    [loss_forward_mappings] and computing the distillation losses. *)
From Verif Require Import Prelude Onnx_Model Recorder_Model.

(** One value of a mapping: a dictionary with the keys recorder, from_student (whether it is a bool, and its
    truth), record_idx, data_idx, connector and connector_idx, and whether there are other keys. *)
Record info : Type := {
  i_recorder : option string; i_from_student : option (bool * bool); i_record_idx : option Z;
  i_data_idx : option (option Z); i_connector : option (option string); i_connector_idx : option (option Z); i_other : bool }.
(** The parameters of a loss's [forward] (and whether they have a default), and what it computes. *)
Record loss_module : Type := { l_params : list (string * bool); l_forward : list (string * val) -> outcome val }.
(** What the recorders of the student and the teacher hold, connectors, losses and mappings. *)
Record distiller : Type := {
  d_student : list (string * list val); d_teacher : list (string * list val);
  d_connectors : list (string * (val -> outcome val)); d_losses : list (string * loss_module);
  d_mappings : list (string * list (string * info)) }.

(** Lines 261-294, one argument of a loss. *)
Definition check_info (d : distiller) (l : loss_module) (ki : string * info) : outcome unit :=
  let r := snd ki in
  match get (l_params l) (fst ki) with
  | None => Raise AssertionError
  | Some true => Ok tt
  | Some false =>
      match i_recorder r, i_from_student r with
      | Some name, Some (isbool, b) =>
          if negb isbool then Raise TypeError
          else do _ <- assert_ (has (if b then d_student d else d_teacher d) name);
               match i_connector r with
               | Some (Some c) => assert_ (has (d_connectors d) c)
               | Some None => Raise AssertionError
               | None => Ok tt
               end
      | _, _ => Raise AssertionError
      end
  end.
Fixpoint check_all {A : Type} (f : A -> outcome unit) (l : list A) : outcome unit :=
  match l with [] => Ok tt | x :: r => do _ <- f x; check_all f r end.
(** Lines 228-259, [_check_loss_forward_mappings]. *)
Definition check_mapping (d : distiller) (m : string * list (string * info)) : outcome unit :=
  match get (d_losses d) (fst m) with
  | None => Raise AssertionError
  | Some l => check_all (check_info d l) (snd m)
  end.
(** Lines 97-126, [__init__]: an empty mapping is not checked. *)
Definition new_distiller (d : distiller) : outcome distiller :=
  do _ <- check_all (check_mapping d) (d_mappings d); Ok d.

Section Compute.
(** [x[i]] of what a connector returns, and [x.detach()]. *)
Variable item : val -> Z -> outcome val.
Variable detach : val -> outcome val.
(** Whether the distiller is a BYOTDistiller. *)
Variable byot : bool.

(** Lines 183-206, [get_record], called with [**record]; byot_distiller.py:19-44. *)
Definition get_record (d : distiller) (r : info) : outcome val :=
  match i_recorder r, i_from_student r with
  | Some name, Some (_, b) =>
      if i_other r then Raise TypeError
      else
        do buf <- lookup (if b then d_student d else d_teacher d) name;
        do x <- get_record_data buf (match i_record_idx r with Some i => i | None => 0 end) (match i_data_idx r with Some j => j | None => None end);
        do y <- match i_connector r with
                | Some (Some c) => if String.eqb c "" then Ok x else do f <- lookup (d_connectors d) c; f x
                | _ => Ok x
                end;
        do z <- match i_connector_idx r with Some (Some k) => item y k | _ => Ok y end;
        if byot && negb b then detach z else Ok z
  | _, _ => Raise TypeError
  end.
(** Calling [forward] with keyword arguments. *)
Definition call_loss (l : loss_module) (kwargs : list (string * val)) : outcome val :=
  if forallb (fun kv => has (l_params l) (fst kv)) kwargs && forallb (fun p => snd p || has kwargs (fst p)) (l_params l)
  then l_forward l kwargs else Raise TypeError.
(** Lines 208-226, [compute_distill_losses]. *)
Definition compute_one (d : distiller) (m : string * list (string * info)) : outcome (string * val) :=
  do kwargs <- mapM (fun ki => do v <- get_record d (snd ki); Ok (fst ki, v)) (snd m);
  do l <- lookup (d_losses d) (fst m);
  do v <- call_loss l kwargs;
  Ok (fst m, v).
Definition compute_distill_losses (d : distiller) : outcome (list (string * val)) := mapM (compute_one d) (d_mappings d).
End Compute.
