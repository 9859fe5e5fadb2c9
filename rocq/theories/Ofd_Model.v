(** Model of models/distillers/ofd_distiller.py, of
    models/architectures/connectors/ofd_connector.py and of the constructor of
    models/algorithms/distill/configurable/overhaul_feature_distillation.py.

    Tensor entries are real numbers; rounding and overflow are not modelled. *)
From Coq Require Import Reals.
From Verif Require Import Prelude Onnx_Model Distiller_Model.
Local Open Scope R_scope.

Section Ofd.
(** scipy's [norm.cdf]. *)
Variable cdf : R -> R.

(** ofd_distiller.py:68-78, one channel: [s] is the weight, [m] the bias.  [-m / s] of Python
    floats raises for [s = 0]. *)
Definition margin_of (weight m : R) : outcome R :=
  let s := Rabs weight in
  if Req_EM_T s 0 then Raise ZeroDivisionError
  else if Rgt_dec (cdf (- m / s)) (1 / 1000)
       then Ok (- s * exp (- (m / s) ^ 2 / 2) / sqrt (2 * PI) / cdf (- m / s) + m)
       else Ok (-3 * s).
(** A module found in the teacher: a BatchNorm2d or SyncBatchNorm with its weights and biases
    ([None] with affine=False), or any other module. *)
Inductive tmodule : Type := TBatchNorm (affine : option (list R * list R)) | TOther.
(** ofd_distiller.py:56-80, [_get_margin_from_BN]. *)
Definition get_margin (bn : option (list R * list R)) : outcome (list R) :=
  match bn with
  | None => Raise AttributeError
  | Some (w, b) => mapM (fun p => margin_of (fst p) (snd p)) (combine w b)
  end.

(** A connector: an OFDTeacherConnector with its margin, or another one. *)
Inductive conn : Type := COfd (margin : option (list R)) | COther.
Definition conns := list (string * conn).
(** ofd_distiller.py:35-53, the body of the inner loop; [sources] are the teacher recorders
    with their sources, [attr] is [attrgetter(source)(teacher)]. *)
Definition init_one (sources : list (string * string)) (attr : string -> outcome tmodule) (i : info) (cs : conns) : outcome conns :=
  match i_connector i with
  | None => Ok cs
  | Some c =>
      match i_from_student i with
      | None => Raise KeyError
      | Some (_, true) => Ok cs
      | Some (_, false) =>
          match i_recorder i with
          | None => Raise KeyError
          | Some r =>
              match get sources r with
              | None => Raise KeyError
              | Some src =>
                  do t <- attr src;
                  match t with
                  | TOther => Raise AssertionError
                  | TBatchNorm bn =>
                      match c with
                      | None => Raise KeyError
                      | Some name =>
                          match get cs name with
                          | None => Raise KeyError
                          | Some COther => Raise AssertionError
                          | Some (COfd _) => do m <- get_margin bn; Ok (put cs name (COfd (Some m)))
                          end
                      end
                  end
              end
          end
      end
  end.
Fixpoint init_all (sources : list (string * string)) (attr : string -> outcome tmodule) (l : list info) (cs : conns) : outcome conns :=
  match l with [] => Ok cs | i :: r => do cs' <- init_one sources attr i cs; init_all sources attr r cs' end.
(** ofd_distiller.py:28-34; [is_ofd] says which losses are an OFDLoss ([None]: no such loss). *)
Fixpoint init_ofd_connectors (sources : list (string * string)) (attr : string -> outcome tmodule) (is_ofd : string -> option bool)
    (maps : list (string * list (string * info))) (cs : conns) : outcome conns :=
  match maps with
  | [] => Ok cs
  | (l, args) :: r =>
      do cs' <- match is_ofd l with
                | None => Raise KeyError
                | Some true => init_all sources attr (map snd args) cs
                | Some false => Ok cs
                end;
      init_ofd_connectors sources attr is_ofd r cs'
  end.

(** ofd_connector.py:30-37: [torch.max] with the margin of the channel; a feature is a list of
    channels, whose number must be that of the margins (or one of them 1, not modelled). *)
Definition ofd_connect (c : conn) (feature : list (list R)) : outcome (list (list R)) :=
  match c with
  | COfd None => Raise AssertionError
  | COfd (Some m) =>
      if Nat.eqb (length m) (length feature)
      then Ok (map (fun p => map (fun x => Rmax x (fst p)) (snd p)) (combine m feature))
      else Raise RuntimeError
  | COther => Ok feature
  end.
End Ofd.
