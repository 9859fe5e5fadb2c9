(** Model of implementations/quantization/gptq/utils.py, torch_snr_error.  Tensors are their
    shape and their entries in row-major order, exact rationals (float32 rounding is not modelled). *)
From Coq Require Import String Ascii.
From Verif Require Import Prelude.
Local Open Scope list_scope.
Local Open Scope nat_scope.

Record tensor := { t_shape : list nat; t_data : list Q }.
Definition numel (s : list nat) : nat := fold_right Nat.mul 1 s.
Fixpoint shape_eqb (a b : list nat) : bool :=
  match a, b with [], [] => true | x :: r, y :: q => (x =? y) && shape_eqb r q | _, _ => false end.
(** [str.lower], on ASCII letters. *)
Definition lower_char (c : ascii) : ascii :=
  let n := nat_of_ascii c in if (65 <=? n) && (n <=? 90) then ascii_of_nat (n + 32) else c.
Fixpoint lower (s : string) : string :=
  match s with EmptyString => EmptyString | String c r => String (lower_char c) (lower r) end.
(** [n] rows of [k] entries. *)
Fixpoint rows (n k : nat) (l : list Q) : list (list Q) :=
  match n with O => [] | S m => firstn k l :: rows m k (skipn k l) end.
(** utils.py 38-43: unsqueeze of one dimension, flatten(start_dim=1); a tensor without
    dimensions has no dimension 1. *)
Definition flat (t : tensor) : outcome (list (list Q)) :=
  match t_shape t with
  | [] => Raise IndexError
  | [n] => Ok (rows 1 n (t_data t))
  | n :: r => Ok (rows n (numel r) (t_data t))
  end.
Definition qsum (l : list Q) : Q := fold_right Qplus 0%Q l.
(** utils.py 45-47. *)
Definition noise (p r : list Q) : Q := qsum (map (fun x => (fst x - snd x) * (fst x - snd x))%Q (combine p r)).
Definition signal (r : list Q) : Q := qsum (map (fun x => x * x)%Q r).
Definition eps : Q := (1 # 10000000)%Q.
Definition snr_row (p r : list Q) : Q := (noise p r / (signal r + eps))%Q.
(** A vector, a number, or NaN (the mean of nothing). *)
Inductive result := Vec (l : list Q) | Num (q : Q) | NaN.
(** utils.py 6-56. *)
Definition torch_snr_error (p r : tensor) (reduction : string) : outcome result :=
  if negb (shape_eqb (t_shape p) (t_shape r)) then Raise ValueError else
  let red := lower reduction in
  do ps <- flat p;
  do rs <- flat r;
  let snr := map (fun x => snr_row (fst x) (snd x)) (combine ps rs) in
  if String.eqb red "mean" then Ok (match snr with [] => NaN | _ => Num (qsum snr / inject_Z (Z.of_nat (length snr)))%Q end)
  else if String.eqb red "sum" then Ok (Num (qsum snr))
  else if String.eqb red "none" then Ok (Vec snr)
  else Raise ValueError.
