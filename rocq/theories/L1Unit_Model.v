(** Model of models/mutables/mutable_channel/units/l1_mutable_channel_unit.py.

    Weights are exact rationals, so norms carry no rounding and no NaN; the mean over an empty
    row, NaN in PyTorch, is 0 here. *)
From Coq Require Import Qabs.
From Verif Require Import Prelude PyNum Channel_Model Divisible_Model.

(** [tensor.topk(k)[1]] for [0 <= k <= len]: which of equal entries are returned, and
    their
    order, is PyTorch's choice. *)
Section L1.
Variable topk : list Q -> nat -> list nat.

(** The modules of [output_related].  [weight.flatten(1)] of a convolution and the weight of a
    linear layer are lists of rows.  A transposed convolution ([_ConvNd] too) has weights
    [in][out][kernel]; every other module is [LOther]. *)
Inductive lmodule : Type :=
| LConv (rows : list (list Q)) | LLinear (rows : list (list Q))
| LTransposed (weight : list (list (list Q))) | LOther.
(** A channel of the unit: channel.py:16-62. *)
Record lchannel : Type := { c_module : lmodule; c_start : nat; c_end : nat }.

Definition qsum (l : list Q) : Q := fold_right Qplus 0%Q l.
(** [weight.abs().mean(dim=[1])]. *)
Definition abs_mean (row : list Q) : Q := (qsum (map Qabs row) / inject_Z (Z.of_nat (length row)))%Q.
(** l1_mutable_channel_unit.py:57-66, [_get_l1_norm] on the rows of the weight. *)
Definition l1_norm (rows : list (list Q)) (start stop : nat) : list Q :=
  map abs_mean (firstn (stop - start) (skipn start rows)).
(** l1_mutable_channel_unit.py:74-76 and 60-63: the rows used, [None] for modules skipped. *)
Definition rows_of (m : lmodule) : option (list (list Q)) :=
  match m with
  | LConv r => Some r
  | LLinear r => Some r
  | LTransposed w => Some (map (@concat Q) w)
  | LOther => None
  end.
(** [avg_norm += norm]: 0 is replaced, a tensor is changed in place and [norm] broadcasts. *)
Definition add_norm (avg : option (list Q)) (norm : list Q) : outcome (option (list Q)) :=
  match avg with
  | None => Ok (Some norm)
  | Some a =>
      if Nat.eqb (length norm) (length a) then Ok (Some (map (fun p => (fst p + snd p)%Q) (combine a norm)))
      else match norm with
           | [x] => Ok (Some (map (fun y => (y + x)%Q) a))
           | _ => Raise RuntimeError
           end
  end.
(** l1_mutable_channel_unit.py:71-80, the loop of [_get_unit_norm]. *)
Fixpoint norm_loop (cs : list lchannel) (avg : option (list Q)) (n : nat) : outcome (option (list Q) * nat) :=
  match cs with
  | [] => Ok (avg, n)
  | c :: r =>
      match rows_of (c_module c) with
      | None => norm_loop r avg n
      | Some rows =>
          do avg' <- add_norm avg (l1_norm rows (c_start c) (c_end c));
          norm_loop r avg' (S n)
      end
  end.
(** l1_mutable_channel_unit.py:68-82, [_get_unit_norm]: [0 / 0] without a module. *)
Definition unit_norm (cs : list lchannel) : outcome (list Q) :=
  do r <- norm_loop cs None 0;
  match r with
  | (Some a, n) => Ok (map (fun x => (x / inject_Z (Z.of_nat n))%Q) a)
  | (None, _) => Raise ZeroDivisionError
  end.
(** l1_mutable_channel_unit.py:49-55, [_generate_mask] for [num_channels = n]. *)
Definition generate_mask (cs : list lchannel) (n : nat) (choice : Z) : outcome (list bool) :=
  do norm <- unit_norm cs;
  if (choice <? 0) || (Z.of_nat (length norm) <? choice) then Raise RuntimeError
  else
    let idx := topk norm (Z.to_nat choice) in
    if forallb (fun i => Nat.ltb i n) idx
    then Ok (map (fun i => existsb (Nat.eqb i) idx) (seq 0 n))
    else Raise RuntimeError.
(** l1_mutable_channel_unit.py:41-45, the setter. *)
Definition l1_set (u : unit_cfg) (cs : list lchannel) (ch : simple_channel) (choice : num) : outcome simple_channel :=
  do k <- valid_int_choice u choice;
  do m <- generate_mask cs (u_n u) k;
  Ok (simple_set ch m).
(** l1_mutable_channel_unit.py:33-39, the getter. *)
Definition l1_get (u : unit_cfg) (ch : simple_channel) : outcome num :=
  let k := Z.of_nat (count_true (s_mask ch)) in
  if u_num u then Ok (NInt k) else num2ratio (u_n u) k.
End L1.
