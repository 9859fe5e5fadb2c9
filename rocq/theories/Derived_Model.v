(** Model of mmrazor/models/mutables/derived_mutable.py, of the operators of
    sequential_mutable_channel.py and of SimpleMutableChannel.expand_mutable_channel. *)
From Verif Require Import Prelude PyNum Channel_Model Divisible_Model.

Section Derived.

(** [int(k * ratio)] for an integer [k] and a float [ratio]: a parameter, so that the
    results hold for binary64 products as well as for exact ones. *)
Variable rmul : Z -> Q -> Z.

(** Source mutables by identity: number-mode channel mutables (width, current choice)
    and one-shot value mutables (current choice, max choice). *)
Record store : Type := { chan : nat -> nat * Z; value : nat -> Q * Q }.

(** A derived mutable is a pair of closures over its sources; the expression records
    what the closures have captured. *)
Inductive dexpr : Type :=
| DChan (i : nat)                              (* a source channel mutable itself *)
| DExpandInt (e : dexpr) (r : Z)               (* derived_mutable.py:45-78, int ratio *)
| DExpandFloat (e : dexpr) (r : Q)             (* derived_mutable.py:45-78, float ratio *)
| DMulValue (i j : nat)                        (* sequential_mutable_channel.py:73-110 *)
| DDivide (e : dexpr) (ratio cdiv mdiv : Z)    (* derived_mutable.py:88-116; the divisors
                                                  of the choice and of the mask closure *)
| DConcat (es : list dexpr).                   (* derived_mutable.py:119-134 *)

(** derived_mutable.py:81-85, [_divide_and_divise]. *)
Definition divide_and_divise (x ratio divisor : Z) : outcome Z :=
  if ratio =? 0 then Raise ZeroDivisionError
  else make_divisible (x / ratio) divisor None (9 # 10).

(** [sum] of outcomes. *)
Definition osum (l : list (outcome Z)) : outcome Z :=
  fold_right (fun x acc => do a <- x; do b <- acc; Ok (a + b)) (Ok 0) l.

(** [current_choice]: derived_mutable.py:49-50, 93-94, 122-123;
    sequential_mutable_channel.py:82-83. *)
Fixpoint dchoice (s : store) (e : dexpr) : outcome Z :=
  match e with
  | DChan i => Ok (Z.of_nat (slice_stop (fst (chan s i)) (snd (chan s i))))
  | DExpandInt e r => do k <- dchoice s e; Ok (k * r)
  | DExpandFloat e r => do k <- dchoice s e; Ok (rmul k r)
  | DMulValue i j =>
      Ok (rmul (Z.of_nat (slice_stop (fst (chan s i)) (snd (chan s i)))) (fst (value s j)))
  | DDivide e ratio cdiv _ => do k <- dchoice s e; divide_and_divise k ratio cdiv
  | DConcat es => osum (map (dchoice s) es)
  end.

(** [torch.zeros(size).bool()] then [mask[:choice] = True]. *)
Definition new_mask (size choice : Z) : outcome (list bool) :=
  if size <? 0 then Raise RuntimeError else Ok (leading (Z.to_nat size) choice).

(** [torch.cat]; an empty list raises. *)
Definition ocat (l : list (outcome (list bool))) : outcome (list bool) :=
  match l with
  | [] => Raise RuntimeError
  | _ => fold_right (fun x acc => do a <- x; do b <- acc; Ok (a ++ b)) (Ok []) l
  end.

(** [current_mask]: derived_mutable.py:62-76, 106-114, 131-132;
    sequential_mutable_channel.py:90-101. *)
Fixpoint dmask (s : store) (e : dexpr) : outcome (list bool) :=
  match e with
  | DChan i => Ok (leading (fst (chan s i)) (snd (chan s i)))
  | DExpandInt e r =>
      do m <- dmask s e; do k <- dchoice s e;
      new_mask (Z.of_nat (length m) * r) (k * r)
  | DExpandFloat e r =>
      do m <- dmask s e; do k <- dchoice s e;
      new_mask (rmul (Z.of_nat (length m)) r) (rmul k r)
  | DMulValue i j =>
      let n := fst (chan s i) in
      new_mask (rmul (Z.of_nat n) (snd (value s j)))
               (rmul (Z.of_nat (slice_stop n (snd (chan s i)))) (fst (value s j)))
  | DDivide e ratio _ mdiv =>
      do m <- dmask s e; do k <- dchoice s e;
      do size <- divide_and_divise (Z.of_nat (length m)) ratio mdiv;
      do c <- divide_and_divise k ratio mdiv;
      new_mask size c
  | DConcat es => ocat (map (dmask s) es)
  end.

(** What can be passed as a ratio. *)
Inductive ratio_arg : Type := RInt (r : Z) | RFloat (r : Q) | RValue (j : nat).

(** derived_mutable.py:144-172, [derive_expand_mutable], called in store [s]: a mutable
    ratio is read once, at derivation time (line 154).  A value mutable's choice is a
    float here. *)
Definition derive_expand (s : store) (e : dexpr) (r : ratio_arg) : dexpr :=
  match r with
  | RInt r => DExpandInt e r
  | RFloat r => DExpandFloat e r
  | RValue j => DExpandFloat e (fst (value s j))
  end.

(** derived_mutable.py:174-203, [derive_divide_mutable(ratio, divisor=8)]: for float and
    mutable ratios the choice closure gets divisor 1 (lines 186, 189) but the mask
    closure gets [divisor] (lines 197-201). *)
Definition derive_divide (s : store) (e : dexpr) (r : ratio_arg) (divisor : Z) : dexpr :=
  match r with
  | RInt r => DDivide e r divisor divisor
  | RFloat q => DDivide e (Qtrunc q) 1 divisor
  | RValue j => DDivide e (Qtrunc (fst (value s j))) 1 divisor
  end.

(** sequential_mutable_channel.py:73-110, [channel * other]. *)
Definition chan_mul (s : store) (i : nat) (r : ratio_arg) : dexpr :=
  match r with
  | RInt _ | RFloat _ => derive_expand s (DChan i) r
  | RValue j => DMulValue i j
  end.

(** sequential_mutable_channel.py:112-126, [channel // other]: a float ratio is
    truncated first (line 116); a value mutable is read at derivation time (line 123),
    its float choice is passed on. *)
Definition chan_floordiv (s : store) (i : nat) (r : ratio_arg) : dexpr :=
  match r with
  | RInt r => derive_divide s (DChan i) (RInt r) 8
  | RFloat q => derive_divide s (DChan i) (RInt (Qtrunc q)) 8
  | RValue j => derive_divide s (DChan i) (RFloat (fst (value s j))) 8
  end.

(** Mutables whose change the derived mutable can observe through its closures. *)
Fixpoint reads_value (e : dexpr) (j : nat) : Prop :=
  match e with
  | DChan _ => False
  | DExpandInt e _ | DExpandFloat e _ | DDivide e _ _ _ => reads_value e j
  | DMulValue _ j' => j' = j
  | DConcat es => fold_right (fun e acc => reads_value e j \/ acc) False es
  end.

End Derived.

(** simple_mutable_channel.py:47-57, [expand_mutable_channel] with an integer ratio:
    [unsqueeze(-1).expand(n, ratio).flatten(-2)]; choice and mask are the same closure. *)
Definition simple_expand (ratio : nat) (m : list bool) : list bool :=
  flat_map (fun b => repeat b ratio) m.
