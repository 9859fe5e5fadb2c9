(** Python numbers: exact integers and IEEE-754 binary64 floats (the pure Gallina
    specification [Coq.Floats.SpecFloat] of the standard library).  No mmrazor code is
    modelled in this file. *)
From Verif Require Import Prelude.
From Coq Require Export Floats.SpecFloat.

Definition f64mul : spec_float -> spec_float -> spec_float := SFmul 53 1024.
Definition f64add : spec_float -> spec_float -> spec_float := SFadd 53 1024.
Definition f64sub : spec_float -> spec_float -> spec_float := SFsub 53 1024.
Definition f64div : spec_float -> spec_float -> spec_float := SFdiv 53 1024.

(** [float(z)], round to nearest even. *)
Definition f64_of_Z (z : Z) : spec_float := binary_normalize 53 1024 z 0 false.

(** The literal with decimal value [a / b], correctly rounded.  (For |a|, |b| < 2^53
    the division of the two exact conversions is the correctly rounded quotient.) *)
Definition f64_lit (a b : Z) : spec_float := f64div (f64_of_Z a) (f64_of_Z b).

(** [int(f)]: truncation toward zero; NaN raises ValueError, infinities OverflowError. *)
Definition py_int (f : spec_float) : outcome Z :=
  match f with
  | S754_zero _ => Ok 0
  | S754_infinity _ => Raise OverflowError
  | S754_nan => Raise ValueError
  | S754_finite s m e =>
      let a := match e with
               | Z0 => Zpos m
               | Zpos p => Zpos m * 2 ^ Zpos p
               | Zneg p => Zpos m / 2 ^ Zpos p
               end in
      Ok (if s then - a else a)
  end.

(** The exact rational value of a finite float. *)
Definition f64_val (f : spec_float) : option Q :=
  match f with
  | S754_zero _ => Some 0%Q
  | S754_infinity _ | S754_nan => None
  | S754_finite s m e =>
      let sm := if s then Zneg m else Zpos m in
      Some (match e with
            | Z0 => inject_Z sm
            | Zpos p => inject_Z (sm * 2 ^ Zpos p)
            | Zneg p => Qmake sm (2 ^ p)%positive
            end)
  end.

(** A Python [int] or [float] object. *)
Inductive num : Type :=
| NInt (z : Z)
| NFloat (f : spec_float).

Definition num_val (x : num) : option Q :=
  match x with NInt z => Some (inject_Z z) | NFloat f => f64_val f end.

(** [a == b] on Python numbers (exact across int and float; NaN differs from all). *)
Definition num_eqb (a b : num) : bool :=
  match num_val a, num_val b with
  | Some p, Some q => Qeq_bool p q
  | _, _ => match a, b with
            | NFloat (S754_infinity s), NFloat (S754_infinity s') => Bool.eqb s s'
            | _, _ => false
            end
  end.

(** [a <= b] on finite Python numbers (the comparison used when sorting). *)
Definition num_leb (a b : num) : bool :=
  match num_val a, num_val b with
  | Some p, Some q => Qle_bool p q
  | _, _ => false
  end.

(** [x in xs]. *)
Definition num_in (x : num) (xs : list num) : bool := existsb (num_eqb x) xs.

(** [list.sort()] / [sorted()] on finite numbers: stable insertion sort. *)
Fixpoint num_insert (x : num) (l : list num) : list num :=
  match l with
  | [] => [x]
  | y :: r => if num_leb x y then x :: l else y :: num_insert x r
  end.
Definition num_sort (l : list num) : list num := fold_right num_insert [] l.
