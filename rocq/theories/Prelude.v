(** Shared vocabulary of the models: Python exceptions as values, small list and
    slicing helpers.  No mmrazor code is modelled in this file. *)
From Coq Require Export String.
From Coq Require Export List Bool Arith ZArith QArith Lia.
From Coq Require Export ZifyBool ZifyNat.
Export ListNotations.
Open Scope Z_scope.
Open Scope list_scope.

(** The Python exception classes that the modelled functions raise. *)
Inductive exn : Type :=
| AssertionError | AttributeError | RuntimeError | KeyError | IndexError
| ValueError | TypeError | NotImplementedError | StopIteration
| ZeroDivisionError | OverflowError | GenericException.

(** Result of a Python call: a value or a raised exception. *)
Inductive outcome (A : Type) : Type :=
| Ok (a : A)
| Raise (e : exn).
Arguments Ok {A} a.
Arguments Raise {A} e.

Definition bind {A B : Type} (x : outcome A) (f : A -> outcome B) : outcome B :=
  match x with Ok a => f a | Raise e => Raise e end.
Notation "'do' x <- e ; f" := (bind e (fun x => f))
  (at level 200, x pattern, e at level 100, f at level 200, right associativity).

Definition assert_ (b : bool) : outcome unit :=
  if b then Ok tt else Raise AssertionError.

(** Index resolution of the Python slice bound [x[0:stop]] on a sequence of
    length [n]: negative bounds count from the end, everything is clipped. *)
Definition slice_stop (n : nat) (stop : Z) : nat :=
  if stop <? 0 then Z.to_nat (Z.of_nat n + stop)
  else Nat.min n (Z.to_nat stop).

(** Number of [true] entries of a mask. *)
Definition count_true (m : list bool) : nat := length (filter (fun b => b) m).

(** Python truncation [int(p/q)] of a rational, toward zero. *)
Definition Qtrunc (q : Q) : Z := Z.quot (Qnum q) (Zpos (Qden q)).

Fixpoint mapM {A B : Type} (f : A -> outcome B) (l : list A) : outcome (list B) :=
  match l with
  | [] => Ok []
  | x :: r => do y <- f x; do ys <- mapM f r; Ok (y :: ys)
  end.

Lemma Ok_inj {A} (x y : A) : Ok x = Ok y -> x = y.
Proof. congruence. Qed.
