(** Model of mmrazor/structures/subnet/fix_subnet.py (mutable mode) and of the choice
    handling of mmrazor/models/mutators/nas_mutator.py. *)
From Verif Require Import Prelude Evolution_Model.
From Coq Require Import Ascii.

(** What [named_modules] yields; mutable objects are numbered.  [KOther] is any module that is
    not a mutable. *)
Inductive kind : Type := KOther | KContainer | KMutable (i : nat) | KDerived (srcs : list nat).
Definition net : Type := list (string * kind).

(** State of a mutable: its current choice (an opaque label) and whether it is fixed. *)
Record mst : Type := { m_fixed : bool; m_choice : string }.
Definition heap : Type := nat -> mst.
Definition hset (h : heap) (i : nat) (s : mst) : heap := fun j => if Nat.eqb i j then s else h j.

(** fix_subnet.py:187-195, 99-111: the (module name, mutable) pairs that both functions visit. *)
Definition uses (m : net) : list (string * nat) :=
  flat_map (fun nk => match snd nk with
                      | KMutable i => [(fst nk, i)]
                      | KDerived l => map (fun i => (fst nk, i)) l
                      | _ => []
                      end) m.

Section Alias.
(** [module.alias]; [None] also stands for an empty alias. *)
Variable alias : nat -> option string.

(** fix_subnet.py:174-196, [_export_subnet_by_mutable]. *)
Definition export (m : net) (h : heap) : subnet :=
  fold_left (fun d ni => dput d (match alias (snd ni) with Some a => a | None => fst ni end) (m_choice (h (snd ni)))) (uses m) [].

(** Python's [str.lstrip(chars)]: drops leading characters that occur in [chars]. *)
Fixpoint char_in (c : ascii) (s : string) : bool :=
  match s with EmptyString => false | String d r => Ascii.eqb c d || char_in c r end.
Fixpoint lstrip (s chars : string) : string :=
  match s with
  | EmptyString => EmptyString
  | String c r => if char_in c chars then lstrip r chars else s
  end.

Fixpoint sget (d : subnet) (k : string) : option string :=
  match d with [] => None | (k0, v) :: r => if String.eqb k0 k then Some v else sget r k end.

(** fix_subnet.py:79-85. *)
Definition load_name (prefix extra name : string) : string :=
  if negb (String.eqb prefix "") then lstrip name prefix
  else if negb (String.eqb extra "") then (extra ++ name)%string else name.
(** fix_subnet.py:70-97, [load_fix_module]. *)
Definition load_one (prefix extra : string) (d : subnet) (h : heap) (ni : string * nat) : outcome heap :=
  do chosen <- match alias (snd ni) with
               | Some a => match sget d a with Some c => Ok c | None => Raise AssertionError end
               | None => match sget d (load_name prefix extra (fst ni)) with Some c => Ok c | None => Raise RuntimeError end
               end;
  if m_fixed (h (snd ni)) then Ok h else Ok (hset h (snd ni) {| m_fixed := true; m_choice := chosen |}).
Fixpoint load_all (prefix extra : string) (d : subnet) (h : heap) (l : list (string * nat)) : outcome heap :=
  match l with
  | [] => Ok h
  | ni :: r => do h' <- load_one prefix extra d h ni; load_all prefix extra d h' r
  end.
(** fix_subnet.py:31-59 and 62-111 (the dict form; the conversion of dynamic to static ops is
    not modelled). *)
Definition load (prefix extra : string) (m : net) (d : subnet) (h : heap) : outcome heap :=
  if negb (String.eqb prefix "") && negb (String.eqb extra "") then Raise RuntimeError
  else load_all prefix extra d h (uses m).
End Alias.

(** * nas_mutator.py: choices of the search groups (without architecture parameters) *)
Definition groups : Type := list (string * list nat).
Definition choice_heap : Type := nat -> string.
Definition cset (h : choice_heap) (i : nat) (c : string) : choice_heap := fun j => if Nat.eqb i j then c else h j.
(** nas_mutator.py:177-183, [set_choices]; assigning [current_choice] stores the choice. *)
Fixpoint set_choices (g : groups) (choices : subnet) (h : choice_heap) : outcome choice_heap :=
  match g with
  | [] => Ok h
  | (n, l) :: r =>
      match sget choices n with
      | None => Raise KeyError
      | Some c => set_choices r choices (fold_left (fun h i => cset h i c) l h)
      end
  end.
(** nas_mutator.py:226-232, [current_choices]: the choice of the first mutable of a group. *)
Fixpoint current_choices (g : groups) (h : choice_heap) : outcome subnet :=
  match g with
  | [] => Ok []
  | (n, []) :: r => Raise IndexError
  | (n, i :: _) :: r => do rest <- current_choices r h; Ok ((n, h i) :: rest)
  end.
