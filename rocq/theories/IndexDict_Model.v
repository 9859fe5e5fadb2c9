(** Model of mmrazor/utils/index_dict.py (class IndexDict). *)
From Verif Require Import Prelude.

(** A key is a range [start, end). *)
Definition range : Type := (Z * Z)%type.

Definition range_eqb (a b : range) : bool :=
  (fst a =? fst b) && (snd a =? snd b).

(** Lexicographic order of Python tuples. *)
Definition range_leb (a b : range) : bool :=
  (fst a <? fst b) || ((fst a =? fst b) && (snd a <=? snd b)).

Section IndexDict.
Variable V : Type.

(** The ordered dictionary: items in iteration order. *)
Definition idict : Type := list (range * V).

Definition keys (d : idict) : list range := map fst d.

(** index_dict.py:51-52, the overlap test against one stored key. *)
Definition hits (start end_ : Z) (k : range) : bool :=
  let '(s, e) := k in
  ((s <=? start) && (start <? e)) ||
  ((s <? end_) && (end_ <? e)) ||
  ((s <? start) && (end_ <? e)).

(** index_dict.py:42-54, [__contains__]: an exact key, or the accumulated test. *)
Definition contains (d : idict) (k : range) : bool :=
  if existsb (range_eqb k) (keys d) then true
  else fold_left (fun existed k' => hits (fst k) (snd k) k' || existed)
                 (keys d) false.

(** index_dict.py:30-35, [_sort]: items sorted by key (insertion sort; keys are
    distinct, so values are never compared). *)
Fixpoint insert_item (x : range * V) (l : idict) : idict :=
  match l with
  | [] => [x]
  | y :: r => if range_leb (fst x) (fst y) then x :: l else y :: insert_item x r
  end.
Definition sort_items (d : idict) : idict := fold_right insert_item [] d.

(** index_dict.py:22-28, [__setitem__].  [super().__setitem__] appends, since an
    equal key has been rejected by [__contains__]. *)
Definition setitem (d : idict) (k : range) (v : V) : outcome idict :=
  let '(start, end_) := k in
  do _ <- assert_ (start <? end_);
  do _ <- assert_ (negb (contains d k));
  Ok (sort_items (d ++ [(k, v)])).

(** A user program inserting ranges one after the other; a rejected insertion
    raises, is caught by the caller, and the dictionary keeps its state. *)
Definition try_set (d : idict) (kv : range * V) : idict :=
  match setitem d (fst kv) (snd kv) with Ok d' => d' | Raise _ => d end.
Definition insert_all (l : list (range * V)) : idict := fold_left try_set l [].

End IndexDict.

Arguments keys {V} d.
Arguments contains {V} d k.
Arguments setitem {V} d k v.
Arguments try_set {V} d kv.
Arguments insert_all {V} l.
Arguments sort_items {V} d.
Arguments insert_item {V} x l.
