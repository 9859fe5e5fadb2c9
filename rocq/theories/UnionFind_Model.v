(** Model of mmrazor/structures/graph/channel_flow.py (ChannelElem, ChannelTensor). *)
From Verif Require Import Prelude.

(** channel_flow.py:25-30.  Elements are numbered in order of creation; [uf_parent] is
    [_parent], [uf_subs] is [_subs].  [uf_n] is the number of elements created so far.
    The caches of lines 29-30 are not part of this model. *)
Record uf : Type := { uf_n : nat; uf_parent : nat -> option nat; uf_subs : nat -> list nat }.
Definition uf_empty : uf :=
  {| uf_n := 0; uf_parent := fun _ => None; uf_subs := fun _ => [] |}.
Definition fupd {A} (f : nat -> A) (x : nat) (v : A) : nat -> A :=
  fun y => if Nat.eqb y x then v else f y.

(** channel_flow.py:118-123, [_unset_parent]. *)
Definition unset_parent (s : uf) (x : nat) : outcome uf :=
  match uf_parent s x with
  | None => Raise AssertionError
  | Some old =>
      if existsb (Nat.eqb x) (uf_subs s old)
      then Ok {| uf_n := uf_n s; uf_parent := fupd (uf_parent s) x None;
                 uf_subs := fupd (uf_subs s) old
                              (filter (fun y => negb (Nat.eqb y x)) (uf_subs s old)) |}
      else Raise KeyError                                    (* set.remove *)
  end.

(** channel_flow.py:91-116, [root] (with path compression) and [_set_parent], which calls
    [parent.root] in its second assertion.  [fuel] bounds the recursion depth; running out
    of it is [RuntimeError] (Python: RecursionError). *)
Fixpoint root (fuel : nat) (s : uf) (x : nat) : outcome (uf * nat) :=
  match uf_parent s x with
  | None => Ok (s, x)
  | Some y =>
      match fuel with
      | O => Raise RuntimeError
      | S fuel =>
          do sr <- root fuel s y;
          let '(s1, r) := sr in
          do s2 <- unset_parent s1 x;
          (* self._set_parent(root) *)
          do _ <- assert_ (match uf_parent s2 x with None => true | Some _ => false end);
          do sr2 <- root fuel s2 r;
          let '(s3, r2) := sr2 in
          do _ <- assert_ (negb (Nat.eqb r2 x));
          Ok ({| uf_n := uf_n s3; uf_parent := fupd (uf_parent s3) x (Some r);
                 uf_subs := fupd (uf_subs s3) r
                   (if existsb (Nat.eqb x) (uf_subs s3 r) then uf_subs s3 r
                    else x :: uf_subs s3 r) |}, r)
      end
  end.
(** channel_flow.py:111-116, [self._set_parent(parent)]. *)
Definition set_parent (fuel : nat) (s : uf) (x parent : nat) : outcome uf :=
  do _ <- assert_ (match uf_parent s x with None => true | Some _ => false end);
  do sr <- root fuel s parent;
  let '(s1, r) := sr in
  do _ <- assert_ (negb (Nat.eqb r x));
  Ok {| uf_n := uf_n s1; uf_parent := fupd (uf_parent s1) x (Some parent);
        uf_subs := fupd (uf_subs s1) parent
          (if existsb (Nat.eqb x) (uf_subs s1 parent) then uf_subs s1 parent
           else x :: uf_subs s1 parent) |}.

(** channel_flow.py:35-40, [union_two]. *)
Definition union_two (s : uf) (a b : nat) : outcome uf :=
  do ra <- root (uf_n s) s a;
  let '(s1, root1) := ra in
  do rb <- root (uf_n s) s1 b;
  let '(s2, root2) := rb in
  if Nat.eqb root1 root2 then Ok s2 else set_parent (uf_n s) s2 root2 root1.

(** channel_flow.py:102-109, [subs]: the set is returned as a list with duplicates. *)
Fixpoint subs (fuel : nat) (s : uf) (x : nat) : outcome (list nat) :=
  match uf_subs s x with
  | [] => Ok [x]
  | kids =>
      match fuel with
      | O => Raise RuntimeError
      | S fuel =>
          do ls <- mapM (subs fuel s) kids;
          Ok (kids ++ x :: concat ls)
      end
  end.
(** channel_flow.py:48-52, [owing_elem_set]. *)
Definition owing_elem_set (s : uf) (x : nat) : outcome (uf * list nat) :=
  do sr <- root (uf_n s) s x;
  let '(s1, r) := sr in
  do l <- subs (uf_n s) s1 r;
  Ok (s1, l).

(** channel_flow.py:135: creating the elements of a tensor of [k] channels. *)
Definition new_tensor (s : uf) (k : nat) : uf * list nat :=
  ({| uf_n := uf_n s + k; uf_parent := uf_parent s; uf_subs := uf_subs s |}, seq (uf_n s) k).

Fixpoint union_pairs (s : uf) (l : list (nat * nat)) : outcome uf :=
  match l with
  | [] => Ok s
  | (a, b) :: r => do s' <- union_two s a b; union_pairs s' r
  end.
(** channel_flow.py:144-148, [ChannelTensor.union_two]. *)
Definition tensor_union (s : uf) (t1 t2 : list nat) : outcome uf :=
  do _ <- assert_ (Nat.eqb (length t1) (length t2));
  union_pairs s (combine t1 t2).
(** channel_flow.py:158-165, [ChannelTensor.expand]. *)
Definition tensor_expand (s : uf) (t : list nat) (ratio : nat) : outcome (uf * list nat) :=
  let '(s1, new) := new_tensor s (ratio * length t) in
  do s2 <- union_pairs s1
    (flat_map (fun i => map (fun j => (nth i t 0%nat, nth (i * ratio + j) new 0%nat)) (seq 0 ratio))
              (seq 0 (length t)));
  Ok (s2, new).

(** Histories of calls on elements. *)
Inductive uf_call : Type :=
| NewTensor (k : nat) | Union (a b : nat) | ReadRoot (a : nat) | ReadSet (a : nat).
Definition uf_exec (s : uf) (c : uf_call) : outcome uf :=
  match c with
  | NewTensor k => Ok (fst (new_tensor s k))
  | Union a b => union_two s a b
  | ReadRoot a => do sr <- root (uf_n s) s a; Ok (fst sr)
  | ReadSet a => do sl <- owing_elem_set s a; Ok (fst sl)
  end.
Fixpoint uf_run (s : uf) (cs : list uf_call) : outcome uf :=
  match cs with
  | [] => Ok s
  | c :: r => do s' <- uf_exec s c; uf_run s' r
  end.

(** ** Splitting a tensor into units *)

(** channel_flow.py:176-190, [elems_hash_dict]: the ranges and their hashes, in insertion
    order, for the list of (set hash, minimal index) of the tensor's channels.  The
    insertion into the IndexDict is modelled in IndexDict_Model. *)
Fixpoint split_loop (l : list (Z * Z)) (prev : Z * Z) (start e : Z) (first : Z)
  : list ((Z * Z) * Z) :=
  match l with
  | [] => [((start, e), first)]
  | h :: r =>
      if (negb (Z.eqb (fst h) (fst prev))) || (Z.ltb (snd h) (snd prev))
      then ((start, e), first) :: split_loop r h e (e + 1) (fst h)
      else split_loop r h start (e + 1) first
  end.
Definition elems_hash_ranges (l : list (Z * Z)) : outcome (list ((Z * Z) * Z)) :=
  match l with
  | [] => Raise IndexError
  | h :: r => Ok (split_loop r h 0 1 (fst h))
  end.
