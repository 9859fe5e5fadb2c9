(** Model of mmrazor/models/mutables/mutable_channel/mutable_channel_container.py
    and of the part of simple_mutable_channel.py it uses. *)
From Verif Require Import Prelude IndexDict_Model.

(** A registered mutable is a reference [Reg id]; its mask is looked up when the
    container is read.  [Filled n] is a SimpleMutableChannel of [n] channels created
    by the container itself (its mask is all ones, simple_mutable_channel.py:21-26). *)
Inductive slot : Type :=
| Reg (id : nat)
| Filled (n : Z).

(** current_mask of a slot, [env] giving the present masks of the registered
    mutables (simple_mutable_channel.py:40-43). *)
Definition slot_mask (env : nat -> list bool) (v : slot) : list bool :=
  match v with
  | Reg id => env id
  | Filled n => repeat true (Z.to_nat n)
  end.

Record container : Type := { num_channels : Z; slots : idict slot }.

(** mutable_channel_container.py:31-33, [__init__]. *)
Definition new_container (n : Z) : container := {| num_channels := n; slots := [] |}.

(** mutable_channel_container.py:67-72, [register_mutable]. *)
Definition register (c : container) (v : slot) (start end_ : Z) : outcome container :=
  do d <- setitem (slots c) (start, end_) v;
  Ok {| num_channels := num_channels c; slots := d |}.

(** simple_mutable_channel.py:21-26: [torch.ones([n])] raises for negative [n]. *)
Definition new_simple (n : Z) : outcome slot :=
  if n <? 0 then Raise RuntimeError else Ok (Filled n).

(** mutable_channel_container.py:114-119, the loop of [_fill_unregistered_range]
    over the keys of a copy of the dictionary.  Note line 118: the size passed to
    SimpleMutableChannel is [last_end - start]. *)
Fixpoint fill_loop (ks : list range) (last_end : Z) (c : container)
  : outcome (container * Z) :=
  match ks with
  | [] => Ok (c, last_end)
  | (start, end_) :: r =>
      do c' <- (if last_end <? start
                then do m <- new_simple (last_end - start);
                     register c m last_end start
                else Ok c);
      fill_loop r end_ c'
  end.

(** mutable_channel_container.py:106-123. *)
Definition fill_unregistered_range (c : container) : outcome container :=
  do r <- fill_loop (keys (slots c)) 0 c;
  let '(c1, last_end) := r in
  if last_end <? num_channels c
  then do m <- new_simple (num_channels c - last_end);
       register c1 m last_end (num_channels c)
  else Ok c1.

(** mutable_channel_container.py:95-104, [_assert_mutables_valid]. *)
Fixpoint contiguous_from (ks : list range) (last_end : Z) : outcome Z :=
  match ks with
  | [] => Ok last_end
  | (start, end_) :: r => do _ <- assert_ (start =? last_end); contiguous_from r end_
  end.
Definition assert_mutables_valid (c : container) : outcome unit :=
  do _ <- assert_ (negb (Nat.eqb (length (slots c)) 0));
  do last_end <- contiguous_from (keys (slots c)) 0;
  assert_ (last_end =? num_channels c).

(** mutable_channel_container.py:37-48, [current_choice] (= [current_mask]).  Reading
    mutates the container, so the new container is returned as well. *)
Definition current_mask (env : nat -> list bool) (c : container)
  : outcome (container * list bool) :=
  if Nat.eqb (length (slots c)) 0
  then Ok (c, repeat true (Z.to_nat (num_channels c)))
  else
    do c' <- fill_unregistered_range c;
    do _ <- assert_mutables_valid c';
    Ok (c', concat (map (fun kv => slot_mask env (snd kv)) (slots c'))).

(** A registration history: requests that raise are caught by the caller. *)
Definition reg_req : Type := (nat * (Z * Z))%type.
Definition try_register (c : container) (r : reg_req) : container :=
  let '(id, (s, e)) := r in
  match register c (Reg id) s e with Ok c' => c' | Raise _ => c end.
Definition register_all (n : Z) (rs : list reg_req) : container :=
  fold_left try_register rs (new_container n).
