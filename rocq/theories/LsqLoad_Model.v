(** Model of LearnableFakeQuantize._load_from_state_dict, mmrazor/models/fake_quants/lsq.py
    lines 261-299, with torch's Module._load_from_state_dict that it calls.

    Tensors are shapes and values; a tensor has at least one dimension, as all of this module
    have (lines 102-127), so torch's special case for scalars of old versions is left out. *)
From Coq Require Import QArith Ascii String.
From Verif Require Import Prelude.
Open Scope string_scope.
Open Scope list_scope.

Record tensor : Type := { shape : list nat; vals : list Q }.
Definition dict : Type := list (string * tensor).
Fixpoint get (d : dict) (k : string) : option tensor :=
  match d with [] => None | (k', v) :: r => if String.eqb k k' then Some v else get r k end.
Fixpoint shape_eqb (a b : list nat) : bool :=
  match a, b with [], [] => true | x :: a, y :: b => Nat.eqb x y && shape_eqb a b | _, _ => false end.
Definition numel (s : list nat) : nat := fold_right Nat.mul 1%nat s.

(** The parameters and buffers of the module by name: scale, zero_point (a parameter or a
    buffer), fake_quant_enabled, static_enabled, learning_enabled, eps (lines 102-127). *)
Definition names : list string := ["scale"; "zero_point"; "fake_quant_enabled"; "static_enabled"; "learning_enabled"; "eps"].
Definition children : list string := ["activation_post_process"].

Section Load.
(** The memory that resize_ gets holds anything. *)
Variable junk : Q.
(** Tensor.resize_: the elements there are, then whatever the memory holds. *)
Definition resize (t : tensor) (s : list nat) : tensor := {| shape := s; vals := firstn (numel s) (vals t ++ repeat junk (numel s)) |}.

Variables (sd : dict) (prefix : string) (strict : bool).
(** Lines 270-295 (not scripting): the tensors and the missing keys so far. *)
Definition own_step (t : string * tensor) : string * tensor :=
  let '(name, x) := t in
  if String.eqb name "scale" || String.eqb name "zero_point" then
    match get sd (prefix ++ name) with Some v => (name, resize x (shape v)) | None => (name, x) end
  else (name, x).
Definition own_missing : list string :=
  flat_map (fun name => match get sd (prefix ++ name)%string with Some _ => [] | None => if strict then [(prefix ++ name)%string] else [] end) ["scale"; "zero_point"].

(** torch: copy what has the right shape, note the others. *)
Definition copy_step (t : string * tensor) : string * tensor :=
  let '(name, x) := t in
  match get sd (prefix ++ name) with
  | Some v => if shape_eqb (shape v) (shape x) then (name, v) else (name, x)
  | None => (name, x)
  end.
Definition copy_errors (t : string * tensor) : list string :=
  let '(name, x) := t in
  match get sd (prefix ++ name) with Some v => if shape_eqb (shape v) (shape x) then [] else [(prefix ++ name)%string] | None => [] end.
Definition copy_missing (t : string * tensor) : list string :=
  let '(name, _) := t in
  match get sd (prefix ++ name) with Some _ => [] | None => if strict then [(prefix ++ name)%string] else [] end.
(** The first component of a name. *)
Fixpoint component (s : string) : string :=
  match s with EmptyString => EmptyString | String c r => if Ascii.eqb c "."%char then EmptyString else String c (component r) end.
Fixpoint drop (n : nat) (s : string) : string := match n, s with S n, String _ r => drop n r | _, _ => s end.
Definition unexpected (q : dict) : list string :=
  if strict then filter (fun k => String.prefix prefix k &&
      negb (existsb (String.eqb (component (drop (String.length prefix) k))) (children ++ map fst q))) (map fst sd) else [].

Record loaded : Type := { after : dict; missing_keys : list string; unexpected_keys : list string; error_msgs : list string }.
Definition load (q : dict) : loaded :=
  let q' := map own_step q in
  {| after := map copy_step q'; missing_keys := own_missing ++ flat_map copy_missing q'; unexpected_keys := unexpected q'; error_msgs := flat_map copy_errors q' |}.
End Load.
(** torch's state_dict of the module itself. *)
Definition state_dict (prefix : string) (q : dict) : dict := map (fun t : string * tensor => ((prefix ++ fst t)%string, snd t)) q.
