(** Model of mmrazor/models/mutators/group_mixin.py. *)
From Verif Require Import Prelude.

(** A module of [supernet.named_modules()] that is a supported mutable (one source: itself) or
    has [source_mutables]: its name and the supported mutables with their aliases.  Mutables
    are numbered; the prefix of a mutable is not modelled (the counter in a group name is
    already unique). *)
Record modl : Type := { md_name : string; md_srcs : list (nat * option string) }.

(** group_mixin.py:73-87: the last source of the module. *)
Definition name2mutable (ms : list modl) (n : string) : option nat :=
  match find (fun m => String.eqb (md_name m) n && negb (Nat.eqb (length (md_srcs m)) 0)) ms with
  | Some m => option_map fst (nth_error (md_srcs m) (length (md_srcs m) - 1))
  | None => None
  end.
(** group_mixin.py:89-111: the names recorded for an alias, and the aliases in order of
    first appearance. *)
Definition has_alias (a : string) (s : nat * option string) : bool :=
  match snd s with Some b => String.eqb a b | None => false end.
Definition alias_names (ms : list modl) (a : string) : list string :=
  flat_map (fun m => map (fun _ => md_name m) (filter (has_alias a) (md_srcs m))) ms.
Fixpoint dedup (seen l : list string) : list string :=
  match l with
  | [] => []
  | x :: r => if existsb (String.eqb x) seen then dedup seen r else x :: dedup (x :: seen) r
  end.
Definition alias_keys (ms : list modl) : list string :=
  dedup [] (flat_map (fun m => flat_map (fun s => match snd s with Some a => [a] | None => [] end) (md_srcs m)) ms).
Definition memb (x : string) (l : list string) : bool := existsb (String.eqb x) l.

(** group_mixin.py:226-261, [_check_valid_groups]. *)
Definition legal_key (ms : list modl) (k : string) : bool :=
  memb k (alias_keys ms) || match name2mutable ms k with Some _ => true | None => false end.
Definition check_valid (ms : list modl) (custom : list (list string)) : outcome unit :=
  let keys := concat custom in
  do _ <- assert_ (forallb (legal_key ms) keys);
  assert_ (forallb (fun k => negb (memb k (alias_keys ms)) ||
                             forallb (fun n => negb (memb n keys)) (alias_names ms k)) keys).

Definition lookup_name (ms : list modl) (n : string) : outcome nat :=
  match name2mutable ms n with Some i => Ok i | None => Raise KeyError end.
(** group_mixin.py:149-160: module names an item stands for. *)
Definition resolve (ms : list modl) (item : string) : list string :=
  if memb item (alias_keys ms) then alias_names ms item else [item].
(** group_mixin.py:147-166; [prev] is the value that the variable [item] keeps from the
    previous group. Result: groups, grouped names. *)
Fixpoint custom_phase (ms : list modl) (prev : option string) (custom : list (list string))
  : outcome (list (list nat) * list string) :=
  match custom with
  | [] => Ok ([], [])
  | g :: r =>
      do ids <- mapM (lookup_name ms) (flat_map (resolve ms) g);
      let item := match rev g with x :: _ => Some x | [] => prev end in
      do _ <- match item with None => Raise GenericException | Some x => lookup_name ms x end;   (* line 163 *)
      do rest <- custom_phase ms item r;
      Ok (ids :: fst rest, flat_map (resolve ms) g ++ snd rest)
  end.
(** group_mixin.py:173-187: the names of one alias that are not yet grouped. *)
Fixpoint take_ungrouped (grouped names : list string) : list string :=
  match names with
  | [] => []
  | n :: r => if memb n grouped then take_ungrouped grouped r else n :: take_ungrouped (grouped ++ [n]) r
  end.
(** group_mixin.py:169-187. *)
Fixpoint alias_phase (ms : list modl) (grouped_alias keys grouped : list string)
  : outcome (list (list nat) * list string) :=
  match keys with
  | [] => Ok ([], grouped)
  | a :: r =>
      if memb a grouped_alias then alias_phase ms grouped_alias r grouped else
      match take_ungrouped grouped (alias_names ms a) with
      | [] => alias_phase ms grouped_alias r grouped
      | new =>
          do ids <- mapM (lookup_name ms) new;
          do rest <- alias_phase ms grouped_alias r (grouped ++ new);
          Ok (ids :: fst rest, snd rest)
      end
  end.
(** group_mixin.py:190-208. *)
Definition single_phase (ms : list modl) (grouped : list string) : list (list nat) :=
  flat_map (fun m => if memb (md_name m) grouped then [] else map (fun s => [fst s]) (md_srcs m)) ms.
Fixpoint nodupb (l : list string) : bool :=
  match l with [] => true | x :: r => negb (memb x r) && nodupb r end.
(** group_mixin.py:113-224, [build_search_groups]: the list of groups in order. *)
Definition build_search_groups (ms : list modl) (custom : list (list string)) : outcome (list (list nat)) :=
  do _ <- match custom with [] => Ok tt | _ => check_valid ms custom end;
  do c <- custom_phase ms None custom;
  let grouped_alias := filter (fun k => memb k (alias_keys ms)) (concat custom) in
  do a <- alias_phase ms grouped_alias (alias_keys ms) (snd c);
  do _ <- assert_ (nodupb (snd a));
  Ok (fst c ++ fst a ++ single_phase ms (snd a)).
