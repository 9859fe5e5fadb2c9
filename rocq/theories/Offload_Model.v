(** Model of mmrazor/implementations/pruning/sparse_gpt/utils.py: forward passes that keep a block at a time on the device, replacing modules by dynamic
    ones, and the default dtype. *)
From Coq Require Import String.
From Verif Require Import Prelude Onnx_Model.
Local Open Scope string_scope.
Local Open Scope list_scope.
Local Open Scope nat_scope.

(** A module: its identity, its type, the parameters and buffers it holds itself, and its children by name.  A module met twice is the same object. *)
Inductive module := Mod (id ty : nat) (own : list nat) (cs : list (string * module)).
Definition id_of (m : module) : nat := match m with Mod i _ _ _ => i end.
Definition type_of (m : module) : nat := match m with Mod _ t _ _ => t end.
Definition own_of (m : module) : list nat := match m with Mod _ _ p _ => p end.
Definition children (m : module) : list (string * module) := match m with Mod _ _ _ cs => cs end.
Definition isin (x : nat) (l : list nat) : bool := existsb (Nat.eqb x) l.
(** All parameters and buffers of a module and what is below it. *)
Fixpoint params (m : module) : list nat :=
  match m with Mod _ _ own cs => own ++ (fix go (l : list (string * module)) := match l with [] => [] | c :: r => params (snd c) ++ go r end) cs end.

(** ** Blocks *)
(** utils.py 76-93, enable_efficient_forward: the modules hooked, with their names.  named_children yields a module once. *)
Fixpoint blocks (wrap : list nat) (m : module) : list (string * module) :=
  match m with
  | Mod _ _ _ cs =>
    (fix go (seen : list nat) (l : list (string * module)) : list (string * module) :=
       match l with
       | [] => []
       | c :: r => if isin (id_of (snd c)) seen then go seen r
                   else (if isin (type_of (snd c)) wrap || negb (length (own_of (snd c)) =? 0) then [c] else blocks wrap (snd c)) ++ go (id_of (snd c) :: seen) r
       end) [] cs
  end.
(** What a forward pass does: calls a module, whose forward does something in turn, or reads a parameter. *)
Inductive step := Call (m : module) (body : list step) | Use (p : nat).
(** utils.py 60-73, register_efficient_forward_hook: module.to(device) before the forward of a hooked module and module.to('cpu') after it.  The parameters on
    the device are a list; reading one that is not there fails.  All states in between are returned. *)
Definition to_device (m : module) (on : list nat) : list nat := params m ++ on.
Definition to_cpu (m : module) (on : list nat) : list nat := filter (fun p => negb (isin p (params m))) on.
Fixpoint exec (hooked : nat -> bool) (s : step) (on : list nat) : outcome (list nat * list (list nat)) :=
  match s with
  | Use p => if isin p on then Ok (on, [on]) else Raise RuntimeError
  | Call m body =>
    let on1 := if hooked (id_of m) then to_device m on else on in
    do (on2, states) <- (fix go (l : list step) (on : list nat) : outcome (list nat * list (list nat)) :=
       match l with [] => Ok (on, []) | s :: r => do (on1, a) <- exec hooked s on; do (on2, b) <- go r on1; Ok (on2, a ++ b) end) body on1;
    let on3 := if hooked (id_of m) then to_cpu m on2 else on2 in
    Ok (on3, on1 :: states ++ [on3])
  end.

(** utils.py 95-123, memory_efficient_forward.  Hooks that are registered, by their handle and module; the object keeps the handles of its last entry. *)
Record world := { w_next : nat; w_hooks : list (nat * nat) }.
Definition register (bs : list (string * module)) (w : world) : world * list nat :=
  let hs := seq (w_next w) (length bs) in
  ({| w_next := w_next w + length bs; w_hooks := w_hooks w ++ combine hs (map (fun b => id_of (snd b)) bs) |}, hs).
Definition enter (enabled : bool) (wrap : list nat) (m : module) (handlers : list nat) (w : world) : world * list nat :=
  if enabled then register (blocks wrap m) w else (w, handlers).
Definition exit_ (handlers : list nat) (w : world) : world :=
  {| w_next := w_next w; w_hooks := filter (fun h => negb (isin (fst h) handlers)) (w_hooks w) |}.
Definition is_hooked (w : world) (i : nat) : bool := existsb (fun h => Nat.eqb (snd h) i) (w_hooks w).
(** The device when the object is built: 109-110, model.to(device) if it is not enabled. *)
Definition built (enabled : bool) (m : module) (on : list nat) : list nat := if enabled then on else to_device m on.

(** ** Dynamic modules *)
(** utils.py 42-57, replace_with_dynamic_ops: named_modules visits every module once, in order; one with a type in the map is replaced where it was found: in
    its parent, under its name.  The root is its own parent then, under the empty name.  Modules of the types in the map have no children.  Returns the
    modules seen and the places of the new modules with the modules that were there. *)
Fixpoint walk (types : list nat) (parent : nat) (name : string) (m : module) (seen : list nat) : list nat * list (nat * string * nat) :=
  match m with
  | Mod i t _ cs =>
    if isin i seen then (seen, []) else
    let here := if isin t types then [(parent, name, i)] else [] in
    let '(seen', r) := (fix go (l : list (string * module)) (seen : list nat) : list nat * list (nat * string * nat) :=
        match l with [] => (seen, []) | c :: l => let '(s1, a) := walk types i (fst c) (snd c) seen in let '(s2, b) := go l s1 in (s2, a ++ b) end) cs (i :: seen) in
    (seen', here ++ r)
  end.
Definition replace_ops (types : list nat) (m : module) : list (nat * string * nat) := snd (walk types (id_of m) "" m []).

(** ** The default dtype *)
(** utils.py 126-140, torch_setting: what the default was is read when the object is built. *)
Definition dtype := nat.
Record setting := { st_original : dtype; st_dtype : option dtype }.
Definition new_setting (d : option dtype) (current : dtype) : setting := {| st_original := current; st_dtype := d |}.
Definition enter_setting (s : setting) (current : dtype) : dtype := match st_dtype s with Some d => d | None => current end.
Definition exit_setting (s : setting) : dtype := st_original s.
(** Programs: setting the default, a with statement, or raising; the default afterwards, whether it raised, and the defaults seen on entering. *)
Inductive prog := PSet (d : dtype) | PWith (d : option dtype) (body : list prog) | PRaise.
Fixpoint run_prog (p : prog) (current : dtype) : dtype * bool * list dtype :=
  match p with
  | PSet d => (d, false, [])
  | PRaise => (current, true, [])
  | PWith d body =>
    let s := new_setting d current in
    let inside := enter_setting s current in
    let '(_, raised, seen) := (fix go (l : list prog) (c : dtype) : dtype * bool * list dtype :=
       match l with [] => (c, false, []) | p :: r => let '(c1, x, a) := run_prog p c in if x then (c1, true, a) else let '(c2, y, b) := go r c1 in (c2, y, a ++ b) end) body inside in
    (exit_setting s, raised, inside :: seen)
  end.
