(** The tracer of the channel analysis: models/task_modules/tracer/fx_tracer.py. *)
From Coq Require Import String Ascii.
From Verif Require Import Prelude.
Local Open Scope string_scope.
Local Open Scope list_scope.

(** ** What is wrapped *)
(** A value in a namespace: a function, a class, a module (torch or another), an instance of a class, or a static or class method. *)
Inductive val := VFun (id : nat) | VClass (c : nat) | VModule (id : nat) (torch : bool) | VOther (c : nat) | VStatic (id : nat).
Inductive owner := OFrame (n : nat) | OClass (c : nat).
(** The things visit_once of torch's patcher has seen. *)
Inductive tag := TFun (f : nat) | TClass (c : nat) | TModule (m : nat) | TFrame (n : nat) | TStatic (f : nat).
Definition tag_eqb (a b : tag) : bool :=
  match a, b with
  | TFun x, TFun y | TClass x, TClass y | TModule x, TModule y | TFrame x, TFrame y | TStatic x, TStatic y => Nat.eqb x y
  | _, _ => false
  end.
Record patcher := { visited : list tag; patches : list (owner * string * nat) }.
Definition seen (p : patcher) (t : tag) : bool := existsb (tag_eqb t) (visited p).
Definition visit (p : patcher) (t : tag) : patcher := {| visited := visited p ++ [t]; patches := patches p |}.
Definition patch (p : patcher) (o : owner) (k : string) (f : nat) : patcher := {| visited := visited p; patches := patches p ++ [(o, k, f)] |}.
(** Whether a class is one of modules, with its namespace; the namespace of torch. *)
Record env := { e_class : nat -> bool * list (string * val); e_torch : nat * list (string * val) }.
Definition dunder (k : string) : bool := match k with String "_"%char (String "_"%char _) => true | _ => false end.
Fixpoint each (f : string * val -> patcher -> option patcher) (l : list (string * val)) (p : patcher) : option patcher :=
  match l with [] => Some p | kv :: r => match f kv p with Some p => each f r p | None => None end end.
(** fx_tracer.py 62-138, wrap, wrap_frame, wrap_module, wrap_class, wrap_function and wrap_method (patching succeeds); the depth is bounded by [fuel]. *)
Fixpoint wrap (e : env) (fuel : nat) (o : owner) (k : string) (v : val) (p : patcher) : option patcher :=
  match fuel with
  | O => None
  | S fuel =>
    match v with
    | VClass c | VOther c =>
      if fst (e_class e c) then
        if seen p (TClass c) then Some p
        else each (fun kv p => if dunder (fst kv) then Some p else wrap e fuel (OClass c) (fst kv) (snd kv) p) (snd (e_class e c)) (visit p (TClass c))
      else Some p
    | VFun f => if seen p (TFun f) then Some p else Some (patch (visit p (TFun f)) o k f)
    | VStatic f => match o with OClass _ => if seen p (TStatic f) then Some p else Some (visit p (TStatic f)) | OFrame _ => Some p end
    | VModule m torch =>
      if seen p (TModule m) then Some p
      else let p := visit p (TModule m) in
           if torch then if seen p (TFrame (fst (e_torch e))) then Some p
                         else each (fun kv p => wrap e fuel (OFrame (fst (e_torch e))) (fst kv) (snd kv) p) (snd (e_torch e)) (visit p (TFrame (fst (e_torch e))))
           else Some p
    end
  end.
(** 44-52, _autowrap_check of the frame [n]. *)
Definition wrap_frame (e : env) (fuel : nat) (n : nat) (d : list (string * val)) (p : patcher) : option patcher :=
  if seen p (TFrame n) then Some p else each (fun kv p => wrap e fuel (OFrame n) (fst kv) (snd kv) p) d (visit p (TFrame n)).

(** ** What wrapped functions do *)
(** Arguments and results: concrete values, or proxies of nodes. *)
Inductive arg := Conc (z : Z) | Prox (node : nat).
Record fnode := { f_op : string; f_target : string; f_args : list arg }.
(** The graph so far, and the calls made. *)
Record tstate := { t_graph : list fnode; t_calls : list string }.
Definition comp := tstate -> tstate * outcome arg.
Definition find_proxy (l : list arg) : bool := existsb (fun a => match a with Prox _ => true | Conc _ => false end) l.
Definition emit (op target : string) (args : list arg) (s : tstate) : tstate * outcome arg :=
  ({| t_graph := t_graph s ++ [{| f_op := op; f_target := target; f_args := args |}]; t_calls := t_calls s |}, Ok (Prox (length (t_graph s)))).
Definition called (name : string) (f : list arg -> comp) (args : list arg) : comp := fun s => f args {| t_graph := t_graph s; t_calls := t_calls s ++ [name] |}.
(** 141-198, func_wapper and method_wrapper of a function [f] called [name]; [op] is call_function or call_method. *)
Definition wrapped (op name : string) (f : list arg -> comp) (args : list arg) : comp := fun s =>
  let r := called name f args s in
  match snd r with
  | Ok v => r
  | Raise _ => if find_proxy args then emit op name args (fst r) else called name f args (fst r)
  end.

(** ** Tracing *)
(** A module: its path below the root if it has one, whether it is a leaf, whether its forward is wrapped (its class defines it, or the class that does is in a namespace visited), and what forward does. *)
Inductive tmodule := TMod (path : option string) (leaf own : bool) (body : list instr)
with instr := IOp (name : string) | IFail | ICall (m : tmodule).
(** 317-325, call_module, of one tensor [x]; the class of a module that is called is wrapped before (271-285), and a failure of a wrapped forward is caught there, where the module is not an argument shown. *)
Fixpoint call_module (m : tmodule) (x : arg) (s : tstate) : tstate * outcome arg :=
  match m with
  | TMod path leaf own body =>
    let fix go (l : list instr) (x : arg) (s : tstate) : tstate * outcome arg :=
      match l with
      | [] => (s, Ok x)
      | IOp name :: r => let y := emit "call_function" name [x] s in match snd y with Ok v => go r v (fst y) | Raise e => y end
      | IFail :: _ => (s, Raise GenericException)
      | ICall c :: r => let y := call_module c x s in match snd y with Ok v => go r v (fst y) | Raise e => y end
      end in
    match path with
    | None => (s, Raise GenericException)
    | Some p =>
      if leaf then emit "call_module" p [x] s
      else let y := go body x s in
           match snd y with
           | Ok _ => y
           | Raise _ => if own then emit "call_method" "forward" [x] (fst y) else emit "call_module" p [x] (fst y)
           end
    end
  end.
Fixpoint run_body (l : list instr) (x : arg) (s : tstate) : tstate * outcome arg :=
  match l with
  | [] => (s, Ok x)
  | IOp name :: r => let y := emit "call_function" name [x] s in match snd y with Ok v => run_body r v (fst y) | Raise e => y end
  | IFail :: _ => (s, Raise GenericException)
  | ICall c :: r => let y := call_module c x s in match snd y with Ok v => run_body r v (fst y) | Raise e => y end
  end.
(** 211-315, trace: forward of the root was fetched before it was wrapped. *)
Definition trace (body : list instr) : outcome (list fnode) :=
  let y := run_body body (Prox 0) {| t_graph := [{| f_op := "placeholder"; f_target := "x"; f_args := [] |}]; t_calls := [] |} in
  match snd y with Ok v => Ok (t_graph (fst y) ++ [{| f_op := "output"; f_target := "output"; f_args := [v] |}]) | Raise e => Raise e end.
