(** The tracer of the quantizers: models/task_modules/tracer/fx/custom_tracer.py (the registry of skipped methods, the modules put into a
    GraphModule) and models/utils/quantization_util.py (classes named by strings).  What torch.fx records while it traces is left out. *)
From Coq Require Import String Ascii DecimalString.
From Verif Require Import Prelude Onnx_Model Engine_Model.
Local Open Scope string_scope.
Local Open Scope list_scope.
Local Open Scope nat_scope.

(** ** Names *)
Section Names.
Context {C : Type}.
(** What import_modules_from_strings(module) followed by getattr(module, name) gives.  An ImportError is [GenericException]. *)
Inductive found : Type := NoModule | NoAttr | NotType | IsClass (c : C).
Variable find_class : string -> string -> found.
Definition import_class (module name : string) : outcome C :=
  match find_class module name with NoModule => Raise GenericException | NoAttr => Raise AttributeError | NotType => Raise TypeError | IsClass c => Ok c end.
(** quantization_util.py 31-60, _check_valid_source and str2class for one string, given as a str. *)
Definition str2class (s : string) : outcome C :=
  let parts := split "."%char s in
  do _ <- assert_ (1 <? length parts);
  import_class (String.concat "." (removelast parts)) (last parts "").
Definition str2classes (l : list string) : outcome (list C) := mapM str2class l.

(** ** The registry of skipped methods *)
Variable has_method : C -> string -> bool.
(** UntracedMethodRegistry (36-76): method_dict, with the class of each method, and the tracer, known by a number. *)
Record registry : Type := { g_methods : list (string * C); g_tracer : option nat }.
Definition empty_registry : registry := {| g_methods := []; g_tracer := None |}.
(** register_skipped_methods (244-270) for one string; import_modules_from_strings('') is None, whose attributes are left out. *)
Definition find_method (s : string) : outcome (string * C) :=
  let parts := split "."%char s in
  do _ <- assert_ (1 <? length parts);
  let module := removelast (removelast parts) in
  let name := last (removelast parts) "" in
  let method := last parts "" in
  do c <- (match module with [] => Raise AttributeError | _ => import_class (String.concat "." module) name end);
  do _ <- assert_ (has_method c method);
  Ok (method, c).
Fixpoint register (l : list string) (d : list (string * C)) : outcome unit * list (string * C) :=
  match l with
  | [] => (Ok tt, d)
  | s :: r => match find_method s with Raise e => (Raise e, d) | Ok mc => register r (put d (fst mc) (snd mc)) end
  end.
(** __init__ (219-231) of tracer [k]. *)
Definition new_tracer (k : nat) (skipped : list string) (g : registry) : outcome unit * registry :=
  let r := register skipped (g_methods g) in (fst r, {| g_methods := snd r; g_tracer := Some k |}).
(** Tracers constructed one after another. *)
Definition run_tracers (l : list (nat * list string)) (g : registry) : registry := fold_left (fun g t => snd (new_tracer (fst t) (snd t) g)) l g.
(** The methods that trace patches (394-397). *)
Definition patched (g : registry) : list (string * C) := g_methods g.
(** The tracer whose graph a call of a patched method is put in (65-76, 304-308). *)
Definition records_in (g : registry) : option nat := g_tracer g.
End Names.
Arguments found : clear implicits.
Arguments registry : clear implicits.

(** ** The modules of a GraphModule *)
(** A node: its number, op, target, and the nodes among its args and kwargs. *)
Record node : Type := { n_id : nat; n_op : string; n_target : string; n_args : list nat; n_kwargs : list nat }.
(** An attribute reached by a path of names: a module, with the names of its attributes, or something else. *)
Inductive obj : Type := OModule (attributes : list string) | OOther.
Section Prepare.
Variable attr : list string -> option obj.
(** _prepare_module_dict (79-152): for each target the names set on its new module; [special] are the numbers and targets of the nodes. *)
Definition get_attrs (target : string) : outcome obj := match attr (split "."%char target) with Some o => Ok o | None => Raise AttributeError end.
Definition uses (n : node) (i : nat) : bool := existsb (Nat.eqb i) (n_args n) || existsb (Nat.eqb i) (n_kwargs n).
Definition add_name (l : list string) (x : string) : list string := if mem x l then l else l ++ [x].
Fixpoint add_methods (n : node) (special : list (nat * string)) (d : list (string * list string)) : outcome (list (string * list string)) :=
  match special with
  | [] => Ok d
  | (i, t) :: r =>
      if uses n i then
        match attr [t] with
        | Some (OModule names) =>
            if mem (n_target n) names then
              match get d t with Some l => add_methods n r (put d t (add_name l (n_target n))) | None => Raise KeyError end
            else Raise AttributeError
        | _ => Raise AttributeError
        end
      else add_methods n r d
  end.
Fixpoint prepare_loop (nodes : list node) (special : list (nat * string)) (d : list (string * list string)) : outcome (list (string * list string)) :=
  match nodes with
  | [] => Ok d
  | n :: r =>
      if String.eqb (n_op n) "get_attr" then
        do o <- get_attrs (n_target n);
        match o with
        | OModule _ => prepare_loop r (special ++ [(n_id n, n_target n)]) (put d (n_target n) [])
        | OOther => prepare_loop r special d
        end
      else if String.eqb (n_op n) "call_method" then do d' <- add_methods n special d; prepare_loop r special d'
      else prepare_loop r special d
  end.
Definition prepare_module_dict (nodes : list node) : outcome (list (string * list string)) := prepare_loop nodes [] [].
End Prepare.

(** ** Reused modules *)
Section Duplicate.
Context {M : Type}.
Variable copy : M -> M.
(** str of a natural number. *)
Definition str (k : nat) : string := NilZero.string_of_uint (Nat.to_uint k).
Definition call_module (n : node) : bool := String.eqb (n_op n) "call_module".
(** target_dict (164-169): the targets in the order of their first uses, each with the positions of its nodes. *)
Fixpoint target_dict (nodes : list node) (i : nat) (d : list (string * list nat)) : list (string * list nat) :=
  match nodes with
  | [] => d
  | n :: r => target_dict r (S i) (if call_module n then match get d (n_target n) with Some l => put d (n_target n) (l ++ [i]) | None => put d (n_target n) [i] end else d)
  end.
Definition retarget (t : string) (n : node) : node := {| n_id := n_id n; n_op := n_op n; n_target := t; n_args := n_args n; n_kwargs := n_kwargs n |}.
Fixpoint set_nth {A} (i : nat) (f : A -> A) (l : list A) : list A :=
  match l, i with [], _ => [] | x :: r, O => f x :: r | x :: r, S i => x :: set_nth i f r end.
(** 170-178 for one target [t]: the nodes at [ps], the first of which has index [k]. *)
Fixpoint dup_nodes (modules : list (string * M)) (t : string) (k : nat) (ps : list nat) (s : list node * list (string * M)) : outcome (list node * list (string * M)) :=
  match ps with
  | [] => Ok s
  | p :: r =>
      match get modules t with
      | None => Raise KeyError
      | Some m => let t' := (t ++ "_dup" ++ str k)%string in dup_nodes modules t (S k) r (set_nth p (retarget t') (fst s), put (snd s) t' (copy m))
      end
  end.
Fixpoint dup_all (modules : list (string * M)) (d : list (string * list nat)) (s : list node * list (string * M)) : outcome (list node * list (string * M)) :=
  match d with
  | [] => Ok s
  | (t, ps) :: r => do s' <- dup_nodes modules t 1 (tl ps) s; dup_all modules r s'
  end.
(** duplicate_reused_nodes (155-180). *)
Definition duplicate_reused_nodes (nodes : list node) (modules : list (string * M)) : outcome (list node * list (string * M)) :=
  dup_all modules (target_dict nodes 0 []) (nodes, []).
(** build_graphmodule (183-212) without get_attr nodes: the nodes and the modules they call. *)
Definition update (d e : list (string * M)) : list (string * M) := fold_left (fun d kv => put d (fst kv) (snd kv)) e d.
Definition build_graphmodule (nodes : list node) (modules : list (string * M)) : outcome (list node * list (string * M)) :=
  do s <- duplicate_reused_nodes nodes modules; Ok (fst s, update modules (snd s)).
End Duplicate.
