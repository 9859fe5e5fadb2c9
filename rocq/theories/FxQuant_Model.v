(** Model of models/task_modules/tracer/fx/graph_utils.py: deleting fake quantizers from a prepared
    [GraphModule]. [inplace=False] only copies the model first. *)
From Coq Require Import String.
From Verif Require Import Prelude Onnx_Model Engine_Model.
Local Open Scope string_scope.
Local Open Scope list_scope.
Local Open Scope nat_scope.

(** An argument of a [torch.fx.Node]: a node, a constant, a list or tuple of nodes. Deeper nesting
    and slices are left out. *)
Inductive farg : Type := ANode (n : nat) | AConst (c : nat) | AList (l : list nat).
(** A node is known by a number. Of kwargs the values matter, in order, with their names. *)
Record fnode : Type := { f_id : nat; f_op : string; f_target : string; f_args : list farg; f_kwargs : list (string * farg) }.
(** Arguments, then the values of the keyword arguments. *)
Definition all_args (n : fnode) : list farg := f_args n ++ map snd (f_kwargs n).
Definition find_node (nodes : list fnode) (i : nat) : option fnode := find (fun n => Nat.eqb (f_id n) i) nodes.

Section Fx.
(** Modules, and whether they are instances of [FakeQuantizeBase]. *)
Variable M : Type.
Variable is_fq : M -> bool.

(** graph_utils.py:16-31, [_get_attrs]: the modules are listed under their dotted names. *)
Definition module_of (mods : list (string * M)) (n : fnode) : option M := if String.eqb (f_op n) "call_module" then get mods (f_target n) else None.
Definition fake_quant (mods : list (string * M)) (n : fnode) : bool := match module_of mods n with Some x => is_fq x | None => false end.

(** graph_utils.py:34-74, [recursive_find_erased_nodes]. Python recursion ends since arguments are
    nodes listed before; [fuel] is the number of nodes. *)
Fixpoint recursive_find (fuel : nat) (nodes : list fnode) (mods : list (string * M)) (i : nat) : list nat :=
  match fuel with
  | O => []
  | S k => match find_node nodes i with
           | None => []
           | Some n => if fake_quant mods n then [i]
                       else flat_map (fun a => match a with ANode j => recursive_find k nodes mods j | _ => [] end) (all_args n)
           end
  end.

(** [torch.fx.Node.replace_all_uses_with] for a node as replacement. *)
Definition replace_arg (i j : nat) (a : farg) : farg :=
  match a with
  | ANode k => ANode (if Nat.eqb k i then j else k)
  | AConst c => AConst c
  | AList l => AList (map (fun k => if Nat.eqb k i then j else k) l)
  end.
Definition replace_uses (i j : nat) (n : fnode) : fnode :=
  {| f_id := f_id n; f_op := f_op n; f_target := f_target n; f_args := map (replace_arg i j) (f_args n); f_kwargs := map (fun kv => (fst kv, replace_arg i j (snd kv))) (f_kwargs n) |}.
(** [torch.nn.Module.__delattr__]: only direct children. *)
Definition delattr (mods : list (string * M)) (target : string) : outcome (list (string * M)) :=
  if contains "." target then Raise AttributeError
  else if has mods target then Ok (filter (fun kv => negb (String.eqb (fst kv) target)) mods) else Raise AttributeError.
(** The state: nodes of [new_graph] and modules of [prepared_model]. *)
Definition fstate : Type := (list fnode * list (string * M))%type.
(** graph_utils.py:105-107: an input that is no node has no place in the graph and is left out. *)
Definition erase (s : fstate) (n : fnode) : outcome fstate :=
  match f_args n with
  | ANode j :: _ => do mods <- delattr (snd s) (f_target n);
                    Ok (map (replace_uses (f_id n) j) (filter (fun x => negb (Nat.eqb (f_id x) (f_id n))) (fst s)), mods)
  | [] => Raise IndexError
  | _ => Raise AttributeError
  end.
(** graph_utils.py:101-107: a node that is erased already has lost its module. *)
Fixpoint erase_all (l : list nat) (s : fstate) : outcome fstate :=
  match l with
  | [] => Ok s
  | i :: r => match find_node (fst s) i with
              | None => Raise AssertionError
              | Some n => do _ <- assert_ (fake_quant (snd s) n && Nat.eqb (length (f_args n)) 1); do s' <- erase s n; erase_all r s'
              end
  end.
(** [torch.fx.Graph.lint]: arguments are nodes listed before. *)
Definition arg_nodes (a : farg) : list nat := match a with ANode k => [k] | AConst _ => [] | AList l => l end.
Definition uses_of (n : fnode) : list nat := flat_map arg_nodes (all_args n).
Fixpoint lint (seen : list nat) (nodes : list fnode) : bool :=
  match nodes with [] => true | n :: r => forallb (fun k => existsb (Nat.eqb k) seen) (uses_of n) && lint (f_id n :: seen) r end.
Definition finish (s : fstate) : outcome fstate := if lint [] (fst s) then Ok s else Raise RuntimeError.

(** Iterating over [new_graph.nodes] skips nodes that are erased meanwhile. *)
Fixpoint before_loop (select : fnode -> bool) (ids : list nat) (s : fstate) : outcome fstate :=
  match ids with
  | [] => Ok s
  | i :: r => match find_node (fst s) i with
              | None => before_loop select r s
              | Some n => if select n then do s' <- erase_all (recursive_find (S (length (fst s))) (fst s) (snd s) i) s; before_loop select r s'
                          else before_loop select r s
              end
  end.
Definition del_before (select : fnode -> bool) (s : fstate) : outcome fstate := do s' <- before_loop select (map f_id (fst s)) s; finish s'.
(** graph_utils.py:77-111 *)
Definition del_fakequant_before_op (target_ops : list string) : fstate -> outcome fstate := del_before (fun n => mem (f_op n) target_ops).
(** graph_utils.py:155-189 *)
Definition del_fakequant_before_method (patterns : list string) : fstate -> outcome fstate := del_before (fun n => String.eqb (f_op n) "call_method" && mem (f_target n) patterns).
(** graph_utils.py:234-268; functions are known by their names. *)
Definition del_fakequant_before_function (patterns : list string) : fstate -> outcome fstate := del_before (fun n => String.eqb (f_op n) "call_function" && mem (f_target n) patterns).

Fixpoint after_loop (targets : list nat) (ids : list nat) (s : fstate) : outcome fstate :=
  match ids with
  | [] => Ok s
  | i :: r => match find_node (fst s) i with
              | None => after_loop targets r s
              | Some n => if fake_quant (snd s) n then
                            do _ <- assert_ (Nat.eqb (length (f_args n)) 1);
                            (if match f_args n with ANode j :: _ => existsb (Nat.eqb j) targets | _ => false end
                             then do s' <- erase s n; after_loop targets r s' else after_loop targets r s)
                          else after_loop targets r s
              end
  end.
Definition del_after (select : list (string * M) -> fnode -> bool) (s : fstate) : outcome fstate :=
  do s' <- after_loop (map f_id (filter (select (snd s)) (fst s))) (map f_id (fst s)) s; finish s'.
(** graph_utils.py:114-152, 192-231, 271-310 and 349-387 *)
Definition del_fakequant_after_op (target_ops : list string) : fstate -> outcome fstate := del_after (fun _ n => mem (f_op n) target_ops).
Definition del_fakequant_after_method (patterns : list string) : fstate -> outcome fstate := del_after (fun _ n => String.eqb (f_op n) "call_method" && mem (f_target n) patterns).
Definition del_fakequant_after_function (patterns : list string) : fstate -> outcome fstate := del_after (fun _ n => String.eqb (f_op n) "call_function" && mem (f_target n) patterns).
(** [isinstance(module, module_patterns)] *)
Variable in_patterns : M -> bool.
Definition pattern_module (mods : list (string * M)) (n : fnode) : bool := match module_of mods n with Some x => in_patterns x | None => false end.
Definition del_fakequant_after_module : fstate -> outcome fstate := del_after pattern_module.
(** graph_utils.py:313-346 *)
Fixpoint before_module_loop (ids : list nat) (s : fstate) : outcome fstate :=
  match ids with
  | [] => Ok s
  | i :: r => match find_node (fst s) i with
              | None => before_module_loop r s
              | Some n => if pattern_module (snd s) n then
                            match f_args n with
                            | [] => Raise IndexError
                            | ANode j :: _ => match find_node (fst s) j with
                                              | None => before_module_loop r s
                                              | Some p => if fake_quant (snd s) p then do s' <- erase s p; before_module_loop r s' else before_module_loop r s
                                              end
                            | _ => Raise AttributeError
                            end
                          else before_module_loop r s
              end
  end.
Definition del_fakequant_before_module (s : fstate) : outcome fstate := do s' <- before_module_loop (map f_id (fst s)) s; finish s'.
End Fx.

(** quantizers/native_quantizer.py:330-398, [TorchNativeQuantizer.del_redundant_fakequant]: the eight
    passes, with the patterns of the quantizer and the extra ones joined. *)
Definition del_redundant_fakequant {M : Type} (is_fq module_prev module_next : M -> bool) (function_prev function_next method_prev method_next op_prev op_next : list string)
    (s : fstate M) : outcome (fstate M) :=
  do s1 <- del_fakequant_before_module M is_fq module_prev s;
  do s2 <- del_fakequant_after_module M is_fq module_next s1;
  do s3 <- del_fakequant_before_function M is_fq function_prev s2;
  do s4 <- del_fakequant_after_function M is_fq function_next s3;
  do s5 <- del_fakequant_before_method M is_fq method_prev s4;
  do s6 <- del_fakequant_after_method M is_fq method_next s5;
  do s7 <- del_fakequant_before_op M is_fq op_prev s6;
  del_fakequant_after_op M is_fq op_next s7.
