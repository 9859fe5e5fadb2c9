(** Model of mmrazor/structures/graph/module_graph.py, of pseudo_fx_graph.py:86-104 and of
    [copy_from] and [add_or_find_node] of base_graph.py. *)
From Coq Require Import Ascii.
From Verif Require Import Prelude Graph_Model.
From Verif Require Tracer_Model Engine_Model.
Local Open Scope string_scope.
Local Open Scope list_scope.

(** The contents of a ModuleNode: the placeholder strings are the numbers 0-4, every other
    content (a module, a function, a method name, 'get_attr') some number from 5 on.  Strings are
    compared with [==] and modules by identity, so distinct numbers are distinct contents. *)
Definition v_cat : nat := 0.
Definition v_bind : nat := 1.
Definition v_pass : nat := 2.
Definition v_input : nat := 3.
Definition v_output : nat := 4.

(** base_graph.py:99-110; the node returned has the key asked for. *)
Definition add_or_find (k : key) : op unit := fun g =>
  match find_node g k with
  | Some _ => (g, Ok tt)
  | None => add_node k g
  end.

(** [lift x]: a pure computation that may raise. *)
Definition lift {A} (x : outcome A) : op A := fun g => (g, x).
Definition keys (g : graph) : list key := map (fun p => (fst p, n_val (snd p))) g.

(** ** Copying *)

(** base_graph.py:74-95; [f] is the node converter, which sees only the node itself.
    [old2new[old]] is recomputed as [f old] (the key of the new node); [old2new[pre]] raises
    KeyError when [pre] is not in the graph. *)
Definition copy_from (f : key -> outcome key) (old : graph) : op unit :=
  seq_op (for_each (keys old) (fun k => seq_op (lift (f k)) add_or_find)) (fun _ =>
    (fix go (l : graph) : op unit :=
       match l with
       | [] => ret tt
       | (nm, nd) :: r =>
           seq_op (for_each (n_prev nd) (fun pre =>
             if kmem pre (keys old) then
               seq_op (lift (f pre)) (fun p => seq_op (lift (f (nm, n_val nd))) (fun q => connect p q))
             else lift (Raise KeyError)))
           (fun _ => go r)
       end) old).

(** pseudo_fx_graph.py:86-104.  A torch graph is the list of its nodes (name and identity) with
    [all_input_nodes]. *)
Definition parse_torch_graph (t : list (key * list key)) : op unit :=
  seq_op (for_each (map fst t) add_or_find) (fun _ =>
    (fix go (l : list (key * list key)) : op unit :=
       match l with
       | [] => ret tt
       | (k, ins) :: r =>
           seq_op (for_each ins (fun p =>
             seq_op (add_or_find p) (fun _ => seq_op (add_or_find k) (fun _ => connect p k))))
           (fun _ => go r)
       end) t).

(** [FxNode.op] with the target of the node; [FOther] is any other string. *)
Inductive fxop : Type :=
| FFunction (target : nat) | FPlaceholder | FOutput | FMethod (target : nat) | FGetAttr
| FModule (module : nat) | FOther.
(** 'get_attr'. *)
Definition v_get_attr : nat := 5.
(** module_graph.py:482-500; [op_of] gives the op of an fx node. *)
Definition node_converter (op_of : nat -> fxop) (k : key) : outcome key :=
  match op_of (snd k) with
  | FFunction v => Ok (fst k, v)
  | FPlaceholder => Ok (fst k, v_input)
  | FOutput => Ok (fst k, v_output)
  | FMethod v => Ok (fst k, v)
  | FGetAttr => Ok (fst k, v_get_attr)
  | FModule v => Ok (fst k, v)
  | FOther => Raise NotImplementedError
  end.
(** module_graph.py:502-507. *)
Definition fx_to_graph (op_of : nat -> fxop) (base : graph) : graph * outcome unit :=
  copy_from (node_converter op_of) base empty_graph.

(** ** Checking *)

(** module_graph.py:25-47, 146-156: the outcome of [ModuleNode.check]. *)
Inductive verdict : Type := Fine | NoOutput | NoInput | Violation.
Definition none {A} (l : list A) : bool := match l with [] => true | _ => false end.
Definition check_node (nd : node) : verdict :=
  if Nat.eqb (n_val nd) v_input then
    if negb (none (n_prev nd)) then Violation else if none (n_next nd) then NoOutput else Fine
  else if Nat.eqb (n_val nd) v_output then
    if none (n_prev nd) then NoInput else if negb (none (n_next nd)) then Violation else Fine
  else
    if none (n_prev nd) then NoInput else if none (n_next nd) then NoOutput else Fine.

Definition auto_input : key := ("auto_input", v_input).
Definition auto_output : key := ("auto_output", v_output).
(** module_graph.py:237-242. *)
Definition add_input_before (k : key) : op unit :=
  seq_op (add_or_find auto_input) (fun _ => connect auto_input k).
(** module_graph.py:244-249. *)
Definition add_output_after (k : key) : op unit :=
  seq_op (add_or_find auto_output) (fun _ => connect k auto_output).

(** module_graph.py:215-235, [_check].  NoOutputError and NoInputError are GenericException.
    [fuel] is the recursion limit; the node is looked up by its key ([None] cannot happen for a
    node of the graph). *)
Fixpoint check_one (fuel : nat) (fix_ : bool) (k : key) : op unit := fun g =>
  match find_node g k with
  | None => (g, Raise KeyError)
  | Some nd =>
      match check_node nd with
      | Fine => (g, Ok tt)
      | Violation => (g, Raise AssertionError)
      | v =>
          if negb fix_ then (g, Raise GenericException)
          else
            match fuel with
            | O => (g, Raise RuntimeError)
            | S fuel =>
                seq_op (match v with NoOutput => add_output_after k | _ => add_input_before k end)
                       (fun _ => check_one fuel fix_ k) g
            end
      end
  end.
(** The key of the node stored under a name. *)
Definition key_at (g : graph) (nm : string) : key :=
  (nm, match get g nm with Some nd => n_val nd | None => 0%nat end).
(** module_graph.py:210-213; [None] of [topo_traverse] cannot happen (C13). *)
Definition check (fuel : nat) (fix_ : bool) : op unit := fun g =>
  match topo_traverse g with
  | (names, Some (Ok _)) => for_each (map (key_at g) names) (check_one fuel fix_) g
  | (_, Some (Raise e)) => (g, Raise e)
  | (_, None) => (g, Raise RuntimeError)
  end.

(** ** Inserting bind nodes *)

(** module_graph.py:291-297.  Both loops iterate over a list that their body does not change
    (the new node is not the node itself). *)
Definition insert_node_before (k new : key) : op unit := fun g =>
  match find_node g k with
  | None => (g, Raise AssertionError)
  | Some nd =>
      seq_op (for_each (n_prev nd) (fun pre => connect pre new)) (fun _ g1 =>
        match find_node g1 new with
        | None => (g1, Raise AssertionError)
        | Some nn => seq_op (for_each (n_prev nn) (fun pre => disconnect pre k))
                            (fun _ => connect new k) g1
        end) g
  end.
Definition numbered (prefix : string) (n : nat) : string := (prefix ++ Engine_Model.decimal n)%string.

Section Bind.
(** Whether a content is a Conv2d, a Linear or a _BatchNorm; whether it is a Module. *)
Context (narrow is_module : nat -> bool).
(** module_graph.py:304-309. *)
Definition needs_bind (g : graph) : list key :=
  map (fun p => (fst p, n_val (snd p)))
    (filter (fun p => narrow (n_val (snd p)) && Nat.ltb 1 (length (n_prev (snd p)))) g).
(** module_graph.py:310-312 with 266-287; [n] is [bind_placeholder_num].  Simplification: when a
    bind placeholder of that name exists already, the code goes on with a second node object;
    this does not happen for fresh names. *)
Fixpoint bind_all (l : list key) (n : nat) : op nat :=
  match l with
  | [] => ret n
  | k :: r =>
      let b := (numbered "bind_placeholder_" n, v_bind) in
      seq_op (add_or_find b) (fun _ => seq_op (insert_node_before k b) (fun _ => bind_all r (S n)))
  end.
(** module_graph.py:299-312. *)
Definition insert_bind_nodes (n : nat) : op nat := fun g => bind_all (needs_bind g) n g.

(** ** Renaming *)

(** module_graph.py:338-357 with 93-134: the old and the new key of each node, in the order of
    the traversal. *)
Fixpoint new_names (l : list key) (np nc nb : nat) : outcome (list (key * key)) :=
  match l with
  | [] => Ok []
  | k :: r =>
      if is_module (snd k) then do m <- new_names r np nc nb; Ok ((k, k) :: m)
      else if Nat.eqb (snd k) v_pass then
        do m <- new_names r (S np) nc nb; Ok ((k, (numbered "pass_" np, snd k)) :: m)
      else if Nat.eqb (snd k) v_cat then
        do m <- new_names r np (S nc) nb; Ok ((k, (numbered "cat_" nc, snd k)) :: m)
      else if Nat.eqb (snd k) v_bind then
        do m <- new_names r np nc (S nb); Ok ((k, (numbered "bind_" nb, snd k)) :: m)
      else Raise NotImplementedError
  end.
Fixpoint renamed (m : list (key * key)) (k : key) : key :=
  match m with
  | [] => k
  | (a, b) :: r => if keq a k then b else renamed r k
  end.
Definition rename_node (m : list (key * key)) (nd : node) : node :=
  {| n_val := n_val nd; n_prev := map (renamed m) (n_prev nd); n_next := map (renamed m) (n_next nd) |}.
(** [sorted_nodes[node.name] = node]. *)
Fixpoint put (g : graph) (nm : string) (nd : node) : graph :=
  match g with
  | [] => [(nm, nd)]
  | (nm', nd') :: r => if String.eqb nm' nm then (nm', nd) :: r else (nm', nd') :: put r nm nd
  end.
(** module_graph.py:336-360.  A node that is renamed stays in the lists of its neighbours. *)
Definition topo_rename (g : graph) : outcome graph :=
  match topo_traverse g with
  | (names, Some (Ok _)) =>
      do m <- new_names (map (key_at g) names) 0 0 0;
      Ok (fold_left (fun s nm =>
            match get g nm with
            | Some nd => put s (fst (renamed m (nm, n_val nd))) (rename_node m nd)
            | None => s
            end) names [])
  | (_, Some (Raise e)) => Raise e
  | (_, None) => Raise RuntimeError
  end.

(** ** From traced paths *)

(** [self.name2module]: the content of the module of a name. *)
Context (name2module : string -> option nat).
(** The graph, [cat_dict] and [cat_placeholder_num]. *)
Record st : Type := { s_graph : graph; s_cats : list (string * string); s_num : nat }.
Definition sop (A : Type) : Type := st -> st * outcome A.
Definition sseq {A B} (x : sop A) (f : A -> sop B) : sop B := fun s =>
  match x s with
  | (s', Ok a) => f a s'
  | (s', Raise e) => (s', Raise e)
  end.
Definition sret {A} (a : A) : sop A := fun s => (s, Ok a).
Definition on_graph {A} (x : op A) : sop A := fun s =>
  let '(g, r) := x (s_graph s) in ({| s_graph := g; s_cats := s_cats s; s_num := s_num s |}, r).

(** [sorted] of strings (insertion sort; equal strings are indistinguishable). *)
Fixpoint str_leb (a b : string) : bool :=
  match a, b with
  | EmptyString, _ => true
  | String _ _, EmptyString => false
  | String x a', String y b' =>
      if Ascii.eqb x y then str_leb a' b' else Nat.ltb (Ascii.nat_of_ascii x) (Ascii.nat_of_ascii y)
  end.
Fixpoint insert_str (x : string) (l : list string) : list string :=
  match l with
  | [] => [x]
  | y :: r => if str_leb x y then x :: y :: r else y :: insert_str x r
  end.
Definition sort_str (l : list string) : list string := fold_right insert_str [] l.
(** module_graph.py:432-435. *)
Definition unify_cat_name (name : string) : string :=
  ("cat_" ++ String.concat "_" (sort_str (tl (Engine_Model.split "_"%char name))))%string.
Fixpoint cat_get (d : list (string * string)) (k : string) : option string :=
  match d with
  | [] => None
  | (a, b) :: r => if String.eqb a k then Some b else cat_get r k
  end.
(** module_graph.py:425-446. *)
Definition find_cat (id : string) : sop key := fun s =>
  let name_id := unify_cat_name id in
  let '(name, s1) :=
    match cat_get (s_cats s) name_id with
    | Some n => (n, s)
    | None =>
        let n := numbered "cat_" (s_num s) in
        (n, {| s_graph := s_graph s; s_cats := s_cats s ++ [(name_id, n)]; s_num := S (s_num s) |})
    end in
  sseq (on_graph (add_or_find (name, v_cat))) (fun _ => sret (name, v_cat)) s1.
(** module_graph.py:456-459. *)
Definition find_module (name : string) : sop key :=
  match name2module name with
  | None => fun s => (s, Raise AssertionError)
  | Some v => sseq (on_graph (add_or_find (name, v))) (fun _ => sret (name, v))
  end.
(** module_graph.py:461-464. *)
Definition connect_nexts (k : key) (nexts : list key) : sop unit :=
  on_graph (for_each nexts (fun n => connect k n)).

(** module_graph.py:393-423: [parse_node x nexts] handles a node, the inner loops a Path, a
    PathList and the path lists of a concatenation. *)
Fixpoint parse_node (x : Tracer_Model.pnode) (nexts : list key) {struct x} : sop key :=
  match x with
  | Tracer_Model.PConcat id pls =>
      sseq (find_cat id) (fun k => sseq (connect_nexts k nexts) (fun _ =>
        sseq ((fix lists (pls : list (list (list Tracer_Model.pnode))) : sop unit :=
                 match pls with
                 | [] => sret tt
                 | pl :: r1 =>
                     sseq ((fix paths (pl : list (list Tracer_Model.pnode)) : sop unit :=
                              match pl with
                              | [] => sret tt
                              | p :: r2 =>
                                  sseq ((fix nodes (p : list Tracer_Model.pnode) (nexts : list key) : sop unit :=
                                           match p with
                                           | [] => sret tt
                                           | y :: r3 => sseq (parse_node y nexts) (fun c => nodes r3 [c])
                                           end) p [k])
                                       (fun _ => paths r2)
                              end) pl)
                          (fun _ => lists r1)
                 end) pls) (fun _ => sret k)))
  | Tracer_Model.PConv n | Tracer_Model.PDepthWise n | Tracer_Model.PLinear n | Tracer_Model.PNorm n =>
      sseq (find_module n) (fun k => sseq (connect_nexts k nexts) (fun _ => sret k))
  end.
Fixpoint parse_path (p : Tracer_Model.path) (nexts : list key) : sop unit :=
  match p with
  | [] => sret tt
  | y :: r => sseq (parse_node y nexts) (fun c => parse_path r [c])
  end.
Fixpoint parse_list (pl : list Tracer_Model.path) (nexts : list key) : sop unit :=
  match pl with
  | [] => sret tt
  | p :: r => sseq (parse_path p nexts) (fun _ => parse_list r nexts)
  end.
(** module_graph.py:371-391. *)
Definition path_to_graph (pl : list Tracer_Model.path) : outcome graph :=
  match parse_list pl [] {| s_graph := empty_graph; s_cats := []; s_num := 0 |} with
  | (s, Ok _) =>
      match insert_bind_nodes 0 (s_graph s) with
      | (g, Ok _) => topo_rename g
      | (_, Raise e) => Raise e
      end
  | (_, Raise e) => Raise e
  end.
End Bind.
