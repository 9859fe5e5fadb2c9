(** Model of mmrazor/models/task_modules/tracer/{backward_tracer,parsers,path}.py. *)
From Coq Require Export String.
From Verif Require Import Prelude.
Local Open Scope list_scope.

(** ** The autograd graph *)

(** A backward node, unfolded to a tree (the tracer follows every edge anew and remembers only
    module names).  Simplified: the parameter leaf of a layer (parsers.py:34-40, 81-87, 156-162)
    is resolved to the layer's name; [GNone] is an input that needs no gradient; [GOther []] is
    a parameter (AccumulateGrad). *)
Inductive gfn : Type :=
| GNone
| GConv (name : string) (in_channels groups : Z) (parent : gfn)
| GLinear (name : string) (parent : gfn)
| GNorm (name : string) (parent : gfn)
| GCat (id : string) (parents : list gfn)
| GOther (parents : list gfn).

(** path.py:28-83 and 283-299, [PathNode] and subclasses; a [Path] is a list of nodes, a
    [PathList] a list of paths. *)
Inductive pnode : Type :=
| PConv (name : string)
| PDepthWise (name : string)
| PLinear (name : string)
| PNorm (name : string)
| PConcat (id : string) (path_lists : list (list (list pnode))).
Definition path := list pnode.

(** parsers.py:42-45. *)
Definition conv_node (name : string) (in_channels groups : Z) : pnode :=
  if in_channels =? groups then PDepthWise name else PConv name.

Definition mem (n : string) (l : list string) : bool := existsb (String.eqb n) l.

Section Trace.
(** [_find_share_modules] (backward_tracer.py:157-167). *)
Context (shared : list string).

(** backward_tracer.py:43-69 with parsers.py: given the current path and the visited names,
    returns the current path afterwards, the recorded paths and the visited names.  [removelast]
    is [cur_path.pop(-1)]. *)
Fixpoint trace (g : gfn) (cur : path) (vis : list string) : path * list path * list string :=
  match g with
  | GNone => (cur, [cur], vis)
  | GConv n i gr p =>                                    (* parse_conv, parsers.py:16-57 *)
      let cur1 := cur ++ [conv_node n i gr] in
      if mem n vis && negb (mem n shared) then (removelast cur1, [cur1], vis)
      else let '(c, r, v) := trace p cur1 (n :: vis) in (removelast c, r, v)
  | GLinear n p =>                                       (* parse_linear, parsers.py:62-101: no pop *)
      let cur1 := cur ++ [PLinear n] in
      if mem n vis && negb (mem n shared) then (cur1, [cur1], vis)
      else trace p cur1 (n :: vis)
  | GNorm n p =>                                         (* parse_norm, parsers.py:140-169 *)
      let '(c, r, v) := trace p (cur ++ [PNorm n]) (n :: vis) in (removelast c, r, v)
  | GCat id ps =>                                        (* parse_cat, parsers.py:104-137 *)
      let '(subs, v) :=
        (fix go (ps : list gfn) (v : list string) : list (list path) * list string :=
           match ps with
           | [] => ([], v)
           | p :: r => let '(_, s, v1) := trace p [] v in
                       let '(ss, v2) := go r v1 in (s :: ss, v2)
           end) ps vis in
      let cur1 := cur ++ [PConcat id subs] in (removelast cur1, [cur1], v)
  | GOther ps =>                                         (* backward_tracer.py:57-66 *)
      (fix go (ps : list gfn) (cur : path) (v : list string) : path * list path * list string :=
         match ps with
         | [] => (cur, [], v)
         | p :: r => let '(c1, r1, v1) := trace p cur v in
                     let '(c2, r2, v2) := go r c1 v1 in (c2, r1 ++ r2, v2)
         end) ps cur vis
  end.
(** backward_tracer.py:177-201, [trace]. *)
Definition traced (g : gfn) : list path := snd (fst (trace g [] [])).
End Trace.

(** ** Parents of nodes *)

Definition pname (x : pnode) : string :=
  match x with PConv n | PDepthWise n | PLinear n | PNorm n => n | PConcat n _ => n end.
Inductive kind := KConv | KDepthWise | KLinear | KNorm | KConcat.
Definition pkind (x : pnode) : kind :=
  match x with PConv _ => KConv | PDepthWise _ => KDepthWise | PLinear _ => KLinear
             | PNorm _ => KNorm | PConcat _ _ => KConcat end.
Definition kind_eqb (a b : kind) : bool :=
  match a, b with
  | KConv, KConv | KDepthWise, KDepthWise | KLinear, KLinear | KNorm, KNorm | KConcat, KConcat => true
  | _, _ => false
  end.
(** path.py:51-58, [PathNode.__eq__] (no subclass of a concrete node class exists). *)
Definition pnode_eqb (a b : pnode) : bool := kind_eqb (pkind a) (pkind b) && String.eqb (pname a) (pname b).

Definition parents_of := list (string * list pnode).
Definition set_add (l : list pnode) (x : pnode) : list pnode := if existsb (pnode_eqb x) l then l else l ++ [x].
(** path.py:17-25, [_merge_node_parents] for one entry: on a known name the union as a set.
    Simplified: the order of a Python set is unspecified; here the order of first occurrence. *)
Fixpoint merge1 (m : parents_of) (n : string) (ps : list pnode) : parents_of :=
  match m with
  | [] => [(n, ps)]
  | (k, l) :: r => if String.eqb k n then (k, fold_left set_add (l ++ ps) []) :: r else (k, l) :: merge1 r n ps
  end.
Definition merge (m m' : parents_of) : parents_of := fold_left (fun m e => merge1 m (fst e) (snd e)) m' m.

Section Parents.
(** [isinstance(_, target_nodes)]; [non_pass] is None or a test. *)
Context (target : kind -> bool) (non_pass : option (kind -> bool)).
Definition stops (x : pnode) : bool := match non_pass with None => true | Some f => f (pkind x) end.
Definition first_behind (l : path) : list pnode :=
  match find stops l with Some x => [x] | None => [] end.
(** path.py:110-138 (Path), 221-236 (PathList), 311-326 (PathConcatNode). *)
Fixpoint node_parents (x : pnode) : parents_of :=
  match x with
  | PConcat _ pls =>
      fold_left (fun m pl => merge m
        (fold_left (fun m p => merge m
           ((fix nodes (l : path) (m : parents_of) : parents_of :=
               match l with
               | [] => m
               | y :: r =>
                   nodes r
                     (match y with
                      | PConcat _ _ => merge m (node_parents y)
                      | _ => if target (pkind y) then merge m [(pname y, first_behind r)] else m
                      end)
               end) p [])) pl [])) pls []
  | _ => []
  end.
Definition node_step (m : parents_of) (y : pnode) (r : path) : parents_of :=
  match y with
  | PConcat _ _ => merge m (node_parents y)
  | _ => if target (pkind y) then merge m [(pname y, first_behind r)] else m
  end.
Fixpoint path_parents (l : path) (m : parents_of) : parents_of :=
  match l with [] => m | y :: r => path_parents r (node_step m y r) end.
Definition list_parents (pl : list path) : parents_of :=
  fold_left (fun m p => merge m (path_parents p [])) pl [].
End Parents.
