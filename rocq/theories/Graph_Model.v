(** Model of mmrazor/structures/graph/base_graph.py. *)
From Verif Require Import Prelude.

(** A node is identified by its name and its content (base_graph.py:52-54); contents are
    opaque, compared by identity, and represented by numbers.  Simplification: [==] on
    contents (line 114) and [is] (line 54) coincide. *)
Definition key : Type := (string * nat)%type.
Definition keq : forall a b : key, {a = b} + {a <> b}.
Proof. decide equality; [apply Nat.eq_dec | apply string_dec]. Defined.
Definition kmem (k : key) (l : list key) : bool := if in_dec keq k l then true else false.

(** base_graph.py:14-23. *)
Record node : Type := { n_val : nat; n_prev : list key; n_next : list key }.
Definition new_node (v : nat) : node := {| n_val := v; n_prev := []; n_next := [] |}.

(** base_graph.py:68-70: [self.nodes], an ordered dictionary.  References to node objects
    held in prev/next lists are represented by their keys; every use of such a reference
    in the modelled functions goes through [find_node]. *)
Definition graph : Type := list (string * node).
Definition empty_graph : graph := [].

Fixpoint get (g : graph) (nm : string) : option node :=
  match g with
  | [] => None
  | (nm', nd) :: r => if String.eqb nm' nm then Some nd else get r nm
  end.
Fixpoint upd (g : graph) (nm : string) (f : node -> node) : graph :=
  match g with
  | [] => []
  | (nm', nd) :: r => if String.eqb nm' nm then (nm', f nd) :: r else (nm', nd) :: upd r nm f
  end.

(** base_graph.py:112-117. *)
Definition find_node (g : graph) (k : key) : option node :=
  match get g (fst k) with
  | Some nd => if Nat.eqb (n_val nd) (snd k) then Some nd else None
  | None => None
  end.

(** A call that may mutate the graph and may raise. *)
Definition op (A : Type) : Type := graph -> graph * outcome A.
Definition seq_op {A B} (x : op A) (f : A -> op B) : op B := fun g =>
  match x g with
  | (g', Ok a) => f a g'
  | (g', Raise e) => (g', Raise e)
  end.
Definition ret {A} (a : A) : op A := fun g => (g, Ok a).

(** base_graph.py:119-124. *)
Definition add_node (k : key) : op unit := fun g =>
  match get g (fst k) with
  | None => (g ++ [(fst k, new_node (snd k))], Ok tt)
  | Some _ => (g, Raise GenericException)
  end.

(** [if x not in l: l.append(x)]. *)
Definition push (x : key) (l : list key) : list key := if kmem x l then l else l ++ [x].
(** [if x in l: l.remove(x)]: removes the first occurrence. *)
Fixpoint remove1 (x : key) (l : list key) : list key :=
  match l with
  | [] => []
  | y :: r => if keq y x then r else y :: remove1 x r
  end.
Definition map_next (f : list key -> list key) (nd : node) : node :=
  {| n_val := n_val nd; n_prev := n_prev nd; n_next := f (n_next nd) |}.
Definition map_prev (f : list key -> list key) (nd : node) : node :=
  {| n_val := n_val nd; n_prev := f (n_prev nd); n_next := n_next nd |}.

(** base_graph.py:34-39, [self.add_next_node(node)]. *)
Definition add_next_node (self nd : key) (g : graph) : graph :=
  upd (upd g (fst self) (map_next (push nd))) (fst nd) (map_prev (push self)).
(** base_graph.py:27-32, [self.add_prev_node(node)]. *)
Definition add_prev_node (self nd : key) (g : graph) : graph :=
  upd (upd g (fst self) (map_prev (push nd))) (fst nd) (map_next (push self)).

(** base_graph.py:126-135. *)
Definition connect (a b : key) : op unit := fun g =>
  match find_node g a, find_node g b with
  | Some _, Some _ => (add_prev_node b a (add_next_node a b g), Ok tt)
  | _, _ => (g, Raise AssertionError)
  end.

(** base_graph.py:137-148. *)
Definition disconnect (a b : key) : op unit := fun g =>
  match find_node g a, find_node g b with
  | Some _, Some _ =>
      (upd (upd g (fst a) (map_next (remove1 b))) (fst b) (map_prev (remove1 a)), Ok tt)
  | _, _ => (g, Raise AssertionError)
  end.

Fixpoint for_each (l : list key) (body : key -> op unit) : op unit :=
  match l with
  | [] => ret tt
  | x :: r => seq_op (body x) (fun _ => for_each r body)
  end.

(** base_graph.py:176, [self.nodes.pop(node.name)]. *)
Definition pop_node (nm : string) : op unit := fun g =>
  (filter (fun p => negb (String.eqb (fst p) nm)) g, Ok tt).

(** base_graph.py:150-176. *)
Definition delete_node (k : key) : op unit := fun g =>
  match find_node g k with
  | None => (g, Raise AssertionError)
  | Some nd =>
      (match n_prev nd, n_next nd with
       | [], nexts =>
           seq_op (for_each nexts (fun nx => disconnect k nx)) (fun _ => pop_node (fst k))
       | prevs, [] =>
           seq_op (for_each prevs (fun pr => disconnect pr k)) (fun _ => pop_node (fst k))
       | [pre], _ =>
           (* the copy of next_nodes is taken after pre_node has been disconnected *)
           seq_op (disconnect pre k) (fun _ g1 =>
             match find_node g1 k with
             | None => (g1, Raise AssertionError)
             | Some nd1 =>
                 seq_op (for_each (n_next nd1)
                           (fun nx => seq_op (disconnect k nx) (fun _ => connect pre nx)))
                        (fun _ => pop_node (fst k)) g1
             end)
       | _, [nxt] =>
           seq_op (disconnect k nxt) (fun _ g1 =>
             match find_node g1 k with
             | None => (g1, Raise AssertionError)
             | Some nd1 =>
                 seq_op (for_each (n_prev nd1)
                           (fun pr => seq_op (disconnect pr k) (fun _ => connect pr nxt)))
                        (fun _ => pop_node (fst k)) g1
             end)
       | _, _ => fun g => (g, Raise GenericException)
       end) g
  end.

(** ** Histories *)
Inductive call : Type :=
| AddNode (k : key) | Connect (a b : key) | Disconnect (a b : key) | DeleteNode (k : key).
Definition exec (c : call) : op unit :=
  match c with
  | AddNode k => add_node k
  | Connect a b => connect a b
  | Disconnect a b => disconnect a b
  | DeleteNode k => delete_node k
  end.
(** Raised exceptions are caught by the caller, who carries on. *)
Definition run (cs : list call) (g : graph) : graph := fold_left (fun g c => fst (exec c g)) cs g.

(** ** Topological traversal *)

(** base_graph.py:207-211. *)
Definition in_degree (g : graph) : list (string * Z) :=
  map (fun p => (fst p, Z.of_nat (length (n_prev (snd p))))) g.
(** base_graph.py:213-217. *)
Definition find_zero (deg : list (string * Z)) : option string :=
  option_map fst (find (fun p => Z.eqb (snd p) 0) deg).
(** base_graph.py:225-226: [in_degree[next.name] -= 1] for every next node. *)
Fixpoint dget (deg : list (string * Z)) (nm : string) : option Z :=
  match deg with
  | [] => None
  | (nm', d) :: r => if String.eqb nm' nm then Some d else dget r nm
  end.
Fixpoint dset (deg : list (string * Z)) (nm : string) (v : Z) : list (string * Z) :=
  match deg with
  | [] => []
  | (nm', d) :: r => if String.eqb nm' nm then (nm', v) :: r else (nm', d) :: dset r nm v
  end.
Fixpoint decrease (deg : list (string * Z)) (nexts : list key) : outcome (list (string * Z)) :=
  match nexts with
  | [] => Ok deg
  | nx :: r =>
      match dget deg (fst nx) with
      | None => Raise KeyError
      | Some d => decrease (dset deg (fst nx) (d - 1)) r
      end
  end.
Definition dpop (deg : list (string * Z)) (nm : string) : list (string * Z) :=
  filter (fun p => negb (String.eqb (fst p) nm)) deg.

(** base_graph.py:221-226: the names yielded, and how the generator ends.  [fuel] bounds the
    number of loop iterations; running out of it is reported as [None]. *)
Fixpoint topo_loop (fuel : nat) (g : graph) (deg : list (string * Z))
  : list string * option (outcome unit) :=
  match deg with
  | [] => ([], Some (Ok tt))
  | _ =>
    match fuel with
    | O => ([], None)
    | S fuel =>
      match find_zero deg with
      | None => ([], Some (Raise GenericException))
      | Some nm =>
        match get g nm with
        | None => ([], Some (Raise KeyError))
        | Some nd =>
          match decrease (dpop deg nm) (n_next nd) with
          | Raise e => ([nm], Some (Raise e))
          | Ok deg' => let '(ys, r) := topo_loop fuel g deg' in (nm :: ys, r)
          end
        end
      end
    end
  end.
Definition topo_traverse (g : graph) : list string * option (outcome unit) :=
  topo_loop (length g) g (in_degree g).

(** base_graph.py:228-233. *)
Definition topo_sort (g : graph) : graph * option (outcome unit) :=
  match topo_traverse g with
  | (names, Some (Ok _)) =>
      (flat_map (fun nm => match get g nm with Some nd => [(nm, nd)] | None => [] end) names,
       Some (Ok tt))
  | (_, r) => (g, r)
  end.
