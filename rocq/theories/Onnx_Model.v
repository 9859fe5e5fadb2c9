(** Model of the clean-up of exported ONNX graphs and of the quantize exporters:
    models/quantizers/exporters/optim_utils.py, base_quantize_exporter.py,
    openvino_quantize_exporter.py and tensorrt_quantize_exporter.py. *)
From Coq Require Import String.
From Verif Require Import Prelude.
Local Open Scope string_scope.
Local Open Scope list_scope.
Local Open Scope Z_scope.

(** A NodeProto: name, op_type, (opaque) attributes, inputs and outputs. *)
Record onode : Type := { o_name : string; o_op : string; o_attr : nat; o_in : list string; o_out : list string }.

(** Python dictionaries in insertion order. *)
Fixpoint get {A : Type} (d : list (string * A)) (k : string) : option A :=
  match d with [] => None | (k', v) :: r => if String.eqb k' k then Some v else get r k end.
Fixpoint put {A : Type} (d : list (string * A)) (k : string) (v : A) : list (string * A) :=
  match d with
  | [] => [(k, v)]
  | (k', v') :: r => if String.eqb k' k then (k', v) :: r else (k', v') :: put r k v
  end.
Definition has {A : Type} (d : list (string * A)) (k : string) : bool := match get d k with Some _ => true | None => false end.
Definition mem (k : string) (l : list string) : bool := existsb (String.eqb k) l.

(** Equality of protobuf messages is equality of their fields. *)
Definition same_node (a b : onode) : bool :=
  String.eqb (o_name a) (o_name b) && String.eqb (o_op a) (o_op b) && Nat.eqb (o_attr a) (o_attr b) &&
  (if list_eq_dec string_dec (o_in a) (o_in b) then true else false) && (if list_eq_dec string_dec (o_out a) (o_out b) then true else false).
(** [graph.node.remove]: the first equal one; an error if there is none. *)
Fixpoint remove_node (n : onode) (l : list onode) : outcome (list onode) :=
  match l with
  | [] => Raise ValueError
  | x :: r => if same_node x n then Ok r else do r' <- remove_node n r; Ok (x :: r')
  end.

Section Graph.
(** Tensors. *)
Variable V : Type.
(** The value of a Constant node with a 'value' attribute. *)
Variable const_value : onode -> option V.
(** [all([x == 0 for x in pads])] *)
Variable all_zero : V -> bool.

(** A ModelProto: nodes, initializers, names of the inputs and of the outputs. *)
Record omodel : Type := { m_node : list onode; m_init : list (string * V); m_in : list string; m_out : list string }.
Definition with_nodes (m : omodel) (l : list onode) : omodel := {| m_node := l; m_init := m_init m; m_in := m_in m; m_out := m_out m |}.
Definition with_init (m : omodel) (i : list (string * V)) : omodel := {| m_node := m_node m; m_init := i; m_in := m_in m; m_out := m_out m |}.

(** optim_utils.py:18-34, [map_name_and_data]. *)
Definition data_step (params : list (string * V)) (n : onode) : list (string * V) :=
  let p1 := match o_in n, o_out n with
            | [i], o :: _ => if String.eqb (o_op n) "Identity" then match get params i with Some v => put params o v | None => params end else params
            | _, _ => params
            end in
  match o_out n with
  | o :: _ => if String.eqb (o_op n) "Constant" then match const_value n with Some v => put p1 o v | None => p1 end else p1
  | [] => p1
  end.
Definition map_name_and_data (m : omodel) : list (string * V) :=
  fold_left data_step (m_node m) (fold_left (fun d kv => put d (fst kv) (snd kv)) (m_init m) []).

(** optim_utils.py:36-48, [map_name_and_initializer] (the names; the value is the initializer). *)
Definition map_name_and_initializer (m : omodel) : list (string * (string * V)) :=
  fold_left (fun d kv => put d (fst kv) kv) (m_init m) [].
(** optim_utils.py:50-57, [map_output_and_node]. *)
Definition map_output_and_node (m : omodel) : list (string * onode) :=
  fold_left (fun d n => fold_left (fun d o => put d o n) (o_out n) d) (m_node m) [].
(** optim_utils.py:59-69, [map_input_and_node]; a node is given by its position. *)
Fixpoint enum {A : Type} (i : nat) (l : list A) : list (nat * A) := match l with [] => [] | x :: r => (i, x) :: enum (S i) r end.
Definition add_use (d : list (string * list (nat * nat))) (i : string) (p : nat * nat) : list (string * list (nat * nat)) :=
  match get d i with Some l => put d i (l ++ [p]) | None => put d i [p] end.
Definition map_input_and_node (m : omodel) : list (string * list (nat * nat)) :=
  fold_left (fun d pn => fold_left (fun d ji => add_use d (snd ji) (fst pn, fst ji)) (enum 0 (o_in (snd pn))) d) (enum 0 (m_node m)) [].

(** optim_utils.py:83-97, [remove_fake_pad_op]: [input2node] is the dictionary made before. *)
Fixpoint set_nth {A : Type} (i : nat) (x : A) (l : list A) : list A :=
  match i, l with O, _ :: r => x :: r | S i', y :: r => y :: set_nth i' x r | _, [] => [] end.
Definition set_input (p j : nat) (s : string) (l : list onode) : list onode :=
  match nth_error l p with
  | Some n => set_nth p {| o_name := o_name n; o_op := o_op n; o_attr := o_attr n; o_in := set_nth j s (o_in n); o_out := o_out n |} l
  | None => l
  end.
Fixpoint pad_loop (data : list (string * V)) (uses : list (string * list (nat * nat))) (todo : list nat) (nodes : list onode)
    (removed : list nat) : outcome (list onode * list nat) :=
  match todo with
  | [] => Ok (nodes, removed)
  | p :: r =>
      match nth_error nodes p with
      | None => Ok (nodes, removed)
      | Some n =>
          if String.eqb (o_op n) "Pad" then
            match nth_error (o_in n) 1 with
            | None => Raise IndexError
            | Some pads =>
                match get data pads with
                | None => Raise KeyError
                | Some v =>
                    if all_zero v then
                      match o_out n, o_in n with
                      | o :: _, x :: _ =>
                          match get uses o with
                          | None => Raise KeyError
                          | Some l => pad_loop data uses r (fold_left (fun ns pj => set_input (fst pj) (snd pj) x ns) l nodes) (removed ++ [p])
                          end
                      | _, _ => Raise IndexError
                      end
                    else pad_loop data uses r nodes removed
                end
            end
          else pad_loop data uses r nodes removed
      end
  end.
Fixpoint remove_all (ns : list onode) (l : list onode) : outcome (list onode) :=
  match ns with [] => Ok l | n :: r => do l' <- remove_node n l; remove_all r l' end.
(** The nodes to be removed are references: they are looked up after all inputs are set. *)
Definition remove_fake_pad_op (m : omodel) (data : list (string * V)) (uses : list (string * list (nat * nat))) : outcome omodel :=
  do nr <- pad_loop data uses (seq 0 (length (m_node m))) (m_node m) [];
  let '(nodes, removed) := nr in
  do l <- remove_all (flat_map (fun p => match nth_error nodes p with Some n => [n] | None => [] end) removed) nodes;
  Ok (with_nodes m l).

(** optim_utils.py:107-134, [find_standalone_nodes]. *)
Definition is_standalone {A B : Type} (input2node : list (string * A)) (output2node : list (string * B)) (n : onode) : bool :=
  forallb (fun i => negb (has output2node i)) (o_in n) && forallb (fun o => negb (has input2node o)) (o_out n).
Definition find_standalone_nodes {A B : Type} (m : omodel) (input2node : list (string * A)) (output2node : list (string * B)) : list onode :=
  filter (is_standalone input2node output2node) (m_node m).
(** optim_utils.py:136-154, [find_redundant_initializers]. *)
Definition find_redundant_initializers {A : Type} (m : omodel) (input2node : list (string * A)) : list string :=
  map fst (filter (fun kv => negb (has input2node (fst kv))) (map_name_and_initializer m)).
(** optim_utils.py:76-80, [remove_initializer_from_onnx]. *)
Fixpoint remove_initializer (k : string) (l : list (string * V)) : outcome (list (string * V)) :=
  match l with
  | [] => Raise ValueError
  | kv :: r => if String.eqb (fst kv) k then Ok r else do r' <- remove_initializer k r; Ok (kv :: r')
  end.
Fixpoint remove_initializers (ks : list string) (l : list (string * V)) : outcome (list (string * V)) :=
  match ks with [] => Ok l | k :: r => do l' <- remove_initializer k l; remove_initializers r l' end.

(** optim_utils.py:156-239, [topo_sort]. *)
(** [output_name2node], of which only the names are used: nodes, then graph inputs. *)
Definition producers (m : omodel) : list (string * string) :=
  fold_left (fun d i => put d i i) (m_in m)
    (fold_left (fun d n => fold_left (fun d o => put d o (o_name n)) (o_out n) d) (m_node m) []).
Definition degrees0 (m : omodel) : list (string * Z) := fold_left (fun d n => put d (o_name n) 0) (m_node m) [].
Definition edges0 (m : omodel) : list (string * list onode) :=
  fold_left (fun d i => put d i []) (m_in m) (fold_left (fun d n => put d (o_name n) []) (m_node m) []).
Definition name2node (m : omodel) : list (string * onode) := fold_left (fun d n => put d (o_name n) n) (m_node m) [].
(** "Build graph", lines 205-210. *)
Definition lookup {A : Type} (d : list (string * A)) (k : string) : outcome A := match get d k with Some v => Ok v | None => Raise KeyError end.
Fixpoint build_inputs (init : list (string * (string * V))) (prod : list (string * string)) (n : onode) (ins : list string)
    (st : list (string * Z) * list (string * list onode)) : outcome (list (string * Z) * list (string * list onode)) :=
  match ins with
  | [] => Ok st
  | i :: r =>
      if has init i then build_inputs init prod n r st
      else let '(deg, edges) := st in
           do d <- lookup deg (o_name n);
           do p <- lookup prod i;
           do l <- lookup edges p;
           build_inputs init prod n r (put deg (o_name n) (d + 1), put edges p (l ++ [n]))
  end.
Fixpoint build_graph (init : list (string * (string * V))) (prod : list (string * string)) (ns : list onode)
    (st : list (string * Z) * list (string * list onode)) : outcome (list (string * Z) * list (string * list onode)) :=
  match ns with [] => Ok st | n :: r => do st' <- build_inputs init prod n (o_in n) st; build_graph init prod r st' end.
(** Lines 229-232: the successors of a node; [root] with its top first. *)
Fixpoint relax (succ : list onode) (deg : list (string * Z)) (root : list string) : outcome (list (string * Z) * list string) :=
  match succ with
  | [] => Ok (deg, root)
  | n :: r =>
      do d <- lookup deg (o_name n);
      relax r (put deg (o_name n) (d - 1)) (if d - 1 =? 0 then o_name n :: root else root)
  end.
(** Lines 221-232; [fuel] is more than the number of names that are ever pushed. *)
Fixpoint sort_loop (fuel : nat) (inputs : list string) (nodes : list (string * onode)) (edges : list (string * list onode))
    (deg : list (string * Z)) (root : list string) (sorted : list onode) : outcome (list onode) :=
  match fuel, root with
  | _, [] => Ok sorted
  | O, _ => Ok sorted
  | S f, nm :: rest =>
      do sorted' <- (if mem nm inputs then Ok sorted else do n <- lookup nodes nm; Ok (sorted ++ [n]));
      do succ <- lookup edges nm;
      do dr <- relax succ deg rest;
      sort_loop f inputs nodes edges (fst dr) (snd dr) sorted'
  end.
Definition topo_sort (m : omodel) : outcome omodel :=
  do st <- build_graph (map_name_and_initializer m) (producers m) (m_node m) (degrees0 m, edges0 m);
  let '(deg, edges) := st in
  let root := rev (m_in m ++ map fst (filter (fun kv => snd kv =? 0) deg)) in
  do sorted <- sort_loop (S (length (m_in m) + length (m_node m))) (m_in m) (name2node m) edges deg root [];
  if Nat.eqb (length sorted) (length (m_node m)) then Ok (with_nodes m sorted) else Raise RuntimeError.

(** optim_utils.py:241-265, [optimize]. *)
Definition optimize (m : omodel) : outcome omodel :=
  let input2node := map_input_and_node m in
  let output2node := map_output_and_node m in
  do l <- remove_all (find_standalone_nodes m input2node output2node) (m_node m);
  let m1 := with_nodes m l in
  do i <- remove_initializers (find_redundant_initializers m1 input2node) (m_init m1);
  topo_sort (with_init m1 i).
End Graph.
