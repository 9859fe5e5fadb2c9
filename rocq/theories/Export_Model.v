(** Model of the quantize exporters:
    models/quantizers/exporters/base_quantize_exporter.py, openvino_quantize_exporter.py and
    tensorrt_quantize_exporter.py. The graph is that after [remove_fake_pad_op]
    (base_quantize_exporter.py:61-68); reading and writing files is left out. *)
From Coq Require Import String.
From Verif Require Import Prelude Onnx_Model.
Local Open Scope string_scope.
Local Open Scope list_scope.
Local Open Scope Z_scope.

(** base_quantize_exporter.py:18-23 *)
Definition all_fakequantizer : list string :=
  ["FakeQuantizeLearnablePerchannelAffine"; "FixedPerChannelAffine"; "LearnablePerTensorAffine"; "FixedPerTensorAffine"].
(** base_quantize_exporter.py:108-114, [collect_symbolic_nodes]. *)
Definition is_symbolic (n : onode) : bool := mem (o_op n) all_fakequantizer.
Definition collect_symbolic_nodes (nodes : list onode) : list onode := filter is_symbolic nodes.

(** base_quantize_exporter.py:116-125, [_get_constant_inputs]. *)
Definition get_constant_inputs (output2node : list (string * onode)) (n : onode) : list onode :=
  flat_map (fun i => match get output2node i with Some c => if String.eqb (o_op c) "Constant" then [c] else [] | None => [] end) (o_in n).
(** Lines 133-139: the list grows while it is iterated over; [todo] is what is left of it and [out]
    all of it. [fuel] is more than the number of its elements in the end. *)
Fixpoint collect_iter (fuel : nat) (todo : list onode) (seen : list string) (out : list onode) : list string * list onode :=
  match fuel, todo with
  | _, [] => (seen, out)
  | O, _ => (seen, out)
  | S f, c :: r => if mem (o_name c) seen then collect_iter f r seen out else collect_iter f (r ++ [c]) (seen ++ [o_name c]) (out ++ [c])
  end.
(** base_quantize_exporter.py:127-140, [_collect_symbolic_constant_inputs]. *)
Fixpoint collect_constants (output2node : list (string * onode)) (ns : list onode) (seen : list string) (result : list onode) : list onode :=
  match ns with
  | [] => result
  | n :: r => let l := get_constant_inputs output2node n in
              let '(seen', out) := collect_iter (S (2 * length l)) l seen l in collect_constants output2node r seen' out
  end.
Definition collect_symbolic_constant_inputs (output2node : list (string * onode)) (ns : list onode) : list onode := collect_constants output2node ns [] [].
(** base_quantize_exporter.py:142-162, [_remove_symbolic_related_from_onnx]; a constant without
    output raises IndexError once an input is compared with it. *)
Definition is_standalone_constant (nodes : list onode) (c : onode) : outcome bool :=
  match o_out c with
  | o :: _ => Ok (negb (existsb (fun n => mem o (o_in n)) nodes))
  | [] => if existsb (fun n => match o_in n with [] => false | _ => true end) nodes then Raise IndexError else Ok true
  end.
Fixpoint remove_constants (cs : list onode) (nodes : list onode) : outcome (list onode) :=
  match cs with
  | [] => Ok nodes
  | c :: r => do b <- is_standalone_constant nodes c;
              do nodes' <- (if b then remove_node c nodes else Ok nodes); remove_constants r nodes'
  end.
Definition remove_symbolic_related (symbolic constants nodes : list onode) : outcome (list onode) :=
  do l <- remove_all symbolic nodes; remove_constants constants l.

Section Export.
Variable V : Type.
(** [qparams['quant_min'], qparams['quant_max']] of [_parse_attrs(node.attribute)]; [None] when
    there are no attributes (lines 99-105). *)
Variable attr_range : onode -> option (outcome (V * V)).
(** [qmax - qmin in (255, 254)] and [not np.any(zero_point != 0)]. *)
Variable eight_bit : V -> V -> bool.
Variable symmetric : V -> bool.

(** base_quantize_exporter.py:91-106, [parse_qparams]. *)
Definition parse_qparams (data : list (string * V)) (n : onode) : outcome (string * V * V * option (V * V)) :=
  match o_in n with
  | t :: s :: z :: rest =>
      do sv <- lookup data s;
      do zv <- lookup data z;
      match rest with
      | _ :: _ => do lo <- lookup data (nth (length (o_in n) - 2) (o_in n) "");
                  do hi <- lookup data (nth (length (o_in n) - 1) (o_in n) "");
                  Ok (t, sv, zv, Some (lo, hi))
      | [] => match attr_range n with Some r => do q <- r; Ok (t, sv, zv, Some q) | None => Ok (t, sv, zv, None) end
      end
  | _ => Raise ValueError
  end.

(** tensorrt_quantize_exporter.py:18-26, [_build_backend_node_from_symbolic]; no attributes. *)
Definition trt_backend (n : onode) : list onode :=
  let q := (o_name n ++ "_quantized_out")%string in
  [{| o_name := (o_name n ++ "_quantized")%string; o_op := "QuantizeLinear"; o_attr := 0; o_in := firstn 3 (o_in n); o_out := [q] |};
   {| o_name := (o_name n ++ "_dequantized")%string; o_op := "DequantizeLinear"; o_attr := 0; o_in := q :: firstn 2 (skipn 1 (firstn 3 (o_in n))); o_out := o_out n |}].
(** tensorrt_quantize_exporter.py:28-41, [build_backend_nodes]. *)
Fixpoint trt_nodes (data : list (string * V)) (ns : list onode) : outcome (list onode) :=
  match ns with
  | [] => Ok []
  | n :: r =>
      do p <- parse_qparams data n;
      let '(_, _, zv, range) := p in
      match range with
      | None => Raise TypeError
      | Some (lo, hi) => do _ <- assert_ (eight_bit lo hi); do _ <- assert_ (symmetric zv); do l <- trt_nodes data r; Ok (trt_backend n ++ l)
      end
  end.
(** tensorrt_quantize_exporter.py:42-50, [export]. *)
Definition trt_export (m : omodel V) (data : list (string * V)) : outcome (omodel V) :=
  let symbolic := collect_symbolic_nodes (m_node _ m) in
  do new <- trt_nodes data symbolic;
  do l <- remove_all symbolic (m_node _ m);
  optimize V (with_nodes V m (l ++ new)).

(** [int(qmax) - int(qmin) + 1], [len(tensor.shape)] and the low and high ends of
    [_build_backend_initializer] for a shape. *)
Variable levels : V -> V -> nat.
Variable rank : V -> nat.
Variable bounds : V -> V -> V -> V -> list Z -> outcome (V * V).
(** openvino_quantize_exporter.py:25-52, [_build_backend_node_from_symbolic]. *)
Definition range_names (t : string) : list string := map (fun key => (t ++ "_" ++ key)%string) ["input_min"; "input_max"; "output_min"; "output_max"].
Definition ov_backend (n : onode) (t : string) (lo hi : V) : outcome onode :=
  match o_out n with
  | o :: _ => Ok {| o_name := o_name n; o_op := "FakeQuantize"; o_attr := levels lo hi; o_in := t :: range_names t; o_out := [o] |}
  | [] => Raise IndexError
  end.
(** Lines 101-114: any exception gives the shape [-1]. *)
Definition weight_shape (nodes : list onode) (input2node : list (string * list (nat * nat))) (output2node : list (string * onode)) (data : list (string * V)) (n : onode) : list Z :=
  match o_out n with
  | o :: _ => match get input2node o with
              | Some ((p, _) :: _) =>
                  match nth_error nodes p with
                  | Some next => match nth_error (o_in next) 1 with
                                 | Some w => match get output2node w with
                                             | Some f => match o_in f with
                                                         | x :: _ => match get data x with Some v => (-1) :: repeat 1 (rank v - 1) | None => [-1] end
                                                         | [] => [-1]
                                                         end
                                             | None => [-1]
                                             end
                                 | None => [-1]
                                 end
                  | None => [-1]
                  end
              | _ => [-1]
              end
  | [] => [-1]
  end.
(** Lines 54-88 give the four initializers of a node. *)
Definition ov_initializers (names : list string) (lh : V * V) : list (string * V) := combine names [fst lh; snd lh; fst lh; snd lh].
(** openvino_quantize_exporter.py:90-121, [build_backend_nodes_and_initializers]; without a range
    [int(None)] raises TypeError. *)
Fixpoint ov_build (shape : onode -> list Z) (data : list (string * V)) (ns : list onode) : outcome (list onode * list (string * V)) :=
  match ns with
  | [] => Ok ([], [])
  | n :: r =>
      do p <- parse_qparams data n;
      let '(t, sv, zv, range) := p in
      match range with
      | None => Raise TypeError
      | Some (lo, hi) =>
          do b <- ov_backend n t lo hi;
          do lh <- bounds sv zv lo hi (shape n);
          do rest <- ov_build shape data r;
          Ok (b :: fst rest, ov_initializers (range_names t) lh ++ snd rest)
      end
  end.
(** openvino_quantize_exporter.py:123-131, [_insert_initializers_to_onnx]. *)
Fixpoint insert_initializers (inserted : list string) (new init : list (string * V)) : list (string * V) :=
  match new with
  | [] => init
  | kv :: r => if mem (fst kv) inserted then insert_initializers inserted r init else insert_initializers (fst kv :: inserted) r (init ++ [kv])
  end.
(** openvino_quantize_exporter.py:133-159, [_replace_symbolic_related] and [export]. *)
Definition ov_export (m : omodel V) (data : list (string * V)) : outcome (omodel V) :=
  let symbolic := collect_symbolic_nodes (m_node _ m) in
  let input2node := map_input_and_node V m in
  let output2node := map_output_and_node V m in
  let constants := collect_symbolic_constant_inputs output2node symbolic in
  do new <- ov_build (weight_shape (m_node _ m) input2node output2node data) data symbolic;
  let init := insert_initializers [] (snd new) (m_init _ m) in
  do l <- remove_symbolic_related symbolic constants (m_node _ m);
  optimize V (with_init V (with_nodes V m (l ++ fst new)) init).
End Export.
