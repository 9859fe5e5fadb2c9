(** Model of mmrazor/models/utils/expandable_utils/{unit,tools,ops}.py. *)
From Verif Require Import Prelude.

(** ** Units *)

(** A unit: its original width and the mask of its mutable channel. *)
Record eunit : Type := { e_num : Z; e_mask : list bool }.
Definition new_unit (n : nat) : eunit := {| e_num := Z.of_nat n; e_mask := repeat true n |}.
(** unit.py:25-28, [expand]; [new_zeros] rejects a negative size. *)
Definition expand (u : eunit) (num : Z) : outcome eunit :=
  if num <? 0 then Raise RuntimeError
  else Ok {| e_num := e_num u; e_mask := e_mask u ++ repeat false (Z.to_nat num) |}.
(** unit.py:30-31, [expand_to]: relative to the original width. *)
Definition expand_to (u : eunit) (num : Z) : outcome eunit := expand u (num - e_num u).
(** tools.py:79-86, the loop body of [make_channel_divisible] for a unit whose current choice
    is [num] (a fresh unit: its width). *)
Definition make_divisible (u : eunit) (num divisor : Z) : outcome eunit :=
  if divisor =? 0 then Raise ZeroDivisionError
  else if num mod divisor =? 0 then Ok u
  else expand_to u (Z.max ((num / divisor + 1) * divisor) (e_num u)).

(** ** Operations *)
Section Ops.
(** [V]: the entries of a weight at one (out, in) position, e.g. a convolution kernel. *)
Context {V : Type}.

(** [Tensor.masked_scatter_] on flattened tensors: the positions selected by the mask take
    the source's elements in turn; raises when they run out. *)
Fixpoint masked_scatter (mask : list bool) (dst src : list V) : outcome (list V) :=
  match mask, dst with
  | false :: m, d :: ds => do r <- masked_scatter m ds src; Ok (d :: r)
  | true :: m, _ :: ds =>
      match src with
      | [] => Raise RuntimeError
      | x :: s => do r <- masked_scatter m ds s; Ok (x :: r)
      end
  | _, _ => Ok dst
  end.
Fixpoint chunk (n rows : nat) (l : list V) : list (list V) :=
  match rows with O => [] | S r => firstn n l :: chunk n r (skipn n l) end.
(** ops.py:99-108, [expand_matrix]: the mask is the outer product of the two channel masks
    (ops.py:66-82); [base] is the freshly initialised weight. *)
Definition expand_matrix (out_mask in_mask : list bool) (base old : list (list V)) : outcome (list (list V)) :=
  do flat <- masked_scatter (flat_map (fun o => map (fun i => o && i) in_mask) out_mask)
                            (concat base) (concat old);
  Ok (chunk (length in_mask) (length out_mask) flat).
(** ops.py:110-118, [expand_vector]. *)
Definition expand_vector (out_mask : list bool) (base old : list V) : outcome (list V) :=
  masked_scatter out_mask base old.
End Ops.

(** A convolution with one group, or a linear layer: weight rows and optional bias. *)
Record wop (V B : Type) : Type := { w_weight : list (list V); w_bias : option (list B) }.
Arguments w_weight {V B}. Arguments w_bias {V B}. Arguments Build_wop {V B}.
(** ops.py:148-164 and 195-208; [base] is the new module, already zeroed (ops.py:93-96) if
    requested; it has a bias exactly when the old one has. *)
Definition expand_op {V B} (out_mask in_mask : list bool) (base old : wop V B) : outcome (wop V B) :=
  do w <- expand_matrix out_mask in_mask (w_weight base) (w_weight old);
  do b <- match w_bias base, w_bias old with
          | Some nb, Some ob => do b <- expand_vector out_mask nb ob; Ok (Some b)
          | nb, _ => Ok nb
          end;
  Ok {| w_weight := w; w_bias := b |}.
(** [ExpandableMixin.zero_weight_] of a fresh module of the given shape. *)
Definition zero_op {V B} (vz : V) (bz : B) (out_c in_c : nat) (bias : bool) : wop V B :=
  {| w_weight := repeat (repeat vz in_c) out_c; w_bias := if bias then Some (repeat bz out_c) else None |}.

(** ops.py:166-182, depthwise convolution: one kernel per channel. *)
Definition expand_dw {V B} (in_c out_c : nat) (out_mask : list bool) (base old : list V * option (list B))
  : outcome (list V * option (list B)) :=
  do _ <- assert_ (Nat.eqb in_c out_c);
  do w <- expand_vector out_mask (fst base) (fst old);
  do b <- match snd base, snd old with
          | Some nb, Some ob => do b <- expand_vector out_mask nb ob; Ok (Some b)
          | nb, _ => Ok nb
          end;
  Ok (w, b).

(** ops.py:221-238, batch norm: affine parameters (weight, bias) and running statistics, each
    optional. *)
Record bnop (R : Type) : Type :=
  { bn_affine : option (list R * list R); bn_stats : option (list R * list R) }.
Arguments bn_affine {R}. Arguments bn_stats {R}. Arguments Build_bnop {R}.
Definition expand_bn {R} (in_c out_c : nat) (out_mask : list bool) (base old : bnop R) : outcome (bnop R) :=
  do _ <- assert_ (Nat.eqb in_c out_c);
  do st <- match bn_stats base, bn_stats old with
           | Some (nm, nv), Some (om, ov) =>
               do m <- expand_vector out_mask nm om; do v <- expand_vector out_mask nv ov; Ok (Some (m, v))
           | s, _ => Ok s
           end;
  match bn_affine base, bn_affine old with
  | Some (nw, nb), Some (ow, ob) =>
      do w <- expand_vector out_mask nw ow;
      do b <- expand_vector out_mask nb ob;
      Ok {| bn_affine := Some (w, b); bn_stats := st |}
  | _, _ => Raise AttributeError              (* expand_bias(None, None) *)
  end.
