(** The searchable MobileNetV3: mmrazor/models/architectures/backbones/searchable_mobilenet_v3.py, with
    mmrazor/models/utils/parse_values.py, the MBBlock of ops/mobilenet_series.py under mutables
    (architectures/utils/mutable_register.py) and DynamicSequential (dynamic_ops/bricks/dynamic_container.py).

    A feature map is its number of channels, its height and its width, as in OpShapes_Model.  The activations are named by
    an abstract type; make_divisible(c * widen_factor, 8) is an abstract function.  The inner width of the squeeze-and-excitation
    layers is left out: both of their convolutions read it from the same mutable. *)
From Coq Require Import List ZArith Bool.
From Verif Require Import Prelude OpShapes_Model Dynamic_Model.
Import ListNotations.
Local Open Scope Z_scope.

(** ** parse_values.py *)
(** list(range(start, stop, step)). *)
Definition py_range (start stop step : Z) : outcome (list Z) :=
  if step =? 0 then Raise ValueError else
  let n := if 0 <? step then (stop - start + step - 1) / step else (start - stop - step - 1) / - step in
  Ok (map (fun i => start + Z.of_nat i * step) (seq 0 (Z.to_nat n))).
(** 11-16. *)
Definition range_to_list (r : list Z) : outcome (list Z) :=
  match r with
  | [start; stop; step] => py_range start (stop + 1) step
  | _ => Raise AssertionError
  end.
(** 18. *)
Definition parse_values (l : list (list Z)) : outcome (list (list Z)) := mapM range_to_list l.

(** ** Built networks *)
(** The arguments of an MBBlock. *)
Record block := { b_args : args; b_kernel : Z; b_ratio : Z; b_se : bool; b_attentive : bool }.
(** mobilenet_series.py 116-131. *)
Definition with_res_shortcut (b : block) : bool :=
  (a_stride (b_args b) =? 1) && (a_in (b_args b) =? a_out (b_args b)) && negb (b_attentive b).
Definition with_expand_conv (b : block) : bool := negb (a_in (b_args b) * b_ratio b =? a_in (b_args b)).
Definition new_block (b : block) : outcome unit := new_op (MBBlock (b_kernel b) (b_ratio b) (b_se b) (b_attentive b)) (b_args b).

(** Python's max of a list. *)
Definition max_of (l : list Z) : outcome Z :=
  match l with [] => Raise ValueError | x :: r => Ok (fold_left Z.max r x) end.
Definition item {X} (l : list X) (i : nat) : outcome X := match nth_error l i with Some x => Ok x | None => Raise IndexError end.
(** l.pop(0) and l.pop(-1). *)
Definition pop_first {X} (l : list X) : outcome (X * list X) := match l with [] => Raise IndexError | x :: r => Ok (x, r) end.
Definition pop_last {X} (l : list X) : outcome (X * list X) :=
  match rev l with [] => Raise IndexError | x :: r => Ok (x, rev r) end.

Section Activations.
Variable act : Type.
Variable swish : act.
Variable widen : Z -> Z.

(** The blocks of a layer, its activation and the values its mutables choose from. *)
Record layer := { l_blocks : list block; l_act : act; l_kernels : list Z; l_depths : list Z; l_ratios : list Z; l_channels : list Z }.
Record vnet := { v_first : list Z; v_first_act : act; v_layers : list layer;
                 v_last_ratios : list Z; v_last : list Z; v_last_act : act; v_outs : list Z; v_frozen : Z; v_fine : bool }.
Record config := { c_kernels : list (list Z); c_blocks : list (list Z); c_ratios : list (list Z); c_channels : list (list Z);
                   c_outs : list Z; c_frozen : Z; c_strides : list Z; c_se : list bool; c_fine : bool; c_attentive : bool }.

(** [x if x else default]; an argument that is None is the empty list here. *)
Definition or_default {X} (l d : list X) : list X := match l with [] => d | _ => l end.

(** _make_single_layer (searchable_mobilenet_v3.py 203-252): the blocks and self.in_channels afterwards. *)
Definition single_blocks (n : nat) (i o k r s : Z) (se att : bool) : list block :=
  map (fun j => {| b_args := {| a_in := if Nat.eqb j 0 then i else o; a_out := o; a_stride := if Nat.eqb j 0 then s else 1 |};
                   b_kernel := k; b_ratio := r; b_se := se; b_attentive := att |}) (seq 0 n).
Definition make_single_layer (c : config) (i s : Z) (se : bool) (a : act) (ks ds rs cs : list Z) : outcome (layer * Z) :=
  do n <- max_of ds;
  do k <- max_of ks; do r <- max_of rs; do o <- max_of cs;
  let bs := single_blocks (Z.to_nat n) i o k r s se (c_attentive c) in
  do _ <- all_ok new_block bs;
  Ok ({| l_blocks := bs; l_act := a; l_kernels := ks; l_depths := ds; l_ratios := rs; l_channels := cs |},
      match bs with [] => i | _ => o end).
(** The loop of _make_layer (158-173) from layer [j] on. *)
Fixpoint make_layers (c : config) (acts : list act) (j : nat) (i : Z) (ks ds rs cs : list (list Z)) : outcome (list layer * Z) :=
  match ds, ks, rs, cs with
  | d :: ds', k :: ks', r :: rs', ch :: cs' =>
      do s <- item (or_default (c_strides c) [1; 2; 2; 2; 1; 2; 1]) j;
      do se <- item (or_default (c_se c) [false; false; true; false; true; true; true]) j;
      do a <- item acts j;
      do (l, i') <- make_single_layer c i s se a k d r ch;
      do (ls, last) <- make_layers c acts (S j) i' ks' ds' rs' cs';
      Ok (l :: ls, last)
  | _, _, _, _ => Ok ([], i)
  end.
(** __init__ (121-142) and _make_layer (144-201) once the activations of the first and last layer are taken off. *)
Definition build (c : config) (first_act last_act : act) (acts : list act) (ks ds rs cs : list (list Z)) : outcome vnet :=
  do (first, cs) <- pop_first cs;
  do (last, cs) <- pop_last cs;
  do (last_ratios, rs) <- pop_last rs;
  do _ <- assert_ (Nat.eqb (length ks) (length ds) && Nat.eqb (length ds) (length rs) && Nat.eqb (length rs) (length cs));
  do i <- max_of first;
  do (ls, _) <- make_layers c acts 0 i ks ds rs cs;
  do _ <- max_of last_ratios;
  do _ <- max_of last;
  Ok {| v_first := first; v_first_act := first_act; v_layers := ls; v_last_ratios := last_ratios; v_last := last; v_last_act := last_act;
        v_outs := c_outs c; v_frozen := c_frozen c; v_fine := c_fine c |}.
(** __init__ (87-142): the network, and what is left of the caller's list of activations.  The list is popped in place; the
    default list is the constructor's own. *)
Definition init (c : config) (acts : list act) : outcome vnet * list act :=
  if negb (forallb (fun i => (0 <=? i) && (i <? 8)) (c_outs c)) then (Raise ValueError, acts) else
  if negb ((-1 <=? c_frozen c) && (c_frozen c <? 8)) then (Raise ValueError, acts) else
  match (do ks <- parse_values (c_kernels c); do ds <- parse_values (c_blocks c); do rs <- parse_values (c_ratios c);
         do cs <- parse_values (c_channels c); Ok (ks, ds, rs, map (map widen) cs)) with
  | Raise e => (Raise e, acts)
  | Ok (ks, ds, rs, cs) =>
      let left_ l := match acts with [] => [] | _ => l end in
      match pop_first (or_default acts (repeat swish 9)) with
      | Raise e => (Raise e, acts)
      | Ok (a, l) =>
          match pop_last l with
          | Raise e => (Raise e, left_ l)
          | Ok (z, l') => (build c a z l' ks ds rs cs, left_ l')
          end
      end
  end.
(** Building again and again from the same arguments. *)
Fixpoint rebuilds (c : config) (n : nat) (acts : list act) : list act :=
  match n with O => acts | S r => rebuilds c r (snd (init c acts)) end.

(** ** Subnets *)
(** The choices of the mutables of a layer: depth, output channels, and the kernel size and expand ratio of every block. *)
Record pick := { p_depth : Z; p_out : Z; p_kernel : nat -> Z; p_ratio : nat -> Z }.
Record subnet := { s_first : Z; s_picks : list pick; s_last_ratio : Z; s_last : Z }.
Definition mem (x : Z) (l : list Z) : bool := existsb (Z.eqb x) l.
(** register_mutables (254-325): what the mutables can be set to; without [fine] the blocks of a layer share them. *)
Definition allowed_pick (fine : bool) (l : layer) (p : pick) : bool :=
  mem (p_depth p) (l_depths l) && mem (p_out p) (l_channels l)
  && forallb (fun j => mem (p_kernel p j) (l_kernels l) && mem (p_ratio p j) (l_ratios l)
                       && (fine || ((p_kernel p j =? p_kernel p 0%nat) && (p_ratio p j =? p_ratio p 0%nat))))
             (seq 0 (length (l_blocks l))).
Definition allowed (n : vnet) (s : subnet) : bool :=
  mem (s_first s) (v_first n) && Nat.eqb (length (s_picks s)) (length (v_layers n))
  && forallb (fun lp => allowed_pick (v_fine n) (fst lp) (snd lp)) (combine (v_layers n) (s_picks s))
  && mem (s_last_ratio s) (v_last_ratios n) && mem (s_last s) (v_last n).

(** MBBlock.forward (mobilenet_series.py 175-213) after mutate_mobilenet_layer (mutable_register.py 34-86): [i], [o], [r] and [k]
    are the current choices of input channels, output channels, expand ratio and kernel size. *)
Definition block_forward (b : block) (i o r k : Z) (x : fmap) : outcome fmap :=
  let mid := r * i in
  do y <- (if with_expand_conv b then conv i mid 1 1 0 1 x else Ok x);
  do p <- get_same_padding k;
  do y <- conv mid mid k (a_stride (b_args b)) p 1 y;
  do y <- (if b_se b then bn mid y else Ok y);
  do y <- conv mid o 1 1 0 1 y;
  if with_res_shortcut b then badd x y
  else if b_attentive b then do sx <- shortcut {| a_in := i; a_out := o; a_stride := a_stride (b_args b) |} x; badd sx y
  else Ok y.
(** DynamicSequential.forward (dynamic_container.py 81-94): the first [d] blocks; block [j] is the next one. *)
Fixpoint run_blocks (p : pick) (j d : nat) (i : Z) (bs : list block) (x : fmap) : outcome fmap :=
  match d, bs with
  | O, _ => Ok x
  | _, [] => Ok x
  | S d', b :: r => do y <- block_forward b i (p_out p) (p_ratio p j) (p_kernel p j) x; run_blocks p (S j) d' (p_out p) r y
  end.
(** The last layers (175-199): an expansion, average pooling to one pixel and the feature mix. *)
Definition run_last (i r o : Z) (x : fmap) : outcome fmap :=
  do y <- conv i (i * r) 1 1 0 1 x;
  conv (i * r) o 1 1 0 1 {| ch := ch y; ht := 1; wd := 1 |}.
(** forward (327-335).  [i] is the choice of the mutable that the next layer was registered with (mid_mutable, 268-304). *)
Fixpoint run_layers (outs : list Z) (j : nat) (i : Z) (ls : list layer) (ps : list pick) (r o : Z) (x : fmap) : outcome (list fmap) :=
  let kept y := if mem (Z.of_nat j) outs then [y] else [] in
  match ls, ps with
  | l :: ls', p :: ps' =>
      do y <- run_blocks p 0 (Z.to_nat (p_depth p)) i (l_blocks l) x;
      do rest <- run_layers outs (S j) (match l_blocks l with [] => i | _ => p_out p end) ls' ps' r o y;
      Ok (kept y ++ rest)
  | _, _ => do y <- run_last i r o x; Ok (kept y)
  end.
Definition run (n : vnet) (s : subnet) (x : fmap) : outcome (list fmap) :=
  do y <- conv 3 (s_first s) 3 2 1 1 x;
  run_layers (v_outs n) 0 (s_first s) (v_layers n) (s_picks s) (s_last_ratio s) (s_last s) y.
End Activations.

(** ** Freezing (337-344 and 361-370): the code of the searchable MobileNetV2, whose layers are looked up by name. *)
Definition train_v3 (frozen : Z) (norm_eval mode : bool) (b : backbone) : outcome backbone := train Mobile frozen norm_eval mode b.
