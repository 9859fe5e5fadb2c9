(** The searchable AutoFormer: mmrazor/models/architectures/backbones/searchable_autoformer.py.

    Shapes only: the values, the activations and the dropouts are left out; [int(k * ratio)] is a parameter as in Derived_Model.  All
    value lists have entries of one type.  The layers are modelled with the containers they are registered with
    (mutable_channel_container.py), since the containers are registered up to the current choice but built for the largest. *)
From Coq Require Import List Arith Bool QArith Qround.
From Verif Require Import Prelude.
Import ListNotations.
Local Open Scope nat_scope.

Section Autoformer.
Variable rmul : nat -> Q -> nat.

(** ** Construction *)
Record arch := { a_ratios : list Q; a_heads : list nat; a_depth : list nat; a_embed : list nat }.
(** l[-1]; sorted(l)[-1], the max_choice of a OneShotMutableValue (mutable_value.py 189-203, 213-220). *)
Definition last_of {X} (l : list X) : outcome X := match rev l with [] => Raise IndexError | x :: _ => Ok x end.
Definition max_of {X} (leb : X -> X -> bool) (l : list X) : outcome X :=
  match l with [] => Raise IndexError | x :: r => Ok (fold_left (fun a b => if leb a b then b else a) r x) end.
(** list.sort(). *)
Fixpoint insert (x : nat) (l : list nat) : list nat := match l with [] => [x] | y :: r => if x <=? y then x :: l else y :: insert x r end.
Definition sort (l : list nat) : list nat := fold_right insert [] l.

(** [n_width]: num_channels of the embedding mutable.  [n_layers] TransformerEncoderLayers, each for [n_max_heads] and [n_max_ratio]
    and registered when the mutables chose [n_reg_heads] and [n_reg_ratio].  [n_patches]: rows of pos_embed without the class token. *)
Record net := { n_width : nat; n_cands : list nat; n_depths : list nat; n_heads : list nat; n_ratios : list Q; n_layers : nat;
                n_max_heads : nat; n_reg_heads : nat; n_max_ratio : Q; n_reg_ratio : Q; n_in : nat; n_patches : nat; n_norm : bool }.
(** The lists of mutables (247-262) have one entry for each of the last depth: element [i]. *)
Definition mutable_at {X} (len i : nat) (x : outcome X) : outcome X := if i <? len then x else Raise IndexError.
(** __init__ (205-303), _make_layer (310-323) and register_mutables (325-350; of the layers 93-146); afterwards the caller's list of widths, which
    OneShotMutableChannel sorts in place (oneshot_mutable_channel.py 26) and the network keeps. *)
Definition init (a : arch) (img_size patch_size in_channels : nat) (use_final_norm : bool) : outcome net * list nat :=
  match last_of (a_depth a), last_of (a_embed a) with
  | Raise e, _ => (Raise e, a_embed a)
  | _, Raise e => (Raise e, a_embed a)
  | Ok depth, Ok width =>
      (do maxd <- max_of Nat.leb (a_depth a);
       do _ <- (if depth =? 0 then Ok tt else do _ <- last_of (a_heads a); do _ <- last_of (a_ratios a); Ok tt);
       do _ <- (if patch_size =? 0 then Raise ZeroDivisionError else Ok tt);
       do _ <- (if maxd =? 0 then Ok tt else mutable_at depth (maxd - 1) (Ok tt));
       do h <- (if depth =? 0 then Ok 0 else max_of Nat.leb (a_heads a));
       do r <- (if depth =? 0 then Ok 0%Q else max_of Qle_bool (a_ratios a));
       do h0 <- (if depth =? 0 then Ok 0 else last_of (a_heads a));
       do r0 <- (if depth =? 0 then Ok 0%Q else last_of (a_ratios a));
       Ok {| n_width := width; n_cands := sort (a_embed a); n_depths := a_depth a; n_heads := a_heads a; n_ratios := a_ratios a; n_layers := maxd;
             n_max_heads := h; n_reg_heads := h0; n_max_ratio := r; n_reg_ratio := r0; n_in := in_channels;
             n_patches := (img_size / patch_size) * (img_size / patch_size); n_norm := use_final_norm |},
       sort (a_embed a))
  end.

(** ** Subnets *)
Record choice := { c_embed : nat; c_depth : nat; c_heads : nat -> nat; c_ratio : nat -> Q }.
Definition allowed (n : net) (c : choice) : bool :=
  existsb (Nat.eqb (c_embed c)) (n_cands n) && existsb (Nat.eqb (c_depth c)) (n_depths n)
  && forallb (fun i => existsb (Nat.eqb (c_heads c i)) (n_heads n) && existsb (Qeq_bool (c_ratio c i)) (n_ratios n)) (seq 0 (n_layers n)).
(** [size] entries of which the first [k] are on. *)
Definition mask (size k : nat) : list bool := repeat true (Nat.min k size) ++ repeat false (size - k).
(** The mask of the embedding mutable and its choice (sequential_mutable_channel.py 36-58). *)
Definition embed_mask (n : net) (c : choice) : list bool := mask (n_width n) (c_embed c).
Definition width (n : net) (c : choice) : nat := count_true (embed_mask n c).
(** The mask of a container for [num] channels in which [m] was registered from 0 to [stop] (mutable_channel_container.py
    37-48, 95-123): the rest is filled with channels that are on. *)
Definition container (num stop : nat) (m : list bool) : outcome (list bool) :=
  let m := if stop <? num then m ++ repeat true (num - stop) else m in
  do _ <- assert_ (Nat.max stop num =? num); Ok m.
(** The derived mutables (sequential_mutable_channel.py 73-110) of heads and ratio [i]. *)
Definition q_mask (n : net) (c : choice) (i : nat) : outcome (list bool) :=
  container (64 * n_max_heads n) (64 * n_reg_heads n) (mask (64 * n_max_heads n) (64 * c_heads c i)).
Definition mid_mask (n : net) (c : choice) (i : nat) : outcome (list bool) :=
  container (rmul (n_width n) (n_max_ratio n)) (rmul (n_width n) (n_reg_ratio n))
            (mask (rmul (n_width n) (n_max_ratio n)) (rmul (width n c) (c_ratio c i))).
(** Indexing [n] rows by a mask. *)
Definition masked (n : nat) (m : list bool) : outcome nat := if length m =? n then Ok (count_true m) else Raise IndexError.
(** F.linear with a weight of [i] columns and [o] rows on rows of [w] entries. *)
Definition linear (i o w : nat) : outcome nat := if w =? i then Ok o else Raise RuntimeError.
(** Sums broadcast. *)
Definition badd (a b : nat) : outcome nat := if a =? b then Ok a else if a =? 1 then Ok b else if b =? 1 then Ok a else Raise RuntimeError.
(** DynamicLayerNorm. *)
Definition norm (n : net) (c : choice) (w : nat) : outcome nat :=
  do k <- masked (n_width n) (embed_mask n c); if w =? k then Ok w else Raise RuntimeError.
(** DynamicMultiheadAttention.forward (dynamic_multi_head_attention.py 133-185, 238-277) on rows of [w] entries: the projections take the
    first rows and columns; the heads have 64 entries in the relative positions. *)
Definition attention (n : net) (c : choice) (i w : nat) : outcome nat :=
  do m <- q_mask n c i;
  let act := count_true m in
  let rows := Nat.min act (64 * n_max_heads n) in
  let heads := c_heads c i in
  do q <- linear (Nat.min (width n c) (n_width n)) rows w;
  do _ <- (if heads =? 0 then Raise ZeroDivisionError else Ok tt);
  do _ <- (if heads * (act / heads) =? q then Ok tt else Raise RuntimeError);
  do _ <- (if act / heads =? 64 then Ok tt else Raise RuntimeError);
  linear rows (Nat.min (width n c) (n_width n)) (heads * (act / heads)).
(** TransformerEncoderLayer.forward (148-159). *)
Definition encoder (n : net) (c : choice) (i w : nat) : outcome nat :=
  do x <- norm n c w;
  do x <- attention n c i x;
  do r <- badd w x;
  do x <- norm n c r;
  do m <- mid_mask n c i;
  do k <- masked (rmul (n_width n) (n_max_ratio n)) m;
  do e <- masked (n_width n) (embed_mask n c);
  do x <- linear e k x;
  do x <- linear k e x;
  badd r x.
(** DynamicSequential.forward from layer [i] on. *)
Fixpoint run_layers (n : net) (c : choice) (left_ i w : nat) : outcome nat :=
  match left_ with O => Ok w | S l => do w' <- encoder n c i w; run_layers n c l (S i) w' end.
(** forward (352-375) on images of [ch] channels, height [h] and width [w]: the number of features returned for each image. *)
Definition forward (n : net) (c : choice) (ch h w : nat) : outcome nat :=
  do e <- masked (n_width n) (embed_mask n c);
  do _ <- (if (ch =? n_in n) && (16 <=? h) && (16 <=? w) then Ok tt else Raise RuntimeError);
  let tokens := (h / 16) * (w / 16) + 1 in
  let cls := Nat.min (width n c) (n_width n) in
  do x <- (if e =? cls then Ok e else Raise RuntimeError);
  do _ <- badd tokens (n_patches n + 1);
  do x <- badd x cls;
  do x <- run_layers n c (Nat.min (c_depth c) (n_layers n)) 0 x;
  if n_norm n then norm n c x else Ok x.
End Autoformer.
