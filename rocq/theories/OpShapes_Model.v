(** Shapes through the searchable operations: mmrazor/models/architectures/ops/
    {base,common,darts_series,efficientnet_series,mobilenet_series,shufflenet_series}.py.

    A feature map is its number of channels, its height and its width; the batch and the values are left out.  Activations,
    dropout, drop path and checkpointing do not change shapes.  [conv_cfg] and [norm_cfg] are the defaults (Conv2d and BN). *)
From Coq Require Import List ZArith Bool.
From Verif Require Import Prelude.
Import ListNotations.
Local Open Scope Z_scope.

Record fmap := { ch : Z; ht : Z; wd : Z }.
(** The constructor of nn.Conv2d. *)
Definition conv_new (i o g : Z) : outcome unit :=
  if (g <=? 0) || negb (i mod g =? 0) || negb (o mod g =? 0) then Raise ValueError else Ok tt.
(** F.conv2d with [i] input and [o] output channels, kernel [k], stride [s], padding [p] and dilation [d]. *)
Definition conv (i o k s p d : Z) (x : fmap) : outcome fmap :=
  if negb (ch x =? i) || (ht x + 2 * p <? d * (k - 1) + 1) || (wd x + 2 * p <? d * (k - 1) + 1) then Raise RuntimeError
  else Ok {| ch := o; ht := (ht x + 2 * p - d * (k - 1) - 1) / s + 1; wd := (wd x + 2 * p - d * (k - 1) - 1) / s + 1 |}.
(** Batch normalisation of [n] channels; a squeeze-and-excitation layer of [n] channels accepts the same. *)
Definition bn (n : Z) (x : fmap) : outcome fmap := if ch x =? n then Ok x else Raise RuntimeError.
(** Pooling with kernel [k], stride [s] and padding [p]. *)
Definition pool (k s p : Z) (x : fmap) : outcome fmap :=
  if (k <? 2 * p) then Raise RuntimeError else
  let oh := (ht x + 2 * p - k) / s + 1 in
  let ow := (wd x + 2 * p - k) / s + 1 in
  if (oh <? 1) || (ow <? 1) then Raise RuntimeError else Ok {| ch := ch x; ht := oh; wd := ow |}.
(** Addition broadcasts sizes of 1. *)
Definition badd1 (a b : Z) : outcome Z := if a =? b then Ok a else if a =? 1 then Ok b else if b =? 1 then Ok a else Raise RuntimeError.
Definition badd (x y : fmap) : outcome fmap :=
  do c <- badd1 (ch x) (ch y); do h <- badd1 (ht x) (ht y); do w <- badd1 (wd x) (wd y); Ok {| ch := c; ht := h; wd := w |}.
(** In-place addition: the result must have the shape of the left operand. *)
Definition iadd (x y : fmap) : outcome fmap :=
  do z <- badd x y; if (ch z =? ch x) && (ht z =? ht x) && (wd z =? wd x) then Ok z else Raise RuntimeError.
(** torch.cat along the channels. *)
Definition cat (x y : fmap) : outcome fmap :=
  if (ht x =? ht y) && (wd x =? wd y) then Ok {| ch := ch x + ch y; ht := ht x; wd := wd x |} else Raise RuntimeError.
(** x.chunk(2, dim=1) unpacked into two. *)
Definition chunk2 (x : fmap) : outcome (fmap * fmap) :=
  let n := (ch x + 1) / 2 in
  if ch x <? 2 then Raise ValueError
  else Ok ({| ch := n; ht := ht x; wd := wd x |}, {| ch := ch x - n; ht := ht x; wd := wd x |}).
(** mmcls channel_shuffle with 2 groups. *)
Definition shuffle2 (x : fmap) : outcome fmap := do _ <- assert_ (ch x mod 2 =? 0); Ok x.
(** x[:, :, 1:, 1:] and x[:, :, ::s, ::s]. *)
Definition crop (x : fmap) : fmap := {| ch := ch x; ht := ht x - 1; wd := wd x - 1 |}.
Definition strided (s : Z) (x : fmap) : fmap := {| ch := ch x; ht := (ht x + s - 1) / s; wd := (wd x + s - 1) / s |}.

(** The operations with their own arguments; BaseOP (ops/base.py 5-19) adds channels and stride. *)
Inductive op :=
| ShuffleBlock (k : Z)
| ShuffleXception
| MBBlock (k expand : Z) (se attentive : bool)
| IdentityOp
| ConvBnAct (k dilation padding : Z) (skip : bool)
| DepthwiseSeparableConv (dwk dilation : Z) (noskip : bool) (pwk : Z) (se : bool)
| DartsPoolBN (k : Z)
| DartsDilConv (k : Z)
| DartsSepConv (k : Z)
| DartsSkipConnect
| DartsZero.
Record args := { a_in : Z; a_out : Z; a_stride : Z }.

(** ** Constructors *)
(** shufflenet_series.py 37-117 and 158-241. *)
Definition new_shuffle (c : args) : outcome unit :=
  let b := a_out c / 2 in
  do _ <- (if a_stride c =? 1 then assert_ (a_in c =? b * 2) else Ok tt);
  do _ <- (if negb (a_in c =? b * 2) then assert_ (negb (a_stride c =? 1)) else Ok tt);
  do _ <- (if 1 <? a_stride c then conv_new (a_in c) (a_in c) (a_in c) else Ok tt);
  conv_new b b b.
Definition new_op (o : op) (c : args) : outcome unit :=
  match o with
  | ShuffleBlock k => do _ <- assert_ ((k =? 3) || (k =? 5) || (k =? 7)); new_shuffle c
  | ShuffleXception => do _ <- new_shuffle c; if 1 <? a_stride c then conv_new (a_in c) (a_in c) (a_in c) else Ok tt
  (** mobilenet_series.py 22-41 and 94-163. *)
  | MBBlock _ e _ attentive =>
      do _ <- (if attentive then assert_ ((a_stride c =? 1) || (a_stride c =? 2)) else Ok tt);
      do _ <- assert_ ((a_stride c =? 1) || (a_stride c =? 2));
      conv_new (a_in c * e) (a_in c * e) (a_in c * e)
  | IdentityOp => Ok tt
  | ConvBnAct _ _ _ _ => Ok tt
  | DepthwiseSeparableConv _ _ _ _ _ => conv_new (a_in c) (a_in c) (a_in c)
  | DartsPoolBN _ => Ok tt
  (** darts_series.py 44-69 and 81-119. *)
  | DartsDilConv k =>
      do _ <- assert_ ((k =? 3) || (k =? 5)); do _ <- assert_ ((a_stride c =? 1) || (a_stride c =? 2)); conv_new (a_in c) (a_in c) (a_in c)
  | DartsSepConv k =>
      do _ <- assert_ ((k =? 3) || (k =? 5)); do _ <- assert_ ((a_stride c =? 1) || (a_stride c =? 2));
      do _ <- conv_new (a_in c) (a_in c) (a_in c); conv_new (a_in c) (a_out c) (a_in c)
  | DartsSkipConnect => Ok tt
  | DartsZero => Ok tt
  end.

(** ** Forwards *)
(** branch1 and branch2 of the shuffle blocks. *)
Definition branch1 (k : Z) (c : args) (x : fmap) : outcome fmap :=
  do y <- conv (a_in c) (a_in c) k (a_stride c) (k / 2) 1 x; conv (a_in c) (a_out c / 2) 1 1 0 1 y.
Definition branch2 (k : Z) (c : args) (x : fmap) : outcome fmap :=
  let b := a_out c / 2 in
  do y <- conv (if 1 <? a_stride c then a_in c else b) b 1 1 0 1 x;
  do z <- conv b b k (a_stride c) (k / 2) 1 y;
  conv b b 1 1 0 1 z.
(** A DepthwiseSeparableConvModule with kernel 3 and padding 1. *)
Definition separable (i o s : Z) (x : fmap) : outcome fmap := do y <- conv i i 3 s 1 1 x; conv i o 1 1 0 1 y.
Definition branch2x (c : args) (x : fmap) : outcome fmap :=
  let b := a_out c / 2 in
  do y <- separable (if 1 <? a_stride c then a_in c else b) b (a_stride c) x;
  do z <- separable b b 1 y;
  separable b b 1 z.
(** shufflenet_series.py 119-137 and 243-261. *)
Definition shuffle_forward (k : Z) (b2 : args -> fmap -> outcome fmap) (c : args) (x : fmap) : outcome fmap :=
  do out <- (if 1 <? a_stride c then do y <- branch1 k c x; do z <- b2 c x; cat y z
             else do (x1, x2) <- chunk2 x; do z <- b2 c x2; cat x1 z);
  shuffle2 out.
(** ShortcutLayer.forward (mobilenet_series.py 43-64) without mutables. *)
Definition shortcut (c : args) (x : fmap) : outcome fmap :=
  do y <- (if 1 <? a_stride c then pool (a_stride c) (a_stride c) (wd x mod 2) x else Ok x);
  if negb (a_in c =? a_out c) then conv (a_in c) (a_out c) 1 1 0 1 y else Ok y.
(** mobilenet_series.py 175-213. *)
Definition mb_forward (k e : Z) (se attentive : bool) (c : args) (x : fmap) : outcome fmap :=
  let mid := a_in c * e in
  do y <- (if negb (mid =? a_in c) then conv (a_in c) mid 1 1 0 1 x else Ok x);
  do y <- conv mid mid k (a_stride c) (k / 2) 1 y;
  do y <- (if se then bn mid y else Ok y);
  do y <- conv mid (a_out c) 1 1 0 1 y;
  if (a_stride c =? 1) && (a_in c =? a_out c) && negb attentive then badd x y
  else if attentive then do sx <- shortcut c x; badd sx y
  else Ok y.
(** efficientnet_series.py 70-76: the squeeze-and-excitation layer is not called. *)
Definition cba_forward (k d p : Z) (skip : bool) (c : args) (x : fmap) : outcome fmap :=
  do y <- conv (a_in c) (a_out c) k (a_stride c) p d x;
  if skip && (a_stride c =? 1) && (a_in c =? a_out c) then iadd y x else Ok y.
(** efficientnet_series.py 158-165. *)
Definition ds_forward (k d : Z) (noskip : bool) (pwk : Z) (se : bool) (c : args) (x : fmap) : outcome fmap :=
  do y <- conv (a_in c) (a_in c) k (a_stride c) (k / 2) d x;
  do y <- (if se then bn (a_out c) y else Ok y);
  do y <- conv (a_in c) (a_out c) pwk 1 (pwk / 2) 1 y;
  if (a_stride c =? 1) && (a_in c =? a_out c) && negb noskip then iadd y x else Ok y.
(** darts_series.py 44-75. *)
Definition dil_forward (k : Z) (c : args) (x : fmap) : outcome fmap :=
  do y <- conv (a_in c) (a_in c) k (a_stride c) (k / 2 * 2) 2 x;
  do y <- conv (a_in c) (a_out c) 1 1 0 1 y;
  bn (a_in c) y.
(** darts_series.py 81-126. *)
Definition sep_forward (k : Z) (c : args) (x : fmap) : outcome fmap :=
  do y <- conv (a_in c) (a_in c) k (a_stride c) (k / 2) 1 x;
  do y <- conv (a_in c) (a_in c) 1 1 0 1 y;
  do y <- bn (a_in c) y;
  do y <- conv (a_in c) (a_out c) k 1 (k / 2) 1 y;
  do y <- conv (a_out c) (a_out c) 1 1 0 1 y;
  bn (a_out c) y.
(** darts_series.py 159-169; FactorizedReduce (darts_backbone.py 51-56) is the first case. *)
Definition factorized_reduce (i o : Z) (x : fmap) : outcome fmap :=
  do y <- conv i (o / 2) 1 2 0 1 x;
  do z <- conv i (o / 2) 1 2 0 1 (crop x);
  do w <- cat y z;
  bn o w.
Definition skip_forward (c : args) (x : fmap) : outcome fmap :=
  if 1 <? a_stride c then factorized_reduce (a_in c) (a_out c) x else Ok x.
Definition forward_op (o : op) (c : args) (x : fmap) : outcome fmap :=
  match o with
  | ShuffleBlock k => shuffle_forward k (branch2 k) c x
  | ShuffleXception => shuffle_forward 3 branch2x c x
  | MBBlock k e se attentive => mb_forward k e se attentive c x
  (** common.py 45-48. *)
  | IdentityOp => if negb (a_stride c =? 1) || negb (a_in c =? a_out c) then conv (a_in c) (a_out c) 1 (a_stride c) 0 1 x else Ok x
  | ConvBnAct k d p skip => cba_forward k d p skip c x
  | DepthwiseSeparableConv k d noskip pwk se => ds_forward k d noskip pwk se c x
  (** darts_series.py 32-38. *)
  | DartsPoolBN k => do y <- pool k (a_stride c) 1 x; bn (a_out c) y
  | DartsDilConv k => dil_forward k c x
  | DartsSepConv k => sep_forward k c x
  | DartsSkipConnect => skip_forward c x
  (** darts_series.py 178-181. *)
  | DartsZero => if a_stride c =? 1 then Ok x else Ok (strided (a_stride c) x)
  end.

(** ** Searchable backbones: searchable_shufflenet_v2.py and searchable_mobilenet_v2.py *)
(** A stage is given by its channels (after the width factor), its number of blocks and the stride of the first block. *)
Record stage := { st_out : Z; st_blocks : nat; st_stride : Z }.
(** _make_layer (searchable_shufflenet_v2.py 137-166, searchable_mobilenet_v2.py 159-191): the arguments of the blocks of
    a stage, and self.in_channels afterwards. *)
Fixpoint make_layer (blocks : nat) (i o s : Z) : list args * Z :=
  match blocks with
  | O => ([], i)
  | S r => let '(rest, last) := make_layer r o o 1 in ({| a_in := i; a_out := o; a_stride := s |} :: rest, last)
  end.
Fixpoint make_layers (stages : list stage) (i : Z) : list (list args) * Z :=
  match stages with
  | [] => ([], i)
  | st :: r => let '(l, i') := make_layer (st_blocks st) i (st_out st) (st_stride st) in
               let '(ls, last) := make_layers r i' in (l :: ls, last)
  end.
(** Every block is built with every candidate. *)
Definition all_ok {X} (f : X -> outcome unit) (l : list X) : outcome unit := fold_right (fun x o => do _ <- f x; o) (Ok tt) l.
Record net := { n_first : Z; n_layers : list (list args); n_last : option (Z * Z); n_outs : list nat }.
(** __init__ (73-135 and 76-157): [limit] is the number of layers that out_indices is checked against. *)
Definition build_net (cands : list op) (first : Z) (stages : list stage) (last : option Z) (limit : nat) (outs : list nat) : outcome net :=
  if negb (forallb (fun i => Nat.ltb i limit) outs) then Raise ValueError else
  let '(layers, i) := make_layers stages first in
  do _ <- all_ok (all_ok (fun c => all_ok (fun o => new_op o c) cands)) layers;
  Ok {| n_first := first; n_layers := layers; n_last := match last with Some o => Some (i, o) | None => None end; n_outs := outs |}.
(** The forward of a subnet: [pick i j] is the candidate chosen for block [j] of stage [i]. *)
Fixpoint run_blocks (pick : nat -> op) (j : nat) (l : list args) (x : fmap) : outcome fmap :=
  match l with [] => Ok x | c :: r => do y <- forward_op (pick j) c x; run_blocks pick (S j) r y end.
(** The loop of forward (201-215 and 193-208): the maps behind the layers whose index is in out_indices. *)
Definition keep (outs : list nat) (i : nat) (x : fmap) : list fmap := if existsb (Nat.eqb i) outs then [x] else [].
Fixpoint run_layers (pick : nat -> nat -> op) (outs : list nat) (i : nat) (ls : list (list args)) (last : option (Z * Z)) (x : fmap) : outcome (list fmap) :=
  match ls with
  | [] => match last with
          | None => Ok []
          | Some (a, b) => do y <- conv a b 1 1 0 1 x; Ok (keep outs i y)
          end
  | l :: r => do y <- run_blocks (pick i) 0 l x; do rest <- run_layers pick outs (S i) r last y; Ok (keep outs i y ++ rest)
  end.
Definition run_net (n : net) (pick : nat -> nat -> op) (x : fmap) : outcome (list fmap) :=
  do y <- conv 3 (n_first n) 3 2 1 1 x; run_layers pick (n_outs n) 0 (n_layers n) (n_last n) y.

(** ** Freezing *)
(** A submodule of a stage: whether it is a batch norm, whether it is in training mode and whether its parameters
    require gradients. *)
Record sub := { is_bn : bool; training : bool; grad : bool }.
Record backbone := { b_conv1 : list sub; b_layers : list (list sub); b_tail : list sub }.
Definition set_training (m : bool) (u : sub) : sub := {| is_bn := is_bn u; training := m; grad := grad u |}.
Definition no_grad (u : sub) : sub := {| is_bn := is_bn u; training := training u; grad := false |}.
Definition map_backbone (f : sub -> sub) (b : backbone) : backbone :=
  {| b_conv1 := map f (b_conv1 b); b_layers := map (map f) (b_layers b); b_tail := map f (b_tail b) |}.
(** The two kinds: ShuffleNet keeps a module list that ends with the last convolution (if any); MobileNet looks its layers up
    by name, so that its last convolution [b_tail] cannot be frozen. *)
Inductive kind := Shuffle | Mobile.
(** The loop of _freeze_stages (searchable_shufflenet_v2.py 168-178, searchable_mobilenet_v2.py 210-219). *)
Fixpoint freeze_first (e : exn) (n : nat) (ls : list (list sub)) : outcome (list (list sub)) :=
  match n, ls with
  | O, _ => Ok ls
  | S _, [] => Raise e
  | S r, l :: t => do t' <- freeze_first e r t; Ok (map (fun u => no_grad (set_training false u)) l :: t')
  end.
Definition freeze_stages (k : kind) (frozen : Z) (b : backbone) : outcome backbone :=
  let c1 := if 0 <=? frozen then map no_grad (b_conv1 b) else b_conv1 b in
  do ls <- freeze_first (match k with Shuffle => IndexError | Mobile => AttributeError end) (Z.to_nat frozen) (b_layers b);
  Ok {| b_conv1 := c1; b_layers := ls; b_tail := b_tail b |}.
(** train (217-225 and 221-229). *)
Definition train (k : kind) (frozen : Z) (norm_eval mode : bool) (b : backbone) : outcome backbone :=
  do b <- freeze_stages k frozen (map_backbone (set_training mode) b);
  Ok (if mode && norm_eval then map_backbone (fun u => if is_bn u then set_training false u else u) b else b).
Fixpoint trains (k : kind) (frozen : Z) (norm_eval : bool) (modes : list bool) (b : backbone) : outcome backbone :=
  match modes with [] => Ok b | m :: r => do b <- train k frozen norm_eval m b; trains k frozen norm_eval r b end.
