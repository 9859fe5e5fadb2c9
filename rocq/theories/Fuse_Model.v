(** Model of the filter fusion of DCFF: FuseConvMixin in
    models/architectures/dynamic_ops/mixins/dynamic_conv_mixins.py, FuseConv2d in
    bricks/dynamic_conv.py, models/mutators/channel_mutator/dcff_channel_mutator.py and
    [_calc_temperature] of models/algorithms/pruning/dcff.py.

    Numbers are real numbers; rounding and overflow are not modelled. *)
From Coq Require Import Reals.
From Verif Require Import Prelude Dynamic_Model.
Local Open Scope R_scope.

(** ** A FuseConv2d *)
(** The weight has shape [f_out][f_cin][f_kh][f_kw] with [f_cin] input channels per group; a
    filter is one row of [f_cin * f_kh * f_kw] numbers.  The masks are those of the registered
    mutables. *)
Record fconv : Type := {
  f_in : nat; f_out : nat; f_groups : nat; f_cin : nat; f_kh : nat; f_kw : nat;
  f_rows : list (list R); f_bias : option (list R);
  f_in_mut : option (list bool); f_out_mut : option (list bool) }.
(** A weight of its own, with its bias. *)
Record params : Type := {
  p_out : nat; p_cin : nat; p_kh : nat; p_kw : nat; p_rows : list (list R); p_bias : option (list R) }.
Definition own_params (c : fconv) : params :=
  {| p_out := f_out c; p_cin := f_cin c; p_kh := f_kh c; p_kw := f_kw c; p_rows := f_rows c; p_bias := f_bias c |}.

(** ** Choosing the mixture: dynamic_conv_mixins.py:534-572 *)
Definition rsum (l : list R) : R := fold_right Rplus 0 l.
Definition mean (l : list R) : R := rsum l / INR (length l).
(** 548: one entry of [torch.cdist(..., p=2)]. *)
Definition cdist (a b : list R) : R := sqrt (rsum (map (fun p => (fst p - snd p) ^ 2) (combine a b))).
(** 550: [nn.Softmax(dim=1)], one row. *)
Definition softmax (l : list R) : list R := map (fun x => exp x / rsum (map exp l)) l.
(** 547-551: the matrix [layeri_softmaxp]. *)
Definition softmaxp (rows : list (list R)) (tau : R) : list (list R) :=
  map (fun a => softmax (map (fun b => - cdist a b / tau) rows)) rows.
Definition eps : R := / 10000000.
(** 559-564 and 568: the scores.  [log_q] multiplies entry k of a row with entry k of the vector
    of row means. *)
Definition row_means (p : list (list R)) : list R := map (fun row => mean (map (fun x => ln (x + eps)) row)) p.
Definition iscore (p : list (list R)) : list R :=
  map (fun row =>
         let log_p := map (fun x => x * ln (x + eps)) row in
         let log_q := map (fun x => fst x * snd x) (combine row (row_means p)) in
         mean (map (fun x => fst x - snd x) (combine log_p log_q))) p.
Section Fuse.
(** [torch.topk(scores, k, sorted=False)[1]] for [k <= len]. *)
Variable topk : list R -> nat -> list nat.
(** 534-572, [get_pooled_channel]: without an 'out_channels' mutable KeyError. *)
Definition get_pooled (c : fconv) (tau : R) : outcome (list (list R)) :=
  match f_out_mut c with
  | None => Raise KeyError
  | Some m =>
      let p := softmaxp (f_rows c) tau in
      let k := count_true m in
      if Nat.ltb (length p) k then Raise RuntimeError
      else Ok (map (fun i => nth i p []) (topk (iscore p) k))
  end.

(** ** Mixing the filters: dynamic_conv_mixins.py:444-496 *)
(** One row of [torch.mm(a, b)] for [b] with rows of length [n]. *)
Definition mm_row (a : list R) (b : list (list R)) (n : nat) : list R :=
  map (fun j => rsum (map (fun p => fst p * nth j (snd p) 0) (combine a b))) (seq 0 n).
(** [torch.mm]: every row of [a] must have as many entries as [b] has rows. *)
Definition mm (a b : list (list R)) (n : nat) : outcome (list (list R)) :=
  if forallb (fun r => Nat.eqb (length r) (length b)) a then Ok (map (fun r => mm_row r b n) a) else Raise RuntimeError.
(** 454-468: the number of active channels; an empty mask counts as all. *)
Definition active (m : option (list bool)) (all : nat) : nat :=
  match m with
  | None => all
  | Some m => if Nat.eqb (count_true m) 0 then all else count_true m
  end.
(** [reshape(-1, cin, k, k)] of a tensor with rows [rows] of [n] entries each. *)
Definition reshape_k (rows : list (list R)) (n cin k : nat) : outcome (list (list R)) :=
  let piece := (cin * k * k)%nat in
  if Nat.eqb piece 0 then Raise RuntimeError
  else if Nat.eqb ((length rows * n) mod piece) 0 then Ok (chunks ((length rows * n) / piece) piece (concat rows))
  else Raise RuntimeError.
(** 444-496, [_get_dynamic_params_by_mutable_channels_choice]. *)
Definition fuse (c : fconv) (choice : list (list R)) : outcome params :=
  let min := active (f_in_mut c) (f_in c) in
  let mout := active (f_out_mut c) (f_out c) in
  if Nat.eqb min (f_in c) && Nat.eqb mout (f_out c) then Ok (own_params c)
  else
    let cin := Nat.min min (f_cin c) in
    let n := (cin * f_kh c * f_kw c)%nat in
    let weight := map (firstn n) (f_rows c) in
    if Nat.eqb (f_groups c) 1 || (Nat.eqb (f_groups c) (f_in c) && Nat.eqb (f_in c) (f_out c)) then
      do fused <- mm choice weight n;
      do rows <- reshape_k fused n cin (f_kh c);
      do bias <- (match f_bias c with
                  | None => Ok None
                  | Some b => do s <- mm choice (map (fun x => [x]) b) 1; Ok (Some (map (fun r => nth 0 r 0) s))
                  end);
      Ok {| p_out := length rows; p_cin := cin; p_kh := f_kh c; p_kw := f_kh c; p_rows := rows; p_bias := bias |}
    else Raise NotImplementedError.

(** ** Forward and export *)
(** [F.conv2d] with the settings of the layer, the number of groups and the input. *)
Variable X : Type.
Variable channels : X -> nat.
Variable conv2d : params -> nat -> X -> outcome X.
Definition depthwise (c : fconv) : bool := Nat.eqb (f_groups c) (f_in c) && Nat.eqb (f_in c) (f_out c).
(** 197-205, [forward_mixin], once [set_forward_args] has stored [choice] (421-428). *)
Definition fuse_forward (c : fconv) (choice : list (list R)) (x : X) : outcome X :=
  do p <- fuse c choice;
  conv2d p (if depthwise c then channels x else f_groups c) x.
Record static_conv : Type := { k_in : nat; k_out : nat; k_groups : nat; k_params : params }.
(** 498-532, [to_static_op]; [fixed] says whether every mutable that is checked is fixed.  The
    constructor of nn.Conv2d wants positive groups dividing both channel numbers. *)
Definition fuse_static (c : fconv) (fixed : bool) (choice : list (list R)) : outcome static_conv :=
  if fixed then
    do p <- fuse c choice;
    let groups := match f_in_mut c with
                  | Some m => if depthwise c then count_true m else f_groups c
                  | None => f_groups c
                  end in
    if Nat.eqb groups 0 then Raise ValueError
    else if Nat.eqb (p_out p mod groups) 0
    then Ok {| k_in := p_cin p * groups; k_out := p_out p; k_groups := groups; k_params := p |}
    else Raise ValueError
  else Raise RuntimeError.
(** forward of nn.Conv2d. *)
Definition static_forward (s : static_conv) (x : X) : outcome X := conv2d (k_params s) (k_groups s) x.

(** ** The mutator: dcff_channel_mutator.py:34-47 *)
(** A module of [output_related]: a FuseConv2d with the choice its forward uses, or another. *)
Inductive fmodule : Type := FConv (c : fconv) (choice : option (list (list R))) | FOther.
Definition refresh (tau : R) (m : fmodule) : outcome fmodule :=
  match m with
  | FConv c _ => do p <- get_pooled c tau; Ok (FConv c (Some p))
  | FOther => Ok FOther
  end.
Definition calc_information (tau : R) (units : list (list fmodule)) : outcome (list (list fmodule)) :=
  mapM (mapM (refresh tau)) units.
End Fuse.

(** ** The temperature: dcff.py:66-75, with [math.exp] exact. *)
Definition calc_temperature (cur max : nat) : outcome R :=
  let t_s := 1 in let t_e := 10000 in let k := 1 in
  if Nat.eqb max 0 then Raise ZeroDivisionError
  else
    let A := 2 * (t_e - t_s) * (1 + exp (- k * INR max)) / (1 - exp (- k * INR max)) in
    let T := A / (1 + exp (- k * INR cur)) + t_s - A / 2 in
    Ok (1 / T).
