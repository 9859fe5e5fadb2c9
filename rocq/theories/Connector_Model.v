(** Connectors of distillers: mmrazor/models/architectures/connectors/{byot,fbkd,crd,mgd}_connector.py and
    factor_transfer_connectors.py.

    Shapes are those of OpShapes_Model (channels, height, width; the batch is left out); activations and sigmoids do not
    change them.  math.log(out / in, 2) is the exact logarithm: that it is integral means that one of the two numbers is the
    other times a power of two.  Where values matter they are exact reals (or rationals) and torch.rand is an argument. *)
From Coq Require Import List ZArith QArith Bool Reals Lra.
From Verif Require Import Prelude OpShapes_Model Loss_Model.
Import ListNotations.
Local Open Scope Z_scope.

(* ------------------------------------------------------------------ *)
(** BYOTConnector (byot_connector.py 31-82). *)
Record byot := { b_in : Z; b_out : Z; b_classes : Z; b_expansion : Z; b_pool : Z; b_kernel : Z; b_stride : Z; b_doublings : nat }.
(** The number of halvings that lead from [a] down to [b], if there is one; [fuel] bounds the search. *)
Fixpoint halvings (fuel : nat) (a b : Z) : option nat :=
  if a =? b then Some 0%nat
  else match fuel with
       | O => None
       | S f => if a mod 2 =? 0 then match halvings f (a / 2) b with Some n => Some (S n) | None => None end else None
       end.
(** scala_num (byot_connector.py 52-53): log2 (out / in) as an integer. *)
Definition scala_num (i o : Z) : outcome Z :=
  if i =? 0 then Raise ZeroDivisionError
  else if (o =? 0) || negb (Bool.eqb (0 <? i) (0 <? o)) then Raise ValueError
  else match halvings (Z.to_nat (Z.log2 (Z.abs o))) o i with
       | Some n => Ok (Z.of_nat n)
       | None => match halvings (Z.to_nat (Z.log2 (Z.abs i))) i o with
                 | Some n => Ok (- Z.of_nat n)
                 | None => Raise AssertionError
                 end
       end.
(** The channels into the [k]-th separable convolution of [scala] (byot_connector.py 54-65). *)
Definition scala_in (b_in : Z) (expansion : Z) (k : nat) : Z := b_in * 2 ^ Z.of_nat k * expansion.
(** One DartsSepConv, built by new_op and run by sep_forward of OpShapes_Model. *)
Definition new_sep (k i o s : Z) : outcome unit := new_op (DartsSepConv k) {| a_in := i; a_out := o; a_stride := s |}.
Definition run_sep (k i o s : Z) : fmap -> outcome fmap := sep_forward k {| a_in := i; a_out := o; a_stride := s |}.
Fixpoint new_scala (k i e s : Z) (n : nat) (j : nat) : outcome unit :=
  match n with
  | O => Ok tt
  | S n' => do _ <- new_sep k (scala_in i e j) (scala_in i e (S j)) s; new_scala k i e s n' (S j)
  end.
Definition new_byot (i o classes e p k s : Z) : outcome byot :=
  do _ <- new_sep k (i * e) (i * e) s;
  do n <- scala_num i o;
  do _ <- new_scala k i e s (Z.to_nat n) 0;
  Ok {| b_in := i; b_out := o; b_classes := classes; b_expansion := e; b_pool := p; b_kernel := k; b_stride := s;
        b_doublings := Z.to_nat n |}.
(** nn.Upsample(scale_factor=2). *)
Definition upsample (x : fmap) : fmap := {| ch := ch x; ht := 2 * ht x; wd := 2 * wd x |}.
Fixpoint run_scala (k i e s : Z) (n : nat) (j : nat) (x : fmap) : outcome fmap :=
  match n with
  | O => Ok x
  | S n' => do y <- run_sep k (scala_in i e j) (scala_in i e (S j)) s x; run_scala k i e s n' (S j) y
  end.
(** nn.Linear(n, o) of a row of [len] features. *)
Definition linear (n o len : Z) : outcome Z := if len =? n then Ok o else Raise RuntimeError.
(** forward_train (byot_connector.py 70-82): the widths of [feat] and of [logits]. *)
Definition byot_forward (b : byot) (x : fmap) : outcome (Z * Z) :=
  let c := b_in b * b_expansion b in
  do a <- run_sep (b_kernel b) c c (b_stride b) x;
  do a <- bn c a;
  do f <- badd (upsample a) x;
  do f <- run_scala (b_kernel b) (b_in b) (b_expansion b) (b_stride b) (b_doublings b) 0 f;
  do f <- pool (b_pool b) (b_pool b) 0 f;
  let feat := ch f * ht f * wd f in
  do logits <- linear (b_out b * b_expansion b) (b_classes b) feat;
  Ok (feat, logits).

(* ------------------------------------------------------------------ *)
(** NonLocal2dMaxpoolNstride (fbkd_connector.py 39-70) on top of mmcv's NonLocal2d: with [sub_sample] the parent has put a
    2x2 max pooling behind [g] and [phi] (in mode gaussian, as [phi]) before this class puts its own behind what it finds. *)
Inductive nl_mode := Gaussian | EmbeddedGaussian | DotProduct | Concatenation.
(** The max poolings that a feature map goes through in [g] and in [phi]. *)
Record nonlocal := { nl_channels : Z; nl_inter : Z; nl_mode_of : nl_mode; nl_sub : bool; nl_g : list Z; nl_phi : list Z }.
Definition is_gaussian (m : nl_mode) : bool := match m with Gaussian => true | _ => false end.
Definition new_nonlocal (c reduction : Z) (m : nl_mode) (sub : bool) (stride : Z) : nonlocal :=
  let inter := if is_gaussian m then c else Z.max (c / reduction) 1 in
  let parent := {| nl_channels := c; nl_inter := inter; nl_mode_of := m; nl_sub := sub;
                   nl_g := if sub then [2] else []; nl_phi := if sub then [2] else [] |} in
  if sub then
    {| nl_channels := c; nl_inter := inter; nl_mode_of := m; nl_sub := sub; nl_g := nl_g parent ++ [stride];
       nl_phi := if is_gaussian m then [stride] else nl_phi parent ++ [stride] |}
  else parent.
Fixpoint pools (ks : list Z) (x : fmap) : outcome fmap :=
  match ks with [] => Ok x | k :: r => do y <- pool k k 0 x; pools r y end.
(** forward of mmcv's _NonLocalNd: every position of [x] is compared with the positions of [phi x] and receives a mixture of
    the positions of [g x]; the returned number is that of the positions that are mixed. *)
Definition nl_forward (n : nonlocal) (x : fmap) : outcome (fmap * Z) :=
  if negb (ch x =? nl_channels n) then Raise RuntimeError else
  do g <- pools (nl_g n) x;
  do p <- pools (nl_phi n) x;
  if (ht g * wd g =? ht p * wd p) then Ok (x, ht g * wd g) else Raise RuntimeError.

(* ------------------------------------------------------------------ *)
Local Open Scope R_scope.
(** The masks of FBKDStudentConnector and FBKDTeacherConnector (fbkd_connector.py 160-178 and 271-289).  A feature map is the
    list of its channels, each the list of its values row by row; [h] and [w] are its height and width. *)
Definition column (x : list (list R)) (j : nat) : list R := map (fun c => nth j c 0) x.
Definition spatial_mask (t : R) (h w : nat) (x : list (list R)) : list R :=
  let means := map (fun j => rmean (map Rabs (column x j))) (seq 0 (h * w)) in
  map (fun v => v * INR w * INR h) (softmax (divide t means)).
Definition channel_mask (t : R) (in_channels : nat) (x : list (list R)) : list R :=
  let means := map (fun c => rmean (map Rabs c)) x in
  map (fun v => v * INR in_channels) (softmax (divide t means)).
(** torch.mean(x, [1]) and torch.mean(x, [2, 3]) (fbkd_connector.py 182-188 and 292-293). *)
Definition spatial_pool (h w : nat) (x : list (list R)) : list R := map (fun j => rmean (column x j)) (seq 0 (h * w)).
Definition channel_pool (x : list (list R)) : list R := map rmean x.

(** CRDConnector (crd_connector.py 26-30) and Normalize with power 2 (crd_connector.py 44-47): a row of norm zero is divided by
    zero, which is what None stands for.  nn.Linear is [weight] and [bias]. *)
Definition row_norm (row : list R) : R := sqrt (rsum (map (fun v => v ^ 2) row)).
Definition normalize (row : list R) : option (list R) :=
  if Req_EM_T (row_norm row) 0 then None else Some (map (fun v => v / row_norm row) row).
Definition dot (a b : list R) : R := rsum (zipw Rmult a b).
Definition crd_forward (weight : list (list R)) (bias : list R) (x : list (list R)) : option (list R) :=
  let flat := concat x in
  normalize (zipw (fun w b => dot w flat + b) weight bias).

(** MGDConnector (mgd_connector.py 53-71): the masking between [align] and [generation].  [draws] are the values of torch.rand,
    one for each position, or one for each channel when [mask_on_channel]. *)
Definition keep_of (lambda : R) (r : R) : R := if Rlt_dec (1 - lambda) r then 0 else 1.
Definition mgd_masked (lambda : R) (on_channel : bool) (draws : list R) (x : list (list R)) : list (list R) :=
  let mat := map (keep_of lambda) draws in
  if on_channel then zipw (fun c m => map (fun v => v * m) c) x mat
  else map (fun c => zipw Rmult c mat) x.
(** forward_train with the convolutions as arguments; [align] is None when the numbers of channels agree. *)
Definition mgd_forward (align : option (list (list R) -> list (list R))) (generation : list (list R) -> list (list R))
    (lambda : R) (on_channel : bool) (draws : list R) (x : list (list R)) : list (list R) :=
  let x := match align with Some f => f x | None => x end in
  generation (mgd_masked lambda on_channel draws x).

(* ------------------------------------------------------------------ *)
Local Open Scope Z_scope.
(** Paraphraser (factor_transfer_connectors.py 12-97) and Translator (factor_transfer_connectors.py 100-133).  nn.ConvTranspose2d(i, o, 3, 1, 1). *)
Inductive phase := PhPretrain | PhTrain.
Record paraphraser := { p_in : Z; p_out : Z; p_phase : phase }.
Definition conv3 (i o : Z) : fmap -> outcome fmap := conv i o 3 1 1 1.
Definition conv_t3 (i o : Z) (x : fmap) : outcome fmap :=
  if negb (ch x =? i) then Raise RuntimeError
  else Ok {| ch := o; ht := (ht x - 1) * 1 - 2 * 1 + (3 - 1) + 1; wd := (wd x - 1) * 1 - 2 * 1 + (3 - 1) + 1 |}.
Definition encoder (i o : Z) (x : fmap) : outcome fmap :=
  do x <- conv3 i i x; do x <- bn i x; do x <- conv3 i o x; do x <- bn o x; do x <- conv3 o o x; bn o x.
Definition decoder (i o : Z) (x : fmap) : outcome fmap :=
  do x <- conv_t3 o o x; do x <- bn o x; do x <- conv_t3 o i x; do x <- bn i x; do x <- conv_t3 i i x; bn i x.
(** The shape of the result and whether gradients reach the connector. *)
Definition paraphrase (p : paraphraser) (x : fmap) : outcome (fmap * bool) :=
  match p_phase p with
  | PhTrain => do f <- encoder (p_in p) (p_out p) x; Ok (f, false)
  | PhPretrain => do f <- encoder (p_in p) (p_out p) x; do r <- decoder (p_in p) (p_out p) f; Ok (r, true)
  end.
Definition translate (i o : Z) (x : fmap) : outcome (fmap * bool) := do f <- encoder i o x; Ok (f, true).
