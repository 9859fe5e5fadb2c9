(** The WideResNet backbone (models/architectures/backbones/wideresnet.py), the demo inputs (models/task_modules/demo_inputs/) and version.py. *)
From Coq Require Import String Ascii.
From Verif Require Import Prelude Engine_Model.
Local Open Scope string_scope.
Local Open Scope list_scope.
Local Open Scope Z_scope.

(** ** WideResNet *)
(** The types of norm layers, and the names mmcv's build_norm_layer gives them. *)
Inductive norm_type := BN | SyncBN | GN | IN_ | LN.
Definition abbr (n : norm_type) : string := match n with BN | SyncBN => "bn" | GN => "gn" | IN_ => "in" | LN => "ln" end.
(** The shape of a batch: channels, height and width. *)
Definition shape := (Z * Z * Z)%type.
(** torch's Conv2d on shapes. *)
Definition conv (cin cout k s p d : Z) (x : shape) : outcome shape :=
  let '(c, h, w) := x in
  if negb (c =? cin) then Raise RuntimeError else
  if (h + 2 * p <? d * (k - 1) + 1) || (w + 2 * p <? d * (k - 1) + 1) then Raise RuntimeError else
  Ok (cout, (h + 2 * p - d * (k - 1) - 1) / s + 1, (w + 2 * p - d * (k - 1) - 1) / s + 1).
Definition norm (n : Z) (x : shape) : outcome shape := let '(c, _, _) := x in if c =? n then Ok x else Raise RuntimeError.
(** [out += x] on shapes. *)
Definition fits (a b : Z) : bool := (a =? b) || (b =? 1).
Definition iadd (out x : shape) : outcome shape :=
  let '(c, h, w) := out in let '(c', h', w') := x in if fits c c' && fits h h' && fits w w' then Ok out else Raise RuntimeError.
(** wideresnet.py 41-90, BasicBlock; [b_down] is the stride of the downsampling convolution, if there is one; rates are tenths of a percent. *)
Record block := { b_in : Z; b_out : Z; b_stride : Z; b_dilation : Z; b_drop : Z; b_norm : norm_type; b_down : option Z }.
(** 100-122, forward: it asks for bn1 and bn2, whatever the layers are called. *)
Definition block_forward (b : block) (x : shape) : outcome shape :=
  do _ <- (if String.eqb (abbr (b_norm b) ++ "1") "bn1" then Ok tt else Raise AttributeError);
  do identity <- norm (b_in b) x;
  do out <- conv (b_in b) (b_out b) 3 (b_stride b) (b_dilation b) (b_dilation b) identity;
  do out <- norm (b_out b) out;
  do out <- conv (b_out b) (b_out b) 3 1 1 1 out;
  match b_down b with Some s => do y <- conv (b_in b) (b_out b) 1 s 0 1 identity; iadd out y | None => iadd out x end.
(** 179-226, ResLayer; [droprate] is kept but not passed on. *)
Definition res_layer (n : norm_type) (num_blocks : nat) (cin cout : Z) (droprate stride dilation : Z) : list block :=
  let down := if negb (stride =? 1) || negb (cin =? cout) then Some stride else None in
  {| b_in := cin; b_out := cout; b_stride := stride; b_dilation := dilation; b_drop := let _ := droprate in 0; b_norm := n; b_down := down |} ::
  map (fun _ => {| b_in := cout; b_out := cout; b_stride := 1; b_dilation := dilation; b_drop := 0; b_norm := n; b_down := None |}) (seq 1 (num_blocks - 1)).
(** 262-268, arch_setting. *)
Definition arch_setting (depth : Z) : option (list nat) :=
  if depth =? 10 then Some [1; 1; 1]%nat else if depth =? 16 then Some [2; 2; 2]%nat else if depth =? 22 then Some [3; 3; 3]%nat
  else if depth =? 28 then Some [4; 4; 4]%nat else if depth =? 40 then Some [6; 6; 6]%nat else None.
(** 125-157, get_expansion of BasicBlock. *)
Definition get_expansion (widen_factor : Z) (expansion : option Z) : outcome Z :=
  match expansion with Some e => do _ <- assert_ (0 <? e); Ok e | None => Ok widen_factor end.
(** 319-341: the stages; afterwards the input channels of a next stage. *)
Fixpoint stages (n : norm_type) (blocks : list nat) (i : nat) (strides dilations : list Z) (cin cout : Z) : outcome (list (list block) * Z) :=
  match blocks with
  | [] => Ok ([], cout)
  | k :: r =>
    match nth_error strides i, nth_error dilations i with
    | Some s, Some d => do x <- stages n r (S i) strides dilations cout (cout * 2); Ok (res_layer n k cin cout 0 s d :: fst x, snd x)
    | _, _ => Raise IndexError
    end
  end.
Record net := { n_in : Z; n_stem : Z; n_layers : list (list block); n_feat : Z; n_norm1 : Z }.
(** 270-352, __init__: the stages are frozen before norm1 is there. *)
Definition wide (n : norm_type) (depth widen_factor in_channels stem_channels base_channels : Z) (expansion : option Z) (num_stages : Z) (strides dilations : list Z) (frozen_stages : Z) : outcome net :=
  match arch_setting depth with
  | None => Raise KeyError
  | Some bs =>
    let bs := firstn (slice_stop (length bs) num_stages) bs in
    do e <- get_expansion widen_factor expansion;
    do x <- stages n bs 0 strides dilations stem_channels (base_channels * e);
    if 0 <=? frozen_stages then Raise AttributeError else
    match rev (fst x) with
    | [] => Raise GenericException
    | l :: _ =>
      match rev l with
      | b :: _ => Ok {| n_in := in_channels; n_stem := stem_channels; n_layers := fst x; n_feat := b_out b; n_norm1 := snd x / 2 |}
      | [] => Raise IndexError
      end
    end
  end.
Fixpoint run_blocks (l : list block) (x : shape) : outcome shape := match l with [] => Ok x | b :: r => do y <- block_forward b x; run_blocks r y end.
(** 394-402, forward. *)
Definition wide_forward (m : net) (x : shape) : outcome shape :=
  do x <- conv (n_in m) (n_stem m) 3 1 1 1 x; do x <- run_blocks (concat (n_layers m)) x; norm (n_norm1 m) x.
(** The values of a block (100-122), with the numbers of norm2; [constant_init(m.norm2, 0)] of init_weights (377-392) sets both to 0. *)
Section Values.
Context {V : Type} (bn1 conv1 conv2 relu dropout normalize : V -> V) (scale : Z -> V -> V) (const : Z -> V) (add : V -> V -> V).
Definition bn2 (wb : Z * Z) (x : V) : V := add (scale (fst wb) (normalize x)) (const (snd wb)).
Definition block_value (wb : Z * Z) (down : option (V -> V)) (x : V) : V :=
  let identity := relu (bn1 x) in
  let out := conv2 (dropout (relu (bn2 wb (conv1 identity)))) in
  match down with Some f => add out (f identity) | None => add out x end.
Definition init_norm2 (pretrained zero_init_residual : bool) (wb : Z * Z) : Z * Z := if pretrained then wb else if zero_init_residual then (0, 0) else wb.
End Values.

(** ** Demo inputs *)
Inductive demo := DBase | DMM | DCls | DDet | DSeg | DRotate | DYolo | DPose.
(** default_shape, of the classes (demo_inputs.py 17 and 133). *)
Definition default_shape (d : demo) : list Z := match d with DYolo => [1; 3; 125; 320] | _ => [1; 3; 224; 224] end.
(** default_demo_inputs.py 36-54. *)
Definition scope_class (s : string) : option demo :=
  match find (fun p => String.eqb (fst p) s)
    [("mmcls", DCls); ("mmdet", DDet); ("mmseg", DSeg); ("mmrotate", DRotate); ("mmyolo", DYolo); ("mmpose", DPose); ("torchvision", DBase)] with
  | Some p => Some (snd p) | None => None end.
Definition type_class (mro : list string) : option demo :=
  match find (fun p => existsb (String.eqb (fst p)) mro)
    [("BaseDetector", DDet); ("ImageClassifier", DCls); ("BaseSegmentor", DSeg); ("TopdownPoseEstimator", DPose); ("BaseModel", DMM); ("Module", DBase)] with
  | Some p => Some (snd p) | None => None end.
(** 57-70, get_default_demo_input_class; [mro] are the classes of the model. *)
Definition demo_class (mro : list string) (scope : option string) : demo :=
  match (match scope with Some s => scope_class s | None => None end) with
  | Some d => d
  | None => match type_class mro with Some d => d | None => DBase end
  end.
(** What a model is known by: its classes, the input size (width, height) of its decoder and its number of classes. *)
Record dmodel := { m_mro : list string; m_size : Z * Z; m_classes : Z }.
(** What is made: the shape of the images, the number of samples (None: no samples), and whether the preprocessor is told it is training (None: there is none). *)
Record made := { d_shape : list Z; d_samples : option nat; d_training : option bool }.
Definition is_a (m : dmodel) (c : string) : bool := existsb (String.eqb c) (m_mro m).
(** demo_inputs.py 37-39 and 51-148, mmseg_demo_input.py 21-81, mmpose_demo_input.py 26-119 (for a head that is known), _get_data; shapes are of natural numbers. *)
Definition get_data (d : demo) (m : dmodel) (sh : list Z) (training : bool) : outcome made :=
  match d with
  | DBase => Ok {| d_shape := sh; d_samples := None; d_training := None |}
  | DMM => Ok {| d_shape := sh; d_samples := None; d_training := Some training |}
  | DCls =>
    match sh with
    | [] => Raise IndexError
    | n :: _ => if Z.of_nat (length sh) <? n then Raise IndexError else Ok {| d_shape := sh; d_samples := Some (Z.to_nat n); d_training := Some training |}
    end
  | DDet | DYolo => do _ <- assert_ (is_a m "BaseDetector"); Ok {| d_shape := 1 :: tl sh; d_samples := Some 1%nat; d_training := Some training |}
  | DRotate => Ok {| d_shape := 1 :: tl sh; d_samples := Some 1%nat; d_training := Some training |}
  | DSeg =>
    do _ <- assert_ (is_a m "BaseSegmentor");
    match sh with
    | [n; _; _; _] => if m_classes m - 1 <=? 0 then Raise RuntimeError else Ok {| d_shape := sh; d_samples := Some (Z.to_nat n); d_training := Some false |}
    | _ => Raise ValueError
    end
  | DPose =>
    do _ <- assert_ (is_a m "TopdownPoseEstimator");
    Ok {| d_shape := [1; 3; fst (m_size m); snd (m_size m)]; d_samples := Some 1%nat; d_training := Some (negb (length sh =? 0)%nat) |}
  end.
(** The constructors: BaseDemoInput's default is the shape of BaseDemoInput (demo_inputs.py 19-26); DefaultDemoInput (default_demo_inputs.py 82-103) asks the class of the scope. *)
Definition init_direct (d : demo) (input_shape : option (list Z)) : list Z := match input_shape with Some s => s | None => default_shape (let _ := d in DBase) end.
Definition init_default (scope : option string) (input_shape : option (list Z)) : list Z := match input_shape with Some s => s | None => default_shape (demo_class [] scope) end.
(** What a generator uses: get_data (28-35) and __call__ (41-45). *)
Definition used_shape (own : list Z) (given : option (list Z)) : list Z := match given with Some s => s | None => own end.
Definition used_shape_call (own : list Z) (given : option (list Z)) : list Z := used_shape own (Some (match given with Some s => s | None => [1; 3; 224; 224] end)).

(** ** Versions *)
Inductive part := Num (n : Z) | Rc (s : string).
Fixpoint has_rc (s : string) : bool := match s with String "r" (String "c" _) => true | String _ r => has_rc r | EmptyString => false end.
(** The first two parts of x.split('rc'). *)
Fixpoint before_rc (s : string) : string := match s with String "r" (String "c" _) => EmptyString | String a r => String a (before_rc r) | EmptyString => EmptyString end.
Fixpoint after_rc (s : string) : string := match s with String "r" (String "c" r) => before_rc r | String _ r => after_rc r | EmptyString => EmptyString end.
Definition digit (a : ascii) : bool := ((48 <=? nat_of_ascii a) && (nat_of_ascii a <=? 57))%nat.
Fixpoint all_digits (s : string) : bool := match s with EmptyString => true | String a r => digit a && all_digits r end.
Definition isdigit (s : string) : bool := match s with EmptyString => false | _ => all_digits s end.
(** version.py 6-24, parse_version_info, of ASCII strings. *)
Fixpoint parse_parts (l : list string) : outcome (list part) :=
  match l with
  | [] => Ok []
  | x :: r =>
    if isdigit x then do n <- py_int x; do t <- parse_parts r; Ok (Num n :: t)
    else if has_rc x then do n <- py_int (before_rc x); do t <- parse_parts r; Ok (Num n :: Rc ("rc" ++ after_rc x) :: t)
    else parse_parts r
  end.
Definition parse_version (s : string) : outcome (list part) := parse_parts (split "." s).
