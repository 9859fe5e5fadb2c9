(** Small parts of models: architectures/ops/function.py and dynamic_ops/bricks/dynamic_function.py (input resizers), architectures/necks/squeezemean_with_dropout.py,
    architectures/generators/, task_modules/tracer/loss_calculator/, architectures/utils/set_dropout.py, and the methods train of algorithms and backbones. *)
From Coq Require Import String QArith Qround.
From Verif Require Import Prelude Onnx_Model.
Local Open Scope string_scope.
Local Open Scope list_scope.
Local Open Scope Z_scope.

(** ** Input resizers *)
(** What can be passed as a size; [STyping] is the object Optional[Tuple[int, int]]. *)
Inductive size_arg := SNone | SInt (n : Z) | SList (l : list Z) | STyping.
(** torch's functional.interpolate with an align_corners that is not None, of an image with those spatial sizes; [scale] is one factor. *)
Definition interpolate (mode : string) (size : size_arg) (scale : option Q) (dims : list Z) : outcome (list Z) :=
  if mem mode ["nearest"; "area"; "nearest-exact"] then Raise ValueError else
  do out <- (match size, scale with
             | SNone, None => Raise ValueError
             | SNone, Some q => Ok (Some (map (fun d => Qfloor (inject_Z d * q)) dims))
             | _, Some _ => Raise ValueError
             | SInt n, None => Ok (Some (map (fun _ => n) dims))
             | SList l, None => if (length l =? length dims)%nat then Ok (Some l) else Raise ValueError
             | STyping, None => Ok None
             end);
  let spatial := if String.eqb mode "linear" then 1%nat else if String.eqb mode "trilinear" then 3%nat else 2%nat in
  if negb (length dims =? spatial)%nat then Raise NotImplementedError else
  match out with
  | None => Raise TypeError
  | Some l => if forallb (fun n => 0 <? n) l then Ok l else Raise RuntimeError
  end.
Definition valid_types : list string := ["nearest"; "linear"; "bilinear"; "bicubic"; "trilinear"; "area"; "nearest-exact"].
(** function.py 14-31, InputResizer.__init__. *)
Record resizer := { r_mode : string; r_scale : option Q; r_size : size_arg }.
Definition make_resizer (mode : string) (scale : option Q) : outcome resizer :=
  if mem mode valid_types then Ok {| r_mode := mode; r_scale := scale; r_size := SNone |} else Raise ValueError.
(** function.py 33-42, forward. *)
Definition resize (r : resizer) (dims : list Z) (size : size_arg) : outcome (list Z) :=
  interpolate (r_mode r) (match size with SNone => r_size r | _ => size end) (r_scale r) dims.
Definition truthy (s : size_arg) : bool := match s with SNone => false | SInt n => negb (n =? 0) | SList l => negb (length l =? 0)%nat | STyping => true end.
(** dynamic_function.py 34-42, forward; [shape] is the current choice of the mutable, SNone without one (dynamic_mixins.py 436-441); [size] is None: not given. *)
Definition dynamic_resize (r : resizer) (shape : size_arg) (dims : list Z) (size : option size_arg) : outcome (list Z) :=
  let s := if truthy shape then shape else match size with Some s => s | None => STyping end in
  resize {| r_mode := r_mode r; r_scale := r_scale r; r_size := s |} dims s.
(** dynamic_mixins.py 443-455, to_static_op. *)
Definition to_static (r : resizer) (shape : size_arg) : resizer := {| r_mode := r_mode r; r_scale := r_scale r; r_size := shape |}.

(** ** The pooling neck *)
(** An array: a number, or arrays of one dimension less. *)
Inductive nd := Leaf (q : Q) | Node (l : list nd).
Definition value (t : nd) : Q := match t with Leaf q => q | Node _ => 0 end.
Definition mean_of (l : list Q) : Q := (fold_right Qplus 0 l / inject_Z (Z.of_nat (length l)))%Q.
Definition is_leaf (t : nd) : bool := match t with Leaf _ => true | Node _ => false end.
(** x.mean(i, keepdim=True) over the last dimension and squeeze(x, -1). *)
Fixpoint mean_last (t : nd) : nd :=
  match t with Leaf q => Leaf q | Node l => if forallb is_leaf l then Leaf (mean_of (map value l)) else Node (map mean_last l) end.
Fixpoint reduce_dims (n : nat) (t : nd) : nd := match n with O => t | S n => reduce_dims n (mean_last t) end.
(** squeezemean_with_dropout.py 27-33, dimension_reduction, of an array of [ndim] dimensions. *)
Definition dimension_reduction (x : nat * nd) : outcome nd := do _ <- assert_ (1 <? fst x)%nat; Ok (reduce_dims (fst x - 2) (snd x)).
Inductive neck_input := NTuple (l : list (nat * nd)) | NTensor (x : nat * nd) | NOther.
Inductive neck_output := OTuple (l : list nd) | OTensor (x : nd).
(** squeezemean_with_dropout.py 35-57, forward; [dropout] is F.dropout with that ratio. *)
Definition neck_forward (dropout : Q -> nd -> nd) (drop_ratio : option Q) (training : bool) (i : neck_input) : outcome neck_output :=
  let p := match drop_ratio with Some p => p | None => 0%Q end in
  let drop := negb (Qle_bool p 0) && training in
  match i with
  | NTuple l => do outs <- mapM dimension_reduction l; Ok (OTuple (if drop then map (dropout p) outs else outs))
  | NTensor x => do y <- dimension_reduction x; if drop then Ok (OTensor (dropout p y)) else Raise GenericException
  | NOther => Raise TypeError
  end.

(** ** Generators *)
(** base_generator.py 30-58, process_latent: the shape of the batch; latent data: none, a tensor of that shape, or something else (the local variable is then unbound). *)
Inductive latent := LNone | LTensor (shape : list Z) | LOther.
Definition process_latent (latent_dim : Z) (d : latent) (batch_size : Z) : outcome (Z * Z) :=
  match d with
  | LTensor (n :: c :: r) => do _ <- assert_ (c =? latent_dim); match r with [] => Ok (n, c) | _ => Raise ValueError end
  | LTensor _ => Raise IndexError
  | LNone => do _ <- assert_ (0 <? batch_size); Ok (batch_size, latent_dim)
  | LOther => Raise GenericException
  end.
(** dafl_generator.py 39-86 and zskt_generator.py 47-91: the shape of the images; layers are not built with sizes below one. *)
Definition generate (img_size latent_dim hidden scale : Z) (d : latent) (batch_size : Z) : outcome (Z * Z * Z * Z) :=
  if scale * scale =? 0 then Raise ZeroDivisionError else
  let init_size := img_size / (scale * scale) in
  do x <- process_latent latent_dim d batch_size;
  if (init_size <? 1) || (hidden / 2 <? 1) then Raise RuntimeError else Ok (fst x, 3, init_size * scale * scale, init_size * scale * scale).

(** ** Pseudo losses *)
(** What a model returns: a tensor with its elements, a list or tuple, a dictionary, or something else. *)
Inductive out := OTen (l : list Q) | OSeq (l : list out) | ODict (l : list (string * out)) | OElse.
(** sum_loss_calculator.py 26-42, _sum_of_output; the result, and whether it is a tensor (0 if there was none). *)
Fixpoint sum_of_output (o : out) : outcome (Q * bool) :=
  match o with
  | OTen l => Ok (fold_right Qplus 0%Q l, true)
  | OSeq l => (fix go (l : list out) (acc : Q * bool) := match l with [] => Ok acc | t :: r => do x <- sum_of_output t; go r ((fst acc + fst x)%Q, snd acc || snd x) end) l (0%Q, false)
  | ODict l => (fix go (l : list (string * out)) (acc : Q * bool) := match l with [] => Ok acc | kt :: r => do x <- sum_of_output (snd kt); go r ((fst acc + fst x)%Q, snd acc || snd x) end) l (0%Q, false)
  | OElse => Raise NotImplementedError
  end.

(** ** Drop path rates *)
(** set_dropout.py 7-35: layers of blocks, [Some r] for a block of the class with its rate. *)
Definition is_block (b : option Q) : bool := match b with Some _ => true | None => false end.
Definition blocks_in (l : list (option Q)) : nat := length (filter is_block l).
Fixpoint set_layer (rate : Q) (before total : nat) (i : nat) (l : list (option Q)) : list (option Q) :=
  match l with
  | [] => []
  | Some _ :: r => Some (rate * (inject_Z (Z.of_nat (before + i)) / inject_Z (Z.of_nat total)))%Q :: set_layer rate before total (S i) r
  | None :: r => None :: set_layer rate before total (S i) r
  end.
Fixpoint set_layers (rate : Q) (stages : list nat) (total : nat) (idx before : nat) (layers : list (list (option Q))) : list (list (option Q)) :=
  match layers with
  | [] => []
  | l :: r => (if existsb (Nat.eqb idx) stages then set_layer rate before total 0 l else l) :: set_layers rate stages total (S idx) (before + blocks_in l) r
  end.
Definition set_dropout (rate : Q) (stages : list nat) (layers : list (list (option Q))) : list (list (option Q)) :=
  set_layers rate stages (blocks_in (concat layers)) 1 0 layers.

(** ** Training and evaluation modes *)
(** A module: what it is, its flag, and its children.  A backbone has its stem first and then its stages; an algorithm has its architecture first; a distillation
    algorithm has its teacher first. *)
Inductive kind := KPlain | KNorm | KBackbone (frozen : nat) (norm_eval : bool) | KAlgorithm (norm_training whole : bool) | KDistill (teacher_norm_eval : bool).
Inductive mtree := MT (k : kind) (training : bool) (cs : list mtree).
(** for m in modules(): if isinstance(m, _BatchNorm): set it. *)
Fixpoint set_norms (b : bool) (t : mtree) : mtree :=
  match t with MT k f cs => MT k (match k with KNorm => b | _ => f end) (map (set_norms b) cs) end.
Definition on_first (f : mtree -> mtree) (l : list mtree) : list mtree := match l with [] => [] | x :: r => f x :: r end.
(** nn.Module.train and those that override it: searchable_mobilenet_v2.py 210-229, searchable_mobilenet_v3.py 335-366, searchable_shufflenet_v2.py 168-178 and
    217-225, spos.py 89-97, autoslim.py 162-175 (which is for all modules, [whole]), dsnas.py 108-116, darts.py 71-79, single_teacher_distill.py 150-156.  The stages that are frozen are set to evaluation again. *)
Fixpoint train (mode : bool) (t : mtree) : mtree :=
  match t with
  | MT k _ cs =>
    let cs1 := map (train mode) cs in
    match k with
    | KPlain | KNorm => MT k mode cs1
    | KBackbone frozen norm_eval =>
      let cs2 := firstn 1 cs1 ++ firstn frozen (tl (map (train false) cs)) ++ skipn frozen (tl cs1) in
      MT k mode (if mode && norm_eval then map (set_norms false) cs2 else cs2)
    | KAlgorithm norm_training whole => MT k mode (if norm_training && negb mode then (if whole then map (set_norms true) cs1 else on_first (set_norms true) cs1) else cs1)
    | KDistill norm_eval => MT k mode (if mode && norm_eval then on_first (set_norms false) cs1 else cs1)
    end
  end.
(** What the call returns: those that override the method return nothing. *)
Definition train_returns (mode : bool) (t : mtree) : option mtree := match t with MT (KPlain | KNorm) _ _ => Some (train mode t) | _ => None end.
