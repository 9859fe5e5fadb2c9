(** Data transforms: datasets/transforms/{auto_augment,auto_augmentv2,formatting}.py.  Numbers are exact rationals; PIL (from 5.2 on) is known by the calls it
    gets.  Random draws are arguments. *)
From Coq Require Import String QArith Qminmax.
From Verif Require Import Prelude Onnx_Model.
Local Open Scope string_scope.
Local Open Scope list_scope.
Local Open Scope Z_scope.

Definition Qltb (a b : Q) : bool := match (a ?= b)%Q with Lt => true | _ => false end.

(** ** Levels *)
(** auto_augment.py 272-275 and auto_augmentv2.py 67-72: [g] is what random.gauss gives. *)
Definition clip (g : Q) : Q := Qmin 10 (Qmax 0 g).
(** _randomly_negate (202-204; 74-76): [neg] says whether random.random() is above 0.5. *)
Definition negate (neg : bool) (v : Q) : Q := if neg then (- v)%Q else v.
(** auto_augment.py 278-319; auto_augmentv2.py 78-104 and the methods level_fn. *)
Definition rotate_level (l : Q) (neg : bool) : list Q := [negate neg (l / 10 * 30)%Q].
Definition enhance_level (l : Q) : list Q := [(l / 10 * (18 # 10) + (1 # 10))%Q].
Definition shear_level (l : Q) (neg : bool) : list Q := [negate neg (l / 10 * (3 # 10))%Q].
Definition translate_abs_level (l : Q) (neg : bool) : list Q := [negate neg (l / 10 * 250)%Q].
Definition translate_rel_level (l : Q) (neg : bool) : list Q := [negate neg (l / 10 * (45 # 100))%Q].
Definition conversion0 (l : Q) : list Q := [inject_Z (Qtrunc (l / 10 * 4) + 4)].
Definition conversion1 (l : Q) : list Q := [inject_Z (4 - Qtrunc (l / 10 * 4))].
Definition conversion2 (l : Q) : list Q := [inject_Z (Qtrunc (l / 10 * 256))].
Definition conversion3 (l : Q) : list Q := [inject_Z (Qtrunc (l / 10 * 110))].

(** ** Calls of PIL *)
Inductive fn := FAutoContrast | FEqualize | FInvert | FRotate | FPosterize | FSolarize | FSolarizeAdd | FEnhance (what : string)
| FShearX | FShearY | FTranslateX | FTranslateY | FTranslateXRel | FTranslateYRel.
Section Kw.
Context {F : Type}.
(** The keyword arguments fillcolor and resample. *)
Record kw := { fill : option F; resample : string }.
Inductive call := CAutoContrast | CEqualize | CInvert | CRotate (degrees : Q) (k : kw) | CPosterize (bits : Z) | CSolarize (thresh : Q) | CPoint (lut : list Z)
| CEnhance (what : string) (factor : Q) | CAffine (m : Q * Q * Q * Q * Q * Q) (k : kw) | CSame.
(** solarize_add (auto_augment.py 152-166; auto_augmentv2.py 380-400). *)
Definition lut256 (add : Z) : list Z := map (fun i => if i <? 128 then Z.min 255 (i + add) else i) (map Z.of_nat (seq 0 256)).
Definition solarize_add (mode : string) (add : Z) : call :=
  let lut := lut256 add in
  if String.eqb mode "L" then CPoint lut else if String.eqb mode "RGB" then CPoint (lut ++ lut ++ lut) else CSame.
(** posterize (auto_augment.py 169-175; auto_augmentv2.py 414-427). *)
Definition posterize (bits : Z) : call := if 8 <=? bits then CSame else CPosterize (Z.max 1 bits).
(** The functions auto_augment.py 44-199 and the methods __call__ of the classes of auto_augmentv2.py, of an image of that size and mode with the level [a]. *)
Definition run (f : fn) (size : Z * Z) (mode : string) (a : Q) (k : kw) : call :=
  match f with
  | FAutoContrast => CAutoContrast
  | FEqualize => CEqualize
  | FInvert => CInvert
  | FRotate => CRotate a k
  | FPosterize => posterize (Qtrunc a)
  | FSolarize => CSolarize a
  | FSolarizeAdd => solarize_add mode (Qtrunc a)
  | FEnhance w => CEnhance w a
  | FShearX => CAffine (1, a, 0, 0, 1, 0)%Q k
  | FShearY => CAffine (1, 0, 0, a, 1, 0)%Q k
  | FTranslateX => CAffine (1, 0, a, 0, 1, 0)%Q k
  | FTranslateY => CAffine (1, 0, 0, 0, 1, a)%Q k
  | FTranslateXRel => CAffine (1, 0, a * inject_Z (fst size), 0, 1, 0)%Q k
  | FTranslateYRel => CAffine (1, 0, 0, 0, 1, a * inject_Z (snd size))%Q k
  end.
End Kw.
Arguments kw : clear implicits.
Arguments call : clear implicits.

(** ** Operations *)
(** auto_augment.py 210-229, NAME_TO_OP. *)
Definition name_to_op : list (string * fn) :=
  [("AutoContrast", FAutoContrast); ("Equalize", FEqualize); ("Invert", FInvert); ("Rotate", FRotate); ("Posterize", FPosterize); ("Posterize2", FPosterize);
   ("Solarize", FSolarize); ("SolarizeAdd", FSolarizeAdd); ("Color", FEnhance "Color"); ("Contrast", FEnhance "Contrast"); ("Brightness", FEnhance "Brightness");
   ("Sharpness", FEnhance "Sharpness"); ("ShearX", FShearX); ("ShearY", FShearY); ("TranslateX", FTranslateX); ("TranslateY", FTranslateY);
   ("TranslateXRel", FTranslateXRel); ("TranslateYRel", FTranslateYRel)].
(** _get_magnitude (auto_augment.py 248-276): the level function of the name. *)
Definition level_args (name : string) (l : Q) (neg : bool) : list Q :=
  if existsb (String.eqb name) ["AutoContrast"; "Equalize"; "Invert"] then []
  else if String.eqb name "Rotate" then rotate_level l neg
  else if String.eqb name "Posterize" then conversion0 l
  else if String.eqb name "Posterize2" then conversion1 l
  else if String.eqb name "Solarize" then conversion2 l
  else if String.eqb name "SolarizeAdd" then conversion3 l
  else if existsb (String.eqb name) ["Color"; "Contrast"; "Brightness"; "Sharpness"] then enhance_level l
  else if existsb (String.eqb name) ["ShearX"; "ShearY"] then shear_level l neg
  else if existsb (String.eqb name) ["TranslateX"; "TranslateY"] then translate_abs_level l neg
  else translate_rel_level l neg.
Section Op.
Context {F : Type}.
Variable FILL : F.
(** resample: one mode, or a list or tuple of them. *)
Inductive interp := One (m : string) | Many (ms : list string).
(** hparams. *)
Record extra := { img_mean : option F; interpolation : option interp; translate_const : option Q }.
Record op := { aug_fn : fn; prob : Q; args : list Q; kwargs : F * interp }.
(** AutoAugmentOp.__init__ (auto_augment.py 209-246). *)
Definition op_init (h : extra) (name : string) (p : Q) (g : Q) (neg : bool) : outcome op :=
  match get name_to_op name with
  | None => Raise KeyError
  | Some f => Ok {| aug_fn := f; prob := p; args := level_args name (clip g) neg;
                    kwargs := (match img_mean h with Some c => c | None => FILL end,
                               match interpolation h with Some i => i | None => Many ["NEAREST"; "BILINEAR"; "BICUBIC"] end) |}
  end.
(** _interpolation and _check_args_tf (auto_augment.py 30-41) of those keyword arguments; [pick] is what random.choice draws. *)
Definition check_args (pick : nat) (k : F * interp) : outcome (kw F) :=
  match snd k with
  | One m => Ok {| fill := Some (fst k); resample := m |}
  | Many ms => match nth_error ms (Nat.modulo pick (length ms)) with
               | Some m => Ok {| fill := Some (fst k); resample := m |}
               | None => Raise IndexError
               end
  end.
Definition geometric (f : fn) : bool :=
  match f with FRotate | FShearX | FShearY | FTranslateX | FTranslateY | FTranslateXRel | FTranslateYRel => true | _ => false end.
(** auto_augment.py 327, self.aug_fn(img, *self.level_args, **self.kwargs); the functions that are not geometric do not look at their keyword arguments. *)
Definition call_of (o : op) (pick : nat) (size : Z * Z) (mode : string) : outcome (call F) :=
  do k <- (if geometric (aug_fn o) then check_args pick (kwargs o) else Ok {| fill := None; resample := "NEAREST" |});
  Ok (run (aug_fn o) size mode (hd 0%Q (args o)) k).

(** *** The second version *)
(** auto_augmentv2.py 108-518: the classes, with what they call and their level_fn; those without one do not use the magnitude. *)
Definition classes2 : list (string * fn) :=
  [("ShearX", FShearX); ("ShearY", FShearY); ("TranslateXRel", FTranslateXRel); ("TranslateYRel", FTranslateYRel); ("TranslateX", FTranslateX); ("TranslateY", FTranslateY);
   ("RotateV2", FRotate); ("AutoContrastV2", FAutoContrast); ("InvertV2", FInvert); ("EqualizeV2", FEqualize); ("SolarizeV2", FSolarize); ("SolarizeAddV2", FSolarizeAdd);
   ("PosterizeV2", FPosterize); ("ContrastV2", FEnhance "Contrast"); ("Color", FEnhance "Color"); ("BrightnessV2", FEnhance "Brightness"); ("SharpnessV2", FEnhance "Sharpness")].
Definition level2 (f : fn) (l : Q) (neg : bool) : list Q :=
  match f with
  | FShearX | FShearY => shear_level l neg
  | FTranslateXRel | FTranslateYRel => translate_rel_level l neg
  | FTranslateX | FTranslateY => translate_abs_level l neg
  | FRotate => rotate_level l neg
  | FAutoContrast | FInvert | FEqualize => []
  | FSolarize => conversion2 l
  | FSolarizeAdd => conversion3 l
  | FPosterize => conversion0 l
  | FEnhance _ => enhance_level l
  end.
(** auto_augmentv2.py 37-50, __init__; without an interpolation the attribute is a view of a dictionary, here left out as nothing reads it. *)
Record op2 := { aug_fn2 : fn; prob2 : Q; args2 : list Q; kwargs2 : F * option interp }.
Definition op2_init (h : extra) (cls : string) (p : Q) (g : Q) (neg : bool) : outcome op2 :=
  match get classes2 cls with
  | None => Raise KeyError
  | Some f => Ok {| aug_fn2 := f; prob2 := p; args2 := level2 f (clip g) neg; kwargs2 := (match img_mean h with Some c => c | None => FILL end, interpolation h) |}
  end.
(** auto_augmentv2.py, __call__(results): no keyword arguments are passed, so _check_args_tf (62-65) adds Image.NEAREST. *)
Definition call_of2 (o : op2) (size : Z * Z) (mode : string) : call F := run (aug_fn2 o) size mode (hd 0%Q (args2 o)) {| fill := None; resample := "NEAREST" |}.

(** ** Results *)
Context {Img : Type}.
Variables (pil : call F -> Img -> Img) (size : Img -> Z * Z) (mode : Img -> string).
(** auto_augment.py 325, for key in results.get('img_fields', ['img']); [n] counts the images. *)
Fixpoint on_fields (f : nat -> Img -> outcome Img) (n : nat) (keys : list string) (imgs : list (string * Img)) : outcome (list (string * Img)) :=
  match keys with
  | [] => Ok imgs
  | k :: ks => match get imgs k with
               | None => Raise KeyError
               | Some im => do im' <- f n im; on_fields f (S n) ks (put imgs k im')
               end
  end.
Definition fields_of (fields : option (list string)) : list string := match fields with Some l => l | None => ["img"] end.
(** AutoAugmentOp.transform (auto_augment.py 321-329); [u] is what random.random() gives. *)
Definition transform1 (fields : option (list string)) (u : Q) (pick : nat -> nat) (o : op) (imgs : list (string * Img)) : outcome (list (string * Img)) :=
  if Qltb (prob o) u then Ok imgs
  else on_fields (fun n im => do c <- call_of o (pick n) (size im) (mode im); Ok (pil c im)) 0 (fields_of fields) imgs.
(** The methods __call__ of auto_augmentv2.py. *)
Definition transform2 (fields : option (list string)) (u : Q) (o : op2) (imgs : list (string * Img)) : outcome (list (string * Img)) :=
  if Qltb (prob2 o) u then Ok imgs
  else on_fields (fun n im => Ok (pil (call_of2 o (size im) (mode im)) im)) 0 (fields_of fields) imgs.
(** AutoAugment.transform (auto_augment.py 406-410): [ops] are the operations of the sub-policy drawn, with the draws of each. *)
Fixpoint sub_policy (fields : option (list string)) (ops : list (op * Q * (nat -> nat))) (imgs : list (string * Img)) : outcome (list (string * Img)) :=
  match ops with
  | [] => Ok imgs
  | (o, u, pick) :: r => do imgs' <- transform1 fields u pick o imgs; sub_policy fields r imgs'
  end.
End Op.
Arguments extra : clear implicits.
Arguments op : clear implicits.
Arguments op2 : clear implicits.

(** ** Policies *)
(** auto_augment.py 342-396, auto_augment_policy. *)
Definition policy_original : list (list (string * Q * Q)) :=
  [[("Equalize", 4#5, 1#1); ("ShearY", 4#5, 4#1)];
   [("Color", 2#5, 9#1); ("Equalize", 3#5, 3#1)];
   [("Color", 2#5, 1#1); ("Rotate", 3#5, 8#1)];
   [("Solarize", 4#5, 3#1); ("Equalize", 2#5, 7#1)];
   [("Solarize", 2#5, 2#1); ("Solarize", 3#5, 2#1)];
   [("Color", 1#5, 0#1); ("Equalize", 4#5, 8#1)];
   [("Equalize", 2#5, 8#1); ("SolarizeAdd", 4#5, 3#1)];
   [("ShearX", 1#5, 9#1); ("Rotate", 3#5, 8#1)];
   [("Color", 3#5, 1#1); ("Equalize", 1#1, 2#1)];
   [("Invert", 2#5, 9#1); ("Rotate", 3#5, 0#1)];
   [("Equalize", 1#1, 9#1); ("ShearY", 3#5, 3#1)];
   [("Color", 2#5, 7#1); ("Equalize", 3#5, 0#1)];
   [("Posterize", 2#5, 6#1); ("AutoContrast", 2#5, 7#1)];
   [("Solarize", 3#5, 8#1); ("Color", 3#5, 9#1)];
   [("Solarize", 1#5, 4#1); ("Rotate", 4#5, 9#1)];
   [("Rotate", 1#1, 7#1); ("TranslateYRel", 4#5, 9#1)];
   [("ShearX", 0#1, 0#1); ("Solarize", 4#5, 4#1)];
   [("ShearY", 4#5, 0#1); ("Color", 3#5, 4#1)];
   [("Color", 1#1, 0#1); ("Rotate", 3#5, 2#1)];
   [("Equalize", 4#5, 4#1); ("Equalize", 0#1, 8#1)];
   [("Equalize", 1#1, 4#1); ("AutoContrast", 3#5, 2#1)];
   [("ShearY", 2#5, 7#1); ("SolarizeAdd", 3#5, 7#1)];
   [("Posterize", 4#5, 2#1); ("Solarize", 3#5, 10#1)];
   [("Solarize", 3#5, 8#1); ("Equalize", 3#5, 1#1)];
   [("Color", 4#5, 6#1); ("Rotate", 2#5, 5#1)]]%Q.
Definition policy_v0 : list (list (string * Q * Q)) :=
  [[("Posterize", 2#5, 8#1); ("Rotate", 3#5, 9#1)];
   [("Solarize", 3#5, 5#1); ("AutoContrast", 3#5, 5#1)];
   [("Equalize", 4#5, 8#1); ("Equalize", 3#5, 3#1)];
   [("Posterize", 3#5, 7#1); ("Posterize", 3#5, 6#1)];
   [("Equalize", 2#5, 7#1); ("Solarize", 1#5, 4#1)];
   [("Equalize", 2#5, 4#1); ("Rotate", 4#5, 8#1)];
   [("Solarize", 3#5, 3#1); ("Equalize", 3#5, 7#1)];
   [("Posterize", 4#5, 5#1); ("Equalize", 1#1, 2#1)];
   [("Rotate", 1#5, 3#1); ("Solarize", 3#5, 8#1)];
   [("Equalize", 3#5, 8#1); ("Posterize", 2#5, 6#1)];
   [("Rotate", 4#5, 8#1); ("Color", 2#5, 0#1)];
   [("Rotate", 2#5, 9#1); ("Equalize", 3#5, 2#1)];
   [("Equalize", 0#1, 7#1); ("Equalize", 4#5, 8#1)];
   [("Invert", 3#5, 4#1); ("Equalize", 1#1, 8#1)];
   [("Color", 3#5, 4#1); ("Contrast", 1#1, 8#1)];
   [("Rotate", 4#5, 8#1); ("Color", 1#1, 2#1)];
   [("Color", 4#5, 8#1); ("Solarize", 4#5, 7#1)];
   [("Sharpness", 2#5, 7#1); ("Invert", 3#5, 8#1)];
   [("ShearX", 3#5, 5#1); ("Equalize", 1#1, 9#1)];
   [("Color", 2#5, 0#1); ("Equalize", 3#5, 3#1)];
   [("Equalize", 2#5, 7#1); ("Solarize", 1#5, 4#1)];
   [("Solarize", 3#5, 5#1); ("AutoContrast", 3#5, 5#1)];
   [("Invert", 3#5, 4#1); ("Equalize", 1#1, 8#1)];
   [("Color", 3#5, 4#1); ("Contrast", 1#1, 8#1)];
   [("Equalize", 4#5, 8#1); ("Equalize", 3#5, 3#1)]]%Q.
Definition auto_augment_policy : list (string * list (list (string * Q * Q))) := [("original", policy_original); ("v0", policy_v0)].
(** AutoAugment.__init__ (auto_augment.py 399-404): extra_params are given as a dictionary that is not empty, or not; [draw] gives the normal and the uniform draw of each operation. *)
Definition augment_init {F} (FILL : F) (policies : string) (extra_params : option (extra F)) (draw : nat -> nat -> Q -> Q * bool) : outcome (list (list (op F))) :=
  match get auto_augment_policy policies with
  | None => Raise KeyError
  | Some ps => let h := match extra_params with Some h => h | None => {| img_mean := Some FILL; interpolation := None; translate_const := Some 250%Q |} end in
    mapM (fun isp => mapM (fun ja => let '(name, p, m) := snd ja in let g := draw (fst isp) (fst ja) m in op_init FILL h name p (fst g) (snd g))
                          (combine (seq 0 (length (snd isp))) (snd isp))) (combine (seq 0 (length ps)) ps)
  end.

(** ** Packing *)
Section Pack.
Context {V : Type}.
(** formatting.py 22-73, PackCRDClsInputs.  meta_keys is a tuple, or a generator with the keys it still gives. *)
Inductive keys := Tuple (l : list string) | Gen (l : list string).
Definition items (k : keys) : list string := match k with Tuple l => l | Gen l => l end.
(** An image: its shape and elements. *)
Definition array : Type := list nat * (list nat -> V).
(** formatting.py 35-39: the axes of the tensor. *)
Definition to_inputs (a : array) : outcome array :=
  let a := if (length (fst a) <? 3)%nat then (fst a ++ [1%nat], fun i => snd a (removelast i)) else a in
  match fst a with
  | [h; w; c] => Ok ([c; h; w], fun i => match i with [x; y; z] => snd a [y; z; x] | _ => snd a i end)
  | _ => Raise ValueError
  end.
Record packed := { inputs : option array; data : list (string * V); metainfo : list (string * V) }.
Definition data_keys : list string := ["gt_label"; "sample_idx"; "contrast_sample_idxs"].
(** transform: [img] is results['img'], [results] the other entries. *)
Definition pack (st : keys) (img : option array) (results : list (string * V)) : outcome (keys * packed) :=
  do inp <- (match img with Some a => do x <- to_inputs a; Ok (Some x) | None => Ok None end);
  let st1 := if has results "sample_idx" then Gen (filter (fun k => negb (String.eqb k "sample_idx")) (items st)) else st in
  let dat := flat_map (fun k => match get results k with Some v => [(k, v)] | None => [] end) data_keys in
  let meta := fold_left (fun m k => match get results k with Some v => put m k v | None => m end) (items st1) [] in
  if existsb (fun kv => has dat (fst kv)) meta then Raise AttributeError
  else Ok (match st1 with Tuple l => Tuple l | Gen _ => Gen [] end, {| inputs := inp; data := dat; metainfo := meta |}).
(** A transform applied to one sample after the other. *)
Fixpoint pack_all (st : keys) (samples : list (option array * list (string * V))) : outcome (list packed) :=
  match samples with
  | [] => Ok []
  | (img, r) :: rest => do x <- pack st img r; do ps <- pack_all (fst x) rest; Ok (snd x :: ps)
  end.
End Pack.
Arguments array : clear implicits.
Arguments packed : clear implicits.
