(** Model of DynamicConv2dAdaptivePadding (mmrazor/models/architectures/dynamic_ops/bricks/
    dynamic_conv.py:226-286). *)
From Verif Require Import Prelude PyNum.

(** [math.ceil] of a float. *)
Definition py_ceil (f : spec_float) : outcome Z :=
  match f with
  | S754_zero _ => Ok 0
  | S754_infinity _ => Raise OverflowError
  | S754_nan => Raise ValueError
  | S754_finite s m e =>
      Ok match e with
         | Z0 => if s then Zneg m else Zpos m
         | Zpos p => (if s then Zneg m else Zpos m) * 2 ^ Zpos p
         | Zneg p => - ((if s then Zpos m else Zneg m) / 2 ^ Zpos p)
         end
  end.

(** The attributes of the convolution, (height, width) each. *)
Record acfg : Type := { a_kernel : Z * Z; a_stride : Z * Z; a_dil : Z * Z; a_padding : Z * Z }.

(** dynamic_conv.py:233-234, [math.ceil(img_h / stride_h)] (both are converted exactly for
    sizes of at most 2^53). *)
Definition ceil_div (n s : Z) : outcome Z :=
  if s =? 0 then Raise ZeroDivisionError else py_ceil (f64div (f64_of_Z n) (f64_of_Z s)).
(** dynamic_conv.py:235-240: the total padding of one dimension. *)
Definition pad_total (n k s d : Z) : outcome Z :=
  do out <- ceil_div n s; Ok (Z.max ((out - 1) * s + (k - 1) * d + 1 - n) 0).
(** dynamic_conv.py:241-244: left, right, top and bottom padding given to [F.pad]. *)
Definition pads (c : acfg) (h w : Z) : outcome (Z * Z * Z * Z) :=
  do ph <- pad_total h (fst (a_kernel c)) (fst (a_stride c)) (fst (a_dil c));
  do pw <- pad_total w (snd (a_kernel c)) (snd (a_stride c)) (snd (a_dil c));
  Ok (if (ph >? 0) || (pw >? 0) then (pw / 2, pw - pw / 2, ph / 2, ph - ph / 2) else (0, 0, 0, 0)).

Section Image.
Context {T : Type} (zero : T).
(** torch.nn.functional.pad of one channel of one image, with zeros. *)
Definition fpad (ps : Z * Z * Z * Z) (img : list (list T)) : list (list T) :=
  let '(l, r, t, b) := ps in
  let wide := map (fun row => repeat zero (Z.to_nat l) ++ row ++ repeat zero (Z.to_nat r)) img in
  let blank := repeat zero (Z.to_nat l + length (hd [] img) + Z.to_nat r) in
  repeat blank (Z.to_nat t) ++ wide ++ repeat blank (Z.to_nat b).
(** dynamic_conv.py:229-245: the picture that [DynamicConv2d.forward] is called on. *)
Definition padded (c : acfg) (img : list (list T)) : outcome (list (list T)) :=
  do ps <- pads c (Z.of_nat (length img)) (Z.of_nat (length (hd [] img)));
  Ok (fpad ps img).
(** The whole [forward]; [conv] is [DynamicConv2d.forward] with its own zero padding. *)
Definition forward {U : Type} (conv : Z * Z -> list (list T) -> outcome U) (c : acfg) (img : list (list T)) : outcome U :=
  do x <- padded c img; conv (a_padding c) x.
End Image.

(** Output length of torch's convolution in one dimension, symmetric zero padding [p]. *)
Definition conv_len (n k s d p : Z) : outcome Z :=
  if n + 2 * p <? d * (k - 1) + 1 then Raise RuntimeError
  else Ok ((n + 2 * p - d * (k - 1) - 1) / s + 1).
(** Output size of torch's convolution on a picture. *)
Definition conv_size {T : Type} (c : acfg) (p : Z * Z) (img : list (list T)) : outcome (Z * Z) :=
  do h <- conv_len (Z.of_nat (length img)) (fst (a_kernel c)) (fst (a_stride c)) (fst (a_dil c)) (fst p);
  do w <- conv_len (Z.of_nat (length (hd [] img))) (snd (a_kernel c)) (snd (a_stride c)) (snd (a_dil c)) (snd p);
  Ok (h, w).

(** dynamic_conv.py:252-286, [to_static_op]: mmcv's Conv2dAdaptivePadding, which the result
    is, pads in the same way but builds itself with padding 0 whatever it is given. *)
Definition to_static (c : acfg) : acfg :=
  {| a_kernel := a_kernel c; a_stride := a_stride c; a_dil := a_dil c; a_padding := (0, 0) |}.
