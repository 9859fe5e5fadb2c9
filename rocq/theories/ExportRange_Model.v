(** Model of the numbers computed by [_build_backend_initializer]
    (models/quantizers/exporters/openvino_quantize_exporter.py:54-78), over the reals: rounding of
    float64 and float32 is left out. *)
From Coq Require Import Reals.
From Flocq Require Import Core.
From Verif Require Import Prelude.
Local Open Scope R_scope.

(** Lines 63-66: [np.round] rounds half to even. *)
Definition zero_point_of (qmin qmax : Z) (z : R) : Z := Z.max qmin (Z.min qmax (ZnearestE z)).
(** Lines 68-72 for one channel. *)
Definition low_high (qmin qmax : Z) (scale : R) (z : R) : R * R :=
  let qrange := IZR (qmax - qmin) in
  let input_range := Rabs scale * qrange in
  let high := IZR (qmax - zero_point_of qmin qmax z) * input_range / qrange in
  (high - input_range, high).
(** Lines 62-72: arrays of different lengths are combined if one has one element. *)
Definition input_ranges (qmin qmax : Z) (scale zero : list R) : outcome (list (R * R)) :=
  match scale, zero with
  | [s], _ => Ok (map (low_high qmin qmax s) zero)
  | _, [z] => Ok (map (fun s => low_high qmin qmax s z) scale)
  | _, _ => if Nat.eqb (length scale) (length zero) then Ok (map (fun p => low_high qmin qmax (fst p) (snd p)) (combine scale zero)) else Raise ValueError
  end.
