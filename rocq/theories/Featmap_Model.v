(** Model of mmrazor/visualization/local_visualizer.py. *)
From Verif Require Import Prelude.
From Coq Require Import String.
Open Scope string_scope.
Open Scope list_scope.
Open Scope Z_scope.

Definition plane : Type := list (list Q).
(** A feature map of shape (channels, height, width); values are exact rationals. *)
Record fmap : Type := { f_planes : list plane; f_h : nat; f_w : nat }.
Definition size : Type := (nat * nat)%type.

(** [round(n / d)] for d > 0: to the nearest integer, halves to the even one.  Simplification: the
    quotient is exact (local_visualizer.py:43-48). *)
Definition round_ratio (n d : Z) : Z :=
  let f := n / d in
  let r := 2 * (n - f * d) in
  if r <? d then f else if d <? r then f + 1 else if Z.even f then f else f + 1.

(** local_visualizer.py:41-48: the part of the feature map that has the image's proportions. *)
Definition crop_size (fh fw ih iw : Z) : outcome (Z * Z) :=
  if (fw =? 0) || (iw =? 0) then Raise ZeroDivisionError
  else if ih * fw <? fh * iw then Ok (round_ratio (fw * ih) iw, fw)
  else if ih =? 0 then Raise ZeroDivisionError
  else Ok (fh, round_ratio (fh * iw) ih).
(** [featmap[..., :h, :w]] (local_visualizer.py:49). *)
Definition cut (m : fmap) (h w : Z) : fmap :=
  {| f_planes := map (fun p => map (firstn (slice_stop (f_w m) w)) (firstn (slice_stop (f_h m) h) p)) (f_planes m);
     f_h := slice_stop (f_h m) h; f_w := slice_stop (f_w m) w |}.

Section Modify.
(** F.interpolate(mode='bilinear') and torch.topk(...)[1]. *)
Variable interp : fmap -> size -> list plane.
Variable topk : list Q -> nat -> list nat.

(** F.interpolate refuses empty maps and sizes. *)
Definition interpolate (m : fmap) (s : size) : outcome fmap :=
  if Nat.eqb (List.length (f_planes m)) 0 || Nat.eqb (f_h m) 0 || Nat.eqb (f_w m) 0 || Nat.eqb (fst s) 0 || Nat.eqb (snd s) 0
  then Raise RuntimeError
  else Ok {| f_planes := interp m s; f_h := fst s; f_w := snd s |}.

(** local_visualizer.py:30-59.  Of the overlaid image only the size is modelled. *)
Definition to_image (m : fmap) (img : option size) (resize : option size) : outcome fmap :=
  match img with
  | None => Ok m
  | Some (ih, iw) =>
      if Nat.eqb ih (f_h m) && Nat.eqb iw (f_w m) then Ok m
      else match resize with
           | Some _ => Ok m
           | None =>
               do hw <- crop_size (Z.of_nat (f_h m)) (Z.of_nat (f_w m)) (Z.of_nat ih) (Z.of_nat iw);
               interpolate (cut m (fst hw) (snd hw)) (ih, iw)
           end
  end.
Definition to_shape (m : fmap) (img : option size) (resize : option size) : outcome (fmap * option size) :=
  match resize with
  | None => Ok (m, img)
  | Some s => do m' <- interpolate m s; Ok (m', match img with None => None | Some _ => Some s end)
  end.

(** torch.sum(featmap, dim=(1, 2)). *)
Definition qsum (l : list Q) : Q := fold_right Qplus 0%Q l.
Definition total (p : plane) : Q := qsum (map qsum p).
(** torch.mean and torch.max over dim 0. *)
Definition at_pos (m : fmap) (i j : nat) : list Q := map (fun p => nth j (nth i p []) 0%Q) (f_planes m).
Definition over_channels (f : list Q -> Q) (m : fmap) : plane :=
  map (fun i => map (fun j => f (at_pos m i j)) (seq 0 (f_w m))) (seq 0 (f_h m)).
Definition mean (l : list Q) : Q := (qsum l / inject_Z (Z.of_nat (List.length l)))%Q.
Definition maximum (l : list Q) : Q :=
  match l with [] => 0%Q | x :: r => fold_left (fun a b => if Qle_bool a b then b else a) r x end.
(** [featmap[indices]]. *)
Definition pick (m : fmap) (is : list nat) : list plane := map (fun i => nth i (f_planes m) []) is.

(** What is drawn: planes given to convert_overlay_heatmap together, or one panel per channel on a
    grid; [shape] is the size of the planes and [over] that of the image under them. *)
Inductive drawing : Type :=
| Together (planes : list plane) (shape : size) (over : option size)
| Panels (row col : Z) (panels : list (nat * plane)) (shape : size) (over : option size).

(** local_visualizer.py:61-74. *)
Definition reduce (m : fmap) (img : option size) (mode : string) : outcome drawing :=
  let shape := (f_h m, f_w m) in
  let c := List.length (f_planes m) in
  if (mode =? "select_max")%string then
    if Nat.eqb c 0 then Raise RuntimeError
    else Ok (Together (pick m (topk (map total (f_planes m)) 1)) shape img)
  else if (mode =? "squeeze_mean")%string then Ok (Together [over_channels mean m] shape img)
  else if (mode =? "pixel_wise_max")%string then
    if Nat.eqb c 0 then Raise IndexError else Ok (Together [over_channels maximum m] shape img)
  else Raise AssertionError.
(** local_visualizer.py:75-115. *)
Definition unreduced (m : fmap) (img : option size) (k : Z) (row col : Z) : outcome drawing :=
  let shape := (f_h m, f_w m) in
  let c := List.length (f_planes m) in
  if k <=? 0 then
    do _ <- assert_ (Nat.eqb c 1 || Nat.eqb c 3);
    Ok (Together (f_planes m) shape img)
  else
    do _ <- assert_ (k <=? row * col);
    let n := Nat.min c (Z.to_nat k) in
    let is := topk (map total (f_planes m)) n in
    Ok (Panels row col (combine is (pick m is)) shape img).

(** local_visualizer.py:15-115, [modify] of a tensor with [ndim] dimensions. *)
Definition modify (ndim : nat) (m : fmap) (img : option size) (mode : option string) (k : Z)
    (row col : Z) (resize : option size) : outcome drawing :=
  do _ <- assert_ (Nat.eqb ndim 3);
  do m1 <- to_image m img resize;
  do mi <- to_shape m1 img resize;
  match mode with
  | Some s => reduce (fst mi) (snd mi) s
  | None => unreduced (fst mi) (snd mi) k row col
  end.
End Modify.
