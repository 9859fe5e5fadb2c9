(** Model of the dynamic convolution and linear layers:
    mmrazor/models/architectures/dynamic_ops/mixins/dynamic_conv_mixins.py,
    mmrazor/models/architectures/dynamic_ops/mixins/dynamic_mixins.py and
    mmrazor/models/architectures/dynamic_ops/bricks/{dynamic_conv,dynamic_linear}.py.

    Numbers are the elements of an arbitrary type with addition and multiplication (exact
    arithmetic).  Two-dimensional convolutions with the same stride, padding, dilation and
    kernel size in both directions, evaluated on one image of the batch; padding_mode is
    'zeros' (asserted by the code, dynamic_conv.py 40).  F.conv2d, F.linear and the checks of
    the nn.Conv2d constructor are modelled after their documentation. *)
From Verif Require Import Prelude.
Open Scope Z_scope.

(** * Tensor helpers *)
(** Boolean-mask selection [t[mask]] along the first dimension: the mask must have the size of
    the dimension. *)
Fixpoint sel {T} (m : list bool) (l : list T) : list T :=
  match m, l with
  | true :: m', x :: l' => x :: sel m' l'
  | false :: m', _ :: l' => sel m' l'
  | _, _ => []
  end.
Definition mask_index {T} (m : list bool) (l : list T) : outcome (list T) :=
  if (length m =? length l)%nat then Ok (sel m l) else Raise IndexError.
(** [l] cut into [n] pieces of [c] entries (reshape of the first dimension). *)
Fixpoint chunks {T} (n c : nat) (l : list T) : list (list T) :=
  match n with O => [] | S n' => firstn c l :: chunks n' c (skipn c l) end.
(** reshape([g, -1]). *)
Definition reshape_groups {T} (g : nat) (l : list T) : outcome (list (list T)) :=
  if (length l mod g =? 0)%nat then Ok (chunks g (length l / g) l) else Raise RuntimeError.
Definition enum {T} (l : list T) : list (Z * T) := combine (map Z.of_nat (seq 0 (length l))) l.
Definition slice {T} (s e : Z) (l : list T) : list T := firstn (Z.to_nat (e - s)) (skipn (Z.to_nat s) l).

(** * Kernel size: dynamic_conv_mixins.py *)
(** 29-45 (_get_current_kernel_pos). *)
Definition get_current_kernel_pos (source target : Z) : outcome (Z * Z) :=
  do _ <- assert_ (source >=? target);
  let center := Z.shiftr source 1 in
  let offset := Z.shiftr target 1 in
  Ok (center - offset, center + offset + 1).
(** 48-53 (_get_same_padding), per dimension. *)
Definition get_same_padding (kernel_size : Z) : outcome Z :=
  do _ <- assert_ (Z.land kernel_size 1 =? 1); Ok (Z.shiftr kernel_size 1).

Section Layers.
  Variable A : Type.
  Variables (zero : A) (add mul : A -> A -> A).
  Definition sum (l : list A) : A := fold_right add zero l.

  (** * F.conv2d *)
  Definition image := list (list A).
  Definition kernel := list (list A).
  (** Pixel of the zero-padded image. *)
  Definition pixel (img : image) (r c : Z) : A :=
    if (r <? 0) || (c <? 0) then zero else nth (Z.to_nat c) (nth (Z.to_nat r) img []) zero.
  Record geom := { g_stride : Z; g_pad : Z; g_dil : Z }.
  Definition corr (g : geom) (k : kernel) (img : image) (u v : Z) : A :=
    sum (map (fun pr => sum (map (fun qw =>
      mul (snd qw) (pixel img (u * g_stride g + fst pr * g_dil g - g_pad g) (v * g_stride g + fst qw * g_dil g - g_pad g)))
      (enum (snd pr)))) (enum k)).
  Definition out_size (g : geom) (k n : Z) : Z := (n + 2 * g_pad g - g_dil g * (k - 1) - 1) / g_stride g + 1.
  (** A weight tensor of shape (len rows, w_in, w_k, w_k). *)
  Record weight := { w_in : nat; w_k : Z; w_rows : list (list kernel) }.
  Definition add_bias (b : option A) (x : A) : A := match b with Some b' => add x b' | None => x end.
  (** One output channel from the planes of its group. *)
  Definition out_channel (g : geom) (k h w : Z) (rb : list kernel * option A) (planes : list image) : image :=
    map (fun u => map (fun v => add_bias (snd rb) (sum (map (fun kp => corr g (fst kp) (snd kp) (Z.of_nat u) (Z.of_nat v)) (combine (fst rb) planes))))
                      (seq 0 (Z.to_nat (out_size g k w))))
        (seq 0 (Z.to_nat (out_size g k h))).
  Definition with_bias (bias : option (list A)) (rows : list (list kernel)) : list (list kernel * option A) :=
    match bias with None => map (fun r => (r, None)) rows | Some b => combine rows (map Some b) end.
  (** F.conv2d(x, weight, bias, stride, padding, dilation, groups); [h], [w]: image size. *)
  Definition conv2d (g : geom) (groups : nat) (W : weight) (bias : option (list A)) (h w : Z) (x : list image) : outcome (list image) :=
    if (groups =? 0)%nat || (length (w_rows W) <? groups)%nat || negb (length (w_rows W) mod groups =? 0)%nat
       || negb (length x =? w_in W * groups)%nat
       || match bias with Some b => negb (length b =? length (w_rows W))%nat | None => false end
       || (h + 2 * g_pad g <? g_dil g * (w_k W - 1) + 1) || (w + 2 * g_pad g <? g_dil g * (w_k W - 1) + 1)
    then Raise RuntimeError
    else Ok (concat (map (fun gx => map (fun rb => out_channel g (w_k W) h w rb (snd gx)) (fst gx))
           (combine (chunks groups (length (w_rows W) / groups) (with_bias bias (w_rows W))) (chunks groups (w_in W) x)))).
  (** The nn.Conv2d constructor's checks. *)
  Definition conv2d_ctor (in_channels out_channels groups : nat) : outcome unit :=
    if (groups =? 0)%nat || negb (in_channels mod groups =? 0)%nat || negb (out_channels mod groups =? 0)%nat then Raise ValueError else Ok tt.

  (** * Dynamic convolution *)
  (** A dynamic convolution; [d_in_mut]/[d_out_mut] are the current masks of the registered
      mutables (None: not registered). *)
  Record dconv := { d_in : nat; d_out : nat; d_groups : nat; d_geom : geom; d_weight : weight; d_bias : option (list A);
                    d_in_mut : option (list bool); d_out_mut : option (list bool) }.
  Definition depthwise (c : dconv) : bool := (d_groups c =? d_in c)%nat && (d_in c =? d_out c)%nat.
  Definition bias_index (m : list bool) (bias : option (list A)) : outcome (option (list A)) :=
    match bias with None => Ok None | Some b => do b' <- mask_index m b; Ok (Some b') end.
  (** 147-195 (_get_dynamic_params_by_mutable_channels). *)
  Definition dynamic_params (c : dconv) (W : weight) : outcome (weight * option (list A)) :=
    match d_in_mut c, d_out_mut c with
    | None, None => Ok (W, d_bias c)
    | im, om =>
      let in_mask := match im with Some m => m | None => repeat true (w_in W) end in
      let out_mask := match om with Some m => m | None => repeat true (length (w_rows W)) end in
      do W' <- (if (d_groups c =? 1)%nat then
                  do rows <- mask_index out_mask (w_rows W);
                  if (length in_mask =? w_in W)%nat
                  then Ok {| w_in := count_true in_mask; w_k := w_k W; w_rows := map (sel in_mask) rows |}
                  else Raise IndexError
                else if depthwise c then
                  do rows <- mask_index out_mask (w_rows W); Ok {| w_in := w_in W; w_k := w_k W; w_rows := rows |}
                else
                  do ims <- reshape_groups (d_groups c) in_mask;
                  let ipg := match ims with m :: _ => count_true m | [] => O end in
                  do _ <- assert_ (forallb (fun m => count_true m =? ipg)%nat ims);
                  do oms <- reshape_groups (d_groups c) out_mask;
                  let opg := match oms with m :: _ => count_true m | [] => O end in
                  do _ <- assert_ (forallb (fun m => count_true m =? opg)%nat oms);
                  let mask := concat (map (fun oi => concat (map (fun o : bool => map (fun i => o && i) (snd oi)) (fst oi))) (combine oms ims)) in
                  do flat <- mask_index mask (concat (w_rows W));
                  Ok {| w_in := ipg; w_k := w_k W; w_rows := chunks (d_groups c * opg) ipg flat |});
      do bias <- bias_index out_mask (d_bias c);
      Ok (W', bias)
    end.
  (** 197-205 (forward_mixin), 133-145 (get_dynamic_params). *)
  Definition dynamic_forward (c : dconv) (h w : Z) (x : list image) : outcome (list image) :=
    let groups := if depthwise c then length x else d_groups c in
    do (W, bias) <- dynamic_params c (d_weight c);
    conv2d (d_geom c) groups W bias h w x.

  (** A plain convolution layer. *)
  Record sconv := { s_in : nat; s_out : nat; s_groups : nat; s_geom : geom; s_weight : weight; s_bias : option (list A) }.
  Definition static_forward (s : sconv) (h w : Z) (x : list image) : outcome (list image) :=
    conv2d (s_geom s) (s_groups s) (s_weight s) (s_bias s) h w x.
  (** Mutables as check_if_mutables_fixed sees them (dynamic_mixins.py 71-87). *)
  Inductive mutable_kind := Container | Derived | Other.
  Definition check_if_mutables_fixed (ms : list (mutable_kind * bool)) : outcome unit :=
    if forallb (fun kf => match fst kf with Container | Derived => true | Other => snd kf end) ms then Ok tt else Raise RuntimeError.
  (** 207-241 (to_static_op). *)
  Definition to_static (c : dconv) (ms : list (mutable_kind * bool)) : outcome sconv :=
    do _ <- check_if_mutables_fixed ms;
    do (W, bias) <- dynamic_params c (d_weight c);
    let groups := match d_in_mut c with Some m => if depthwise c then count_true m else d_groups c | None => d_groups c end in
    do _ <- conv2d_ctor (w_in W * groups) (length (w_rows W)) groups;
    Ok {| s_in := w_in W * groups; s_out := length (w_rows W); s_groups := groups; s_geom := d_geom c; s_weight := W; s_bias := bias |}.

  (** * Kernel-size choices *)
  Definition crop (s e : Z) (k : kernel) : kernel := map (slice s e) (slice s e k).
  Definition crop_weight (s e : Z) (W : weight) : weight :=
    {| w_in := w_in W; w_k := e - s; w_rows := map (map (crop s e)) (w_rows W) |}.
  (** 309-335 (BigNasConvMixin._get_dynamic_params_by_mutable_kernel_size) with a registered
      kernel-size mutable whose choice is [cur]. *)
  Definition bignas_kernel (W : weight) (cur : Z) : outcome (weight * Z) :=
    do pad <- get_same_padding cur;
    if cur =? w_k W then Ok (W, pad)
    else do (s, e) <- get_current_kernel_pos (w_k W) cur; Ok (crop_weight s e W, pad).
  (** Row-major flattening of a kernel and back; F.linear with a transformation matrix. *)
  Definition apply_matrix (M : list (list A)) (t : nat) (k : kernel) : kernel :=
    let flat := concat k in
    chunks t t (map (fun row => sum (map (fun ab => mul (fst ab) (snd ab)) (combine row flat))) M).
  (** 371-414 (OFAConvMixin): [ks] are the kernel sizes in descending order, [trans s t] the
      matrix registered for going from [s] to [t]. *)
  Fixpoint ofa_steps (trans : Z -> Z -> list (list A)) (ks : list Z) (cur : Z) (W : weight) : outcome weight :=
    match ks with
    | src :: ((tgt :: _) as r) =>
        if src <=? cur then Ok W
        else do (s, e) <- get_current_kernel_pos src tgt;
             let W1 := crop_weight s e W in
             ofa_steps trans r cur {| w_in := w_in W; w_k := tgt; w_rows := map (map (apply_matrix (trans src tgt) (Z.to_nat tgt))) (w_rows W1) |}
    | _ => Ok W
    end.
  Definition ofa_kernel (trans : Z -> Z -> list (list A)) (ks : list Z) (W : weight) (cur : Z) : outcome (weight * Z) :=
    do pad <- get_same_padding cur;
    if cur =? w_k W then Ok (W, pad)
    else do W' <- ofa_steps trans ks cur W; Ok (W', pad).

  (** * Dynamic linear layer: dynamic_mixins.py *)
  Record dlinear := { l_in : nat; l_weight : list (list A); l_bias : option (list A); l_in_mut : option (list bool); l_out_mut : option (list bool) }.
  Definition dot (r x : list A) : A := sum (map (fun ab => mul (fst ab) (snd ab)) (combine r x)).
  (** F.linear on one vector; [n]: in_features of the weight. *)
  Definition linear (n : nat) (W : list (list A)) (bias : option (list A)) (x : list A) : outcome (list A) :=
    if negb (length x =? n)%nat || match bias with Some b => negb (length b =? length W)%nat | None => false end then Raise RuntimeError
    else Ok match bias with
            | None => map (fun r => dot r x) W
            | Some b => map (fun rb => add (dot (fst rb) x) (snd rb)) (combine W b)
            end.
  (** 362-389 (get_dynamic_params); the new in_features is returned with the weight. *)
  Definition linear_params (l : dlinear) : outcome (nat * list (list A) * option (list A)) :=
    match l_in_mut l, l_out_mut l with
    | None, None => Ok (l_in l, l_weight l, l_bias l)
    | im, om =>
      let in_mask := match im with Some m => m | None => repeat true (l_in l) end in
      let out_mask := match om with Some m => m | None => repeat true (length (l_weight l)) end in
      do rows <- mask_index out_mask (l_weight l);
      if (length in_mask =? l_in l)%nat
      then do bias <- bias_index out_mask (l_bias l); Ok (count_true in_mask, map (sel in_mask) rows, bias)
      else Raise IndexError
    end.
  Definition dynamic_linear (l : dlinear) (x : list A) : outcome (list A) :=
    do (nW, bias) <- linear_params l; linear (fst nW) (snd nW) bias x.
  (** 391-412 (to_static_op). *)
  Record slinear := { sl_in : nat; sl_weight : list (list A); sl_bias : option (list A) }.
  Definition linear_to_static (l : dlinear) (ms : list (mutable_kind * bool)) : outcome slinear :=
    do _ <- check_if_mutables_fixed ms;
    do (nW, bias) <- linear_params l;
    Ok {| sl_in := fst nW; sl_weight := snd nW; sl_bias := bias |}.
  Definition static_linear (s : slinear) (x : list A) : outcome (list A) := linear (sl_in s) (sl_weight s) (sl_bias s) x.
End Layers.
