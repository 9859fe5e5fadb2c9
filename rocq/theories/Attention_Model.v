(** Relative-position multi-head attention, its dynamic version and the export of the dynamic version to the static one:
    mmrazor/models/architectures/ops/transformer_series.py,
    mmrazor/models/architectures/dynamic_ops/bricks/dynamic_relative_position.py and
    mmrazor/models/architectures/dynamic_ops/bricks/dynamic_multi_head_attention.py.

    Tensor elements are values of an arbitrary type with an arbitrary addition and multiplication (no law is assumed, so
    the order of the operations is kept) and softmax is an arbitrary function of a row.  Tensors are shapes with row-major
    data.  Dropout is the identity (evaluation mode, or rate 0); v_shortcut is False.  Elementwise addition and matmul of
    tensors whose shapes differ raise RuntimeError: the broadcasting of dimensions of size 1 is not modelled. *)
From Coq Require Import List ZArith Bool Lia String.
From Verif Require Import Prelude.
From Verif Require Dynamic_Model.
Import ListNotations.
Local Open Scope nat_scope.

Definition numel (s : list nat) : nat := fold_right Nat.mul 1 s.
Fixpoint indices (s : list nat) : list (list nat) :=
  match s with
  | [] => [[]]
  | d :: s' => flat_map (fun i => map (cons i) (indices s')) (seq 0 d)
  end.
(** Position of an index in the row-major data. *)
Fixpoint flat (s idx : list nat) : nat :=
  match s, idx with
  | _ :: s', i :: idx' => i * numel s' + flat s' idx'
  | _, _ => 0
  end.
Fixpoint same_shape (s s' : list nat) : bool :=
  match s, s' with
  | [], [] => true
  | d :: s, d' :: s' => (d =? d') && same_shape s s'
  | _, _ => false
  end.
(** int(length_q**0.5) (transformer_series.py 44-48); the float square root is taken to be exact. *)
Definition side (length_q : Z) : Z := Z.sqrt length_q.
(** torch.clamp(distance, -max, max) + max + 1 (52-62). *)
Definition clip (mx : nat) (d : Z) : Z := (Z.max (- Z.of_nat mx) (Z.min d (Z.of_nat mx)) + Z.of_nat mx + 1)%Z.
(** 37-68: the two index matrices, padded with a row and a column of zeros for the class token. *)
Definition pad (m : list (list Z)) (lk : nat) : list (list Z) := repeat 0%Z (S lk) :: map (cons 0%Z) m.
Definition distances (mx : nat) (coord : Z -> Z) (lq lk : nat) : list (list Z) :=
  map (fun i => map (fun j => clip mx (coord (Z.of_nat j) - coord (Z.of_nat i))%Z) (seq 0 lk)) (seq 0 lq).
Definition final_mats (mx : nat) (lq lk : nat) : list (list Z) * list (list Z) :=
  let s := side (Z.of_nat lq) in
  (pad (distances mx (fun x => (x / s)%Z) lq lk) lk, pad (distances mx (fun x => (x mod s)%Z) lq lk) lk).
Definition lookup2 (m : list (list Z)) (i j : nat) : Z := nth j (nth i m []) 0%Z.

Section Attention.
  Variable A : Type.
  Variables (zero : A) (add mul : A -> A -> A).
  Variable softmax : list A -> list A.
  (** head_dims ** -0.5, the scale used when qk_scale is not given. *)
  Variable default_scale : A.

  Record tensor := T { shape : list nat; data : list A }.
  Definition tabulate (s : list nat) (f : list nat -> A) : tensor := T s (map f (indices s)).
  Definition at_ (t : tensor) (idx : list nat) : A := nth (flat (shape t) idx) (data t) zero.
  Definition tab2 (a b : nat) (f : nat -> nat -> A) : tensor :=
    tabulate [a; b] (fun idx => match idx with [i; j] => f i j | _ => zero end).
  Definition tab3 (a b c : nat) (f : nat -> nat -> nat -> A) : tensor :=
    tabulate [a; b; c] (fun idx => match idx with [i; j; k] => f i j k | _ => zero end).
  Definition tab4 (a b c d : nat) (f : nat -> nat -> nat -> nat -> A) : tensor :=
    tabulate [a; b; c; d] (fun idx => match idx with [i; j; k; l] => f i j k l | _ => zero end).

  Definition total (n : nat) (f : nat -> A) : A := fold_right add zero (map f (seq 0 n)).

  (** torch operations used by the forwards. *)
  Definition reshape (s : list nat) (t : tensor) : outcome tensor :=
    if numel s =? numel (shape t) then Ok (T s (data t)) else Raise RuntimeError.
  (** reshape (s..., -1). *)
  Definition reshape_infer (s : list nat) (t : tensor) : outcome tensor :=
    let p := numel s in
    if p =? 0 then Raise RuntimeError
    else if (numel (shape t)) mod p =? 0 then Ok (T (s ++ [numel (shape t) / p]) (data t))
    else Raise RuntimeError.
  Definition transpose12 (t : tensor) : outcome tensor :=
    match shape t with
    | [a; b; c; d] => Ok (tab4 a c b d (fun i j k l => at_ t [i; k; j; l]))
    | _ => Raise IndexError
    end.
  Definition transpose_last (t : tensor) : outcome tensor :=
    match shape t with
    | [a; b; c; d] => Ok (tab4 a b d c (fun i j k l => at_ t [i; j; l; k]))
    | [a; b; c] => Ok (tab3 a c b (fun i j k => at_ t [i; k; j]))
    | _ => Raise IndexError
    end.
  Definition transpose10 (t : tensor) : outcome tensor :=
    match shape t with
    | [a; b; c] => Ok (tab3 b a c (fun i j k => at_ t [j; i; k]))
    | _ => Raise IndexError
    end.
  Definition permute2013 (t : tensor) : outcome tensor :=
    match shape t with
    | [a; b; c; d] => Ok (tab4 c a b d (fun i j k l => at_ t [j; k; i; l]))
    | _ => Raise RuntimeError
    end.
  Definition matmul (t u : tensor) : outcome tensor :=
    match shape t, shape u with
    | [a; n; k], [a'; k'; m] =>
        if (a =? a') && (k =? k')
        then Ok (tab3 a n m (fun i r c => total k (fun x => mul (at_ t [i; r; x]) (at_ u [i; x; c]))))
        else Raise RuntimeError
    | [a; b; n; k], [a'; b'; k'; m] =>
        if (a =? a') && (b =? b') && (k =? k')
        then Ok (tab4 a b n m (fun i j r c => total k (fun x => mul (at_ t [i; j; r; x]) (at_ u [i; j; x; c]))))
        else Raise RuntimeError
    | _, _ => Raise RuntimeError
    end.
  Definition tadd (t u : tensor) : outcome tensor :=
    if same_shape (shape t) (shape u) then Ok (T (shape t) (map (fun xy => add (fst xy) (snd xy)) (combine (data t) (data u))))
    else Raise RuntimeError.
  Definition tscale (c : A) (t : tensor) : tensor := T (shape t) (map (fun x => mul x c) (data t)).
  Definition softmax_last (t : tensor) : outcome tensor :=
    match shape t with
    | [a; b; c; d] => Ok (tab4 a b c d (fun i j k l => nth l (softmax (map (fun x => at_ t [i; j; k; x]) (seq 0 d))) zero))
    | _ => Raise IndexError
    end.
  (** weight[:o, :i] and bias[:o]. *)
  Definition narrow (o i : nat) (w : tensor) : tensor :=
    match shape w with
    | [r; c] => tab2 (Nat.min o r) (Nat.min i c) (fun x y => at_ w [x; y])
    | _ => w
    end.
  Definition narrow1 (o : nat) (b : list A) : list A := firstn o b.
  (** F.linear on a batch of token sequences. *)
  Definition linear (x w : tensor) (bias : option (list A)) : outcome tensor :=
    match shape x, shape w with
    | [b; n; c], [o; i] =>
        if c =? i then
          match bias with
          | None => Ok (tab3 b n o (fun p q r => total i (fun y => mul (at_ x [p; q; y]) (at_ w [r; y]))))
          | Some bs => if length bs =? o
                       then Ok (tab3 b n o (fun p q r => add (total i (fun y => mul (at_ x [p; q; y]) (at_ w [r; y]))) (nth r bs zero)))
                       else Raise RuntimeError
          end
        else Raise RuntimeError
    | _, _ => Raise RuntimeError
    end.

  (** RelativePosition2D (transformer_series.py 21-74). *)
  Record relpos := { r_max : nat; r_v : tensor; r_h : tensor }.
  Definition in_rows (rows : nat) (m : list (list Z)) : bool :=
    forallb (forallb (fun z => (Z.leb 0 z) && (Z.ltb z (Z.of_nat rows)))) m.
  Definition relpos_forward (r : relpos) (nq nk : nat) : outcome tensor :=
    match nq, nk with
    | S lq, S lk =>
        let (fv, fh) := final_mats (r_max r) lq lk in
        match shape (r_v r), shape (r_h r) with
        | [rv; d], [rh; d'] =>
            if in_rows rv fv && in_rows rh fh then
              if d =? d' then
                Ok (tab3 nq nk d (fun i j t => add (at_ (r_v r) [Z.to_nat (lookup2 fv i j); t])
                                                   (at_ (r_h r) [Z.to_nat (lookup2 fh i j); t])))
              else Raise RuntimeError
            else Raise IndexError
        | _, _ => Raise IndexError
        end
    | _, _ => Raise RuntimeError
    end.

  (** The forwards after the projections (transformer_series.py 163-189, dynamic_multi_head_attention.py 248-274): the
      statements are the same in both classes, with self.num_heads and self.head_dims in the static one and
      num_heads and q_embed_dims // num_heads in the dynamic one. *)
  Definition attend (B N H dh : nat) (scale : A) (rel : option (outcome tensor * outcome tensor)) (q k v : tensor) : outcome tensor :=
    do q4 <- reshape [B; N; H; dh] q;
    do k4 <- reshape [B; N; H; dh] k;
    do v4 <- reshape [B; N; H; dh] v;
    do qt <- transpose12 q4;
    do kt <- transpose12 k4;
    do vt <- transpose12 v4;
    do kT <- transpose_last kt;
    do qk <- matmul qt kT;
    let attn := tscale scale qk in
    do attn <- match rel with
               | None => Ok attn
               | Some (rk, _) =>
                   do r_p_k <- rk;
                   do qp <- permute2013 qt;
                   do qr <- reshape_infer [N; H * B] qp;
                   do rT <- transpose_last r_p_k;
                   do m <- matmul qr rT;
                   do mt <- transpose10 m;
                   do m4 <- reshape [B; H; N; N] mt;
                   tadd attn (tscale scale m4)
               end;
    do attn <- softmax_last attn;
    do av <- matmul attn vt;
    do avt <- transpose12 av;
    do x <- reshape_infer [B; N] avt;
    match rel with
    | None => Ok x
    | Some (_, rv) =>
        do r_p_v <- rv;
        do ap <- permute2013 attn;
        do ar <- reshape_infer [N; B * H] ap;
        do m <- matmul ar r_p_v;
        do mt <- transpose10 m;
        do m4 <- reshape_infer [B; H; N] mt;
        do m4t <- transpose12 m4;
        do m3 <- reshape_infer [B; N] m4t;
        tadd x m3
    end.

  Record lin := { l_w : tensor; l_b : option (list A) }.
  (** self.head_dims = 64 (transformer_series.py 134). *)
  Definition head_unit : nat := 64.

  (** MultiheadAttention as to_static_op leaves it, and its forward (160-193). *)
  Record smha := { s_heads : nat; s_scale : A; s_q : lin; s_k : lin; s_v : lin; s_proj : lin; s_rel : option (relpos * relpos) }.
  Definition static_forward (m : smha) (x : tensor) : outcome tensor :=
    match shape x with
    | [B; N; _] =>
        do q <- linear x (l_w (s_q m)) (l_b (s_q m));
        do k <- linear x (l_w (s_k m)) (l_b (s_k m));
        do v <- linear x (l_w (s_v m)) (l_b (s_v m));
        do y <- attend B N (s_heads m) head_unit (s_scale m)
                  (match s_rel m with Some (rk, rv) => Some (relpos_forward rk N N, relpos_forward rv N N) | None => None end) q k v;
        linear y (l_w (s_proj m)) (l_b (s_proj m))
    | _ => Raise ValueError
    end.

  (** Mutables of the dynamic modules: the mask of a channel mutable (activated_channels is the number of true entries),
      the current choice of num_heads, and the pair check_if_mutables_fixed looks at. *)
  Definition count_true (m : list bool) : nat := length (filter id m).
  Record channels := { c_mask : list bool; c_state : Dynamic_Model.mutable_kind * bool }.
  Record value := { v_choice : nat; v_state : Dynamic_Model.mutable_kind * bool }.
  Definition activated (c : channels) : nat := count_true (c_mask c).
  Definition get_attr {X} (o : option X) : outcome X := match o with Some x => Ok x | None => Raise KeyError end.
  Definition states {X} (f : X -> Dynamic_Model.mutable_kind * bool) (o : option X) : list (Dynamic_Model.mutable_kind * bool) :=
    match o with Some x => [f x] | None => [] end.

  (** DynamicRelativePosition2D (dynamic_relative_position.py 37-154). *)
  Record drelpos := { d_pos : relpos; d_head : option channels }.
  Definition narrow_tables (n : nat) (r : relpos) : relpos :=
    let cut t := match shape t with [rows; _] => narrow rows n t | _ => t end in
    {| r_max := r_max r; r_v := cut (r_v r); r_h := cut (r_h r) |}.
  Definition drelpos_forward (r : drelpos) (nq nk : nat) : outcome tensor :=
    do c <- get_attr (d_head r);
    relpos_forward (narrow_tables (activated c) (d_pos r)) nq nk.
  (** to_static_op (78-93): the constructor is called with the head dimension only, so max_relative_position is its default 14. *)
  Definition drelpos_to_static (r : drelpos) : outcome relpos :=
    do _ <- Dynamic_Model.check_if_mutables_fixed (states c_state (d_head r));
    do c <- get_attr (d_head r);
    let n := narrow_tables (activated c) (d_pos r) in
    Ok {| r_max := 14; r_v := r_v n; r_h := r_h n |}.

  (** DynamicMultiheadAttention. *)
  Record dmha := { d_scale : A; d_q : lin; d_k : lin; d_v : lin; d_proj : lin; d_rel : option (drelpos * drelpos);
                   d_embed_mut : option channels; d_q_mut : option channels; d_heads_mut : option value }.
  (** _get_dynamic_qkv_params (160-185) and _get_dynamic_proj_params (133-158): reading an unregistered mutable is a KeyError,
      so the tests against None never succeed. *)
  Definition sliced (o i : nat) (w : lin) : lin :=
    {| l_w := narrow o i (l_w w); l_b := match l_b w with Some b => Some (narrow1 o b) | None => None end |}.
  Definition qkv_params (m : dmha) (w : lin) : outcome lin :=
    do q <- get_attr (d_q_mut m);
    do e <- get_attr (d_embed_mut m);
    Ok (sliced (activated q) (activated e) w).
  Definition proj_params (m : dmha) (w : lin) : outcome lin :=
    do e <- get_attr (d_embed_mut m);
    do q <- get_attr (d_q_mut m);
    Ok (sliced (activated e) (activated q) w).
  (** forward (238-279). *)
  Definition dynamic_forward (m : dmha) (x : tensor) : outcome tensor :=
    match shape x with
    | [B; N; _] =>
        do pq <- qkv_params m (d_q m);
        do pk <- qkv_params m (d_k m);
        do pv <- qkv_params m (d_v m);
        do qm <- get_attr (d_q_mut m);
        do h <- get_attr (d_heads_mut m);
        do q <- linear x (l_w pq) (l_b pq);
        if v_choice h =? 0 then Raise ZeroDivisionError else
        do k <- linear x (l_w pk) (l_b pk);
        do v <- linear x (l_w pv) (l_b pv);
        do y <- attend B N (v_choice h) (activated qm / v_choice h) (d_scale m)
                  (match d_rel m with Some (rk, rv) => Some (drelpos_forward rk N N, drelpos_forward rv N N) | None => None end) q k v;
        do pp <- proj_params m (d_proj m);
        linear y (l_w pp) (l_b pp)
    | _ => Raise RuntimeError
    end.
  (** to_static_op (187-223): bias.clone() of an absent bias is an AttributeError. *)
  Definition with_bias (w : lin) : outcome lin := match l_b w with Some _ => Ok w | None => Raise AttributeError end.
  Definition to_static (m : dmha) : outcome smha :=
    do _ <- Dynamic_Model.check_if_mutables_fixed (states v_state (d_heads_mut m) ++ states c_state (d_embed_mut m) ++ states c_state (d_q_mut m));
    do e <- get_attr (d_embed_mut m);
    do h <- get_attr (d_heads_mut m);
    do pq <- qkv_params m (d_q m);
    do pk <- qkv_params m (d_k m);
    do pv <- qkv_params m (d_v m);
    do pp <- proj_params m (d_proj m);
    do pq <- with_bias pq;
    do pk <- with_bias pk;
    do pv <- with_bias pv;
    do pp <- with_bias pp;
    do rel <- match d_rel m with
              | None => Ok None
              | Some (rk, rv) => do sk <- drelpos_to_static rk; do sv <- drelpos_to_static rv; Ok (Some (sk, sv))
              end;
    Ok {| s_heads := v_choice h; s_scale := default_scale; s_q := pq; s_k := pk; s_v := pv; s_proj := pp; s_rel := rel |}.

  (** convert_from (225-232): a new module built from embed_dims and num_heads; [fresh e h] is the freshly initialised module. *)
  Variable fresh : nat -> nat -> dmha.
  Definition embed_of (s : smha) : nat := match shape (l_w (s_proj s)) with e :: _ => e | [] => 0 end.
  Definition convert_from (s : smha) : dmha := fresh (embed_of s) (s_heads s).
End Attention.
