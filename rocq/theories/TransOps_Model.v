(** Registration of mutables and the remaining transformer bricks:
    mmrazor/models/architectures/dynamic_ops/mixins/dynamic_mixins.py (register_mutable_attr, check_mutable_attr_valid),
    mmrazor/models/architectures/dynamic_ops/mixins/dynamic_layernorm_mixins.py,
    mmrazor/models/architectures/dynamic_ops/bricks/{dynamic_norm,dynamic_container,dynamic_embed}.py.

    A channel mutable is its current mask and what check_if_mutables_fixed sees of it; the tests for a [current_mask]
    attribute succeed.  Statistics of a row (F.layer_norm without the affine part) are an arbitrary function. *)
From Coq Require Import List ZArith Bool String.
From Verif Require Import Prelude Onnx_Model Attention_Model.
From Verif Require Dynamic_Model.
Import ListNotations.
Local Open Scope string_scope.
Local Open Scope list_scope.
Local Open Scope nat_scope.

(** * Registration: dynamic_mixins.py 89-91, 152-173 (and the same code in 297-320, dynamic_layernorm_mixins.py 34-56,
    dynamic_embed.py 52-75, dynamic_multi_head_attention.py 77-104, dynamic_relative_position.py 48-70) *)
Section Register.
  Variable M : Type.
  (** attr_mappings, accepted_mutable_attrs and the checks of _register_mutable_attr. *)
  Variables (mappings : list (string * string)) (accepted : list string) (validate : string -> M -> outcome unit).
  Definition register_named (attr : string) (x : M) (attrs : list (string * M)) : outcome (list (string * M)) :=
    if mem attr accepted then do _ <- validate attr x; Ok (put attrs attr x) else Raise NotImplementedError.
  Definition register_mutable_attr (attr : string) (x : M) (attrs : list (string * M)) : outcome (list (string * M)) :=
    do _ <- assert_ (has mappings attr || mem attr accepted);
    match get mappings attr with
    | Some attr_map =>
        do _ <- assert_ (mem attr_map accepted);
        if has attrs attr_map then Ok attrs else register_named attr_map x attrs
    | None => if mem attr accepted then register_named attr x attrs else Raise NotImplementedError
    end.
  (** get_mutable_attr (39-46): None if nothing is registered. *)
  Definition get_mutable_attr (attr : string) (attrs : list (string * M)) : outcome (option M) :=
    do _ <- assert_ (has mappings attr || mem attr accepted);
    Ok (get attrs (match get mappings attr with Some a => a | None => attr end)).
End Register.

(** * DynamicLayerNorm *)
Section LayerNorm.
  Variable A : Type.
  Variables (add mul : A -> A -> A).
  (** F.layer_norm of a row before the affine part. *)
  Variable normal : list A -> list A.

  (** An input: its number of dimensions, the size of the last one and its rows. *)
  Record rows := { x_dims : nat; x_width : nat; x_rows : list (list A) }.
  Definition affine (w b : list A) (r : list A) : list A :=
    map (fun p => add (mul (fst (fst p)) (snd (fst p))) (snd p)) (combine (combine r w) b).
  (** F.layer_norm(x, (n,), weight, bias, eps). *)
  Definition layer_norm (n : nat) (wb : option (list A * list A)) (x : rows) : outcome rows :=
    if negb (x_width x =? n) then Raise RuntimeError
    else match wb with
         | None => Ok {| x_dims := x_dims x; x_width := n; x_rows := map normal (x_rows x) |}
         | Some (w, b) => if (length w =? n) && (length b =? n)
                          then Ok {| x_dims := x_dims x; x_width := n; x_rows := map (fun r => affine w b (normal r)) (x_rows x) |}
                          else Raise RuntimeError
         end.
  (** [n_shape] is normalized_shape[0], the only entry; no weights with elementwise_affine=False. *)
  Record dln := { n_shape : nat; n_wb : option (list A * list A); n_mut : option channels }.
  (** register_mutable_attr (dynamic_layernorm_mixins.py 34-84). *)
  Definition ln_validate (l : dln) (_ : string) (c : channels) : outcome unit :=
    match n_wb l with
    | None => Raise RuntimeError
    | Some _ => if length (c_mask c) =? n_shape l then Ok tt else Raise ValueError
    end.
  Definition ln_register (attr : string) (c : channels) (l : dln) : outcome dln :=
    do attrs <- register_mutable_attr channels [("in_channels", "num_features"); ("out_channels", "num_features")] ["num_features"]
                  (ln_validate l) attr c (match n_mut l with Some c => [("num_features", c)] | None => [] end);
    Ok {| n_shape := n_shape l; n_wb := n_wb l; n_mut := get attrs "num_features" |}.
  (** _get_num_features_mask and get_dynamic_params (86-118). *)
  Definition ln_params (l : dln) : outcome (option (list A * list A)) :=
    match n_wb l with
    | None => Ok None
    | Some (w, b) =>
        let mask := match n_mut l with Some c => c_mask c | None => repeat true (length w) end in
        do w' <- Dynamic_Model.mask_index mask w;
        do b' <- Dynamic_Model.mask_index mask b;
        Ok (Some (w', b'))
    end.
  (** forward (dynamic_norm.py 244-260): also overwrites normalized_shape. *)
  Definition ln_forward (l : dln) (x : rows) : dln * outcome rows :=
    if negb (x_dims x =? 3) then (l, Raise ValueError)
    else match ln_params l with
         | Raise e => (l, Raise e)
         | Ok wb =>
             match n_mut l with
             | None => (l, Raise KeyError)
             | Some c => ({| n_shape := activated c; n_wb := n_wb l; n_mut := n_mut l |}, layer_norm (activated c) wb x)
             end
         end.
  (** A plain LayerNorm and to_static_op (dynamic_layernorm_mixins.py 120-147). *)
  Record sln := { sn_shape : nat; sn_wb : option (list A * list A) }.
  Definition ln_static (s : sln) (x : rows) : outcome rows := layer_norm (sn_shape s) (sn_wb s) x.
  Definition ln_to_static (l : dln) : outcome sln :=
    do _ <- Dynamic_Model.check_if_mutables_fixed (match n_mut l with Some c => [c_state c] | None => [] end);
    do wb <- ln_params l;
    Ok {| sn_shape := match n_mut l with Some c => activated c | None => n_shape l end; sn_wb := wb |}.
  (** convert_from (dynamic_norm.py 230-242): a new layer, whose weights are 1 and biases 0. *)
  Variables (zero one : A).
  Definition ln_convert (s : sln) : dln :=
    {| n_shape := sn_shape s; n_wb := match sn_wb s with Some _ => Some (repeat one (sn_shape s), repeat zero (sn_shape s)) | None => None end;
       n_mut := None |}.
  (** What happens to a layer: registrations, choices (a new mask of the same size) and forwards. *)
  Inductive ln_event := Register (attr : string) (c : channels) | Choose (mask : list bool) | Forward (x : rows).
  Definition ln_step (l : dln) (e : ln_event) : dln :=
    match e with
    | Register attr c => match ln_register attr c l with Ok l' => l' | Raise _ => l end
    | Choose m => match n_mut l with
                  | Some c => if length m =? length (c_mask c)
                              then {| n_shape := n_shape l; n_wb := n_wb l; n_mut := Some {| c_mask := m; c_state := c_state c |} |} else l
                  | None => l
                  end
    | Forward x => fst (ln_forward l x)
    end.
  Definition ln_run (l : dln) (es : list ln_event) : dln := fold_left ln_step es l.
  (** A new layer of [n] features. *)
  Definition ln_new (n : nat) (wb : option (list A * list A)) : dln := {| n_shape := n; n_wb := wb; n_mut := None |}.
End LayerNorm.

(** * DynamicSequential (dynamic_container.py) *)
Section Sequential.
  Variable X : Type.
  (** A child: whether its class is in forward_ignored_module, and its forward. *)
  Record child := { ch_ignored : bool; ch_forward : X -> outcome X }.
  Record depth := { dp_choice : option Z; dp_state : Dynamic_Model.mutable_kind * bool }.
  (** [q_children] are the modules given to the constructor; _modules has mutable_attrs behind them. *)
  Record dseq := { q_children : list child; q_depth : option depth }.
  Definition attrs_child : child := {| ch_ignored := true; ch_forward := fun _ => Raise NotImplementedError |}.
  Definition modules (s : dseq) : list child := q_children s ++ [attrs_child].
  (** register_mutable_attr (32-49). *)
  Definition seq_register (attr : string) (d : depth) (s : dseq) : outcome dseq :=
    if String.eqb attr "depth" then
      match dp_choice d with
      | None => Raise AssertionError
      | Some z => if Z.ltb (Z.of_nat (length (modules s))) z then Raise ValueError
                  else Ok {| q_children := q_children s; q_depth := Some d |}
      end
    else Raise NotImplementedError.
  Definition current (d : depth) : outcome Z := match dp_choice d with Some z => Ok z | None => Raise RuntimeError end.
  (** The loop of to_static_op (56-77). *)
  Fixpoint collect (fixed : Z) (passed : Z) (ms : list child) : list child :=
    match ms with
    | [] => []
    | m :: r => if ch_ignored m then collect fixed passed r
                else if Z.ltb fixed (passed + 1) then [] else m :: collect fixed (passed + 1) r
    end.
  Definition seq_to_static (s : dseq) : outcome (list child) :=
    do _ <- Dynamic_Model.check_if_mutables_fixed (match q_depth s with Some d => [dp_state d] | None => [] end);
    do d <- get_attr (q_depth s);
    do z <- current d;
    Ok (collect z 0 (modules s)).
  (** nn.Sequential.forward. *)
  Fixpoint run_all (ms : list child) (x : X) : outcome X :=
    match ms with [] => Ok x | m :: r => do y <- ch_forward m x; run_all r y end.
  (** forward (79-91) over pure_modules (98-103). *)
  Definition pure_modules (s : dseq) : list child := filter (fun m => negb (ch_ignored m)) (modules s).
  Fixpoint run_until (cur passed : Z) (ms : list child) (x : X) : outcome X :=
    match ms with
    | [] => Ok x
    | m :: r => if Z.ltb cur (passed + 1) then Ok x else do y <- ch_forward m x; run_until cur (passed + 1) r y
    end.
  Definition seq_forward (s : dseq) (x : X) : outcome X :=
    do d <- get_attr (q_depth s);
    do z <- current d;
    run_until z 0 (pure_modules s) x.
End Sequential.

(** * DynamicPatchEmbed (dynamic_embed.py) *)
Section PatchEmbed.
  Variable A : Type.
  Variables (zero : A) (add mul : A -> A -> A).
  Notation weight := (Dynamic_Model.weight A).
  Notation geom := Dynamic_Model.geom.
  Notation image := (Dynamic_Model.image A).

  (** mmcls PatchEmbed: a convolution, whose output is flattened to tokens, and an optional normalisation. *)
  Record patch := { p_geom : geom; p_weight : weight; p_bias : option (list A); p_norm : option (list (list A) -> list (list A)) }.
  (** x.flatten(2).transpose(1, 2): token i has entry i of every channel. *)
  Definition tokens (planes : list image) : list (list A) :=
    let chans := map (fun p => concat p) planes in
    map (fun i => map (fun c => nth i c zero) chans) (seq 0 (match chans with c :: _ => length c | [] => 0 end)).
  Definition finish (norm : option (list (list A) -> list (list A))) (planes : list image) : list (list A) :=
    match norm with Some f => f (tokens planes) | None => tokens planes end.
  Definition patch_forward (p : patch) (h w : Z) (x : list image) : outcome (list (list A)) :=
    do y <- Dynamic_Model.conv2d A zero add mul (p_geom p) 1 (p_weight p) (p_bias p) h w x; Ok (finish (p_norm p) y).
  Record dpatch := { dp_patch : patch; dp_mut : option channels }.
  (** _get_dynamic_params (89-99). *)
  Definition patch_params (d : dpatch) : outcome (weight * option (list A)) :=
    let p := dp_patch d in
    match dp_mut d with
    | None => Ok (p_weight p, p_bias p)
    | Some c =>
        do rows <- Dynamic_Model.mask_index (c_mask c) (Dynamic_Model.w_rows A (p_weight p));
        do bias <- match p_bias p with None => Ok None | Some b => do b' <- Dynamic_Model.mask_index (c_mask c) b; Ok (Some b') end;
        Ok ({| Dynamic_Model.w_in := Dynamic_Model.w_in A (p_weight p); Dynamic_Model.w_k := Dynamic_Model.w_k A (p_weight p); Dynamic_Model.w_rows := rows |}, bias)
    end.
  (** forward (140-154): the stride is 16. *)
  Definition dpatch_forward (d : dpatch) (h w : Z) (x : list image) : outcome (list (list A)) :=
    do (wt, bias) <- patch_params d;
    let g := p_geom (dp_patch d) in
    do y <- Dynamic_Model.conv2d A zero add mul {| Dynamic_Model.g_stride := 16; Dynamic_Model.g_pad := Dynamic_Model.g_pad g; Dynamic_Model.g_dil := Dynamic_Model.g_dil g |} 1 wt bias h w x;
    Ok (finish (p_norm (dp_patch d)) y).
  (** to_static_op (101-115): a PatchEmbed with the defaults of mmcls (a convolution with stride 16, no padding and no
      dilation, no normalisation) whose convolution gets the selected weights. *)
  Definition default_geom : geom := {| Dynamic_Model.g_stride := 16; Dynamic_Model.g_pad := 0; Dynamic_Model.g_dil := 1 |}.
  Definition dpatch_to_static (d : dpatch) : outcome patch :=
    do _ <- Dynamic_Model.check_if_mutables_fixed (match dp_mut d with Some c => [c_state c] | None => [] end);
    do _ <- get_attr (dp_mut d);
    do (wt, bias) <- patch_params d;
    match bias with
    | None => Raise AttributeError
    | Some b => Ok {| p_geom := default_geom; p_weight := wt; p_bias := Some b; p_norm := None |}
    end.
  (** convert_from (122-138). *)
  Definition dpatch_convert (p : patch) : dpatch := {| dp_patch := p; dp_mut := None |}.
End PatchEmbed.
