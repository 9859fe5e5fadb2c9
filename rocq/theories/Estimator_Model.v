(** FLOPs and parameter counting and the resource estimator:
    models/task_modules/estimators/counters/flops_params_counter.py,
    counters/op_counters/*.py and resource_estimator.py.

    Simplifications.  FLOPs are exact rationals (the code uses python ints and floats, and
    the layer sizes of the code stay far below 2^53).  The forward pass itself is not
    modelled: it is a list of calls, each naming the module that was called and the FLOPs its
    counter computed for the shapes of that call.  A module tree node carries an identity, so
    that one module registered at two places is one identity occurring twice. *)
From Verif Require Import Prelude Recorder_Model.

(** * Layer counters *)
Definition prodZ (l : list Z) : Z := fold_right Z.mul 1 l.

Record conv := { cv_in : Z; cv_out : Z; cv_groups : Z; cv_kernel : list Z; cv_bias : bool }.

(** conv_layer_counter.py 13-44 (ConvCounter.add_count_hook): what one call adds to
    [__flops__] and [__params__]; [/] on line 25 is true division. *)
Definition conv_flops (c : conv) (batch : Z) (output_dims : list Z) : Q :=
  let filters_per_channel := (inject_Z (cv_out c) / inject_Z (cv_groups c))%Q in
  let per_position := (inject_Z (prodZ (cv_kernel c) * cv_in c) * filters_per_channel)%Q in
  let active := batch * prodZ output_dims in
  let bias_flops := if cv_bias c then cv_out c * active else 0 in
  (per_position * inject_Z active + inject_Z bias_flops)%Q.
Definition conv_params (c : conv) : Z :=
  let filters_per_channel := (inject_Z (cv_out c) / inject_Z (cv_groups c))%Q in
  let per_position := (inject_Z (prodZ (cv_kernel c) * cv_in c) * filters_per_channel)%Q in
  Qtrunc (per_position + (if cv_bias c then inject_Z (cv_out c) else 0))%Q.

(** conv_layer_counter.py 65-115 (DynamicConv2dCounter.add_count_hook): the activated channel
    numbers replace the static ones, kernel size and groups stay those of the layer (line 91).
    [act_in], [act_out] are [None] when the layer has no such mutable. *)
Definition dyn_conv (c : conv) (act_in act_out : option Z) : conv :=
  {| cv_in := match act_in with Some i => i | None => cv_in c end;
     cv_out := match act_out with Some o => o | None => cv_out c end;
     cv_groups := cv_groups c; cv_kernel := cv_kernel c; cv_bias := cv_bias c |}.
Definition dyn_conv_flops (c : conv) (act_in act_out : option Z) (batch : Z) (output_dims : list Z) : Q :=
  conv_flops (dyn_conv c act_in act_out) batch output_dims.

(** The static layer that dynamic_conv_mixins.py 207-243 (to_static_op) builds from the
    sliced weights: a depthwise layer gets as many groups as it has active inputs; otherwise
    the groups are kept. *)
Definition sliced_conv (c : conv) (act_in act_out : option Z) : conv :=
  let d := dyn_conv c act_in act_out in
  if (cv_groups c =? cv_in c) && (cv_in c =? cv_out c)
  then {| cv_in := cv_in d; cv_out := cv_out d; cv_groups := cv_in d; cv_kernel := cv_kernel c; cv_bias := cv_bias c |}
  else d.

(** deconv_layer_counter.py 13-39 (ConvTranspose2dCounter.add_count_hook); [//] is floor
    division and line 35 multiplies the output height by itself. *)
Definition deconv_flops (c : conv) (batch ih iw oh ow : Z) : Z :=
  let filters_per_channel := cv_out c / cv_groups c in
  let per_position := prodZ (cv_kernel c) * cv_in c * filters_per_channel in
  let active := batch * ih * iw in
  let bias_flops := if cv_bias c then cv_out c * batch * oh * oh else 0 in
  per_position * active + bias_flops.

(** linear_layer_counter.py 14-20, norm_layer_counter.py 12-19, pooling_layer_counter.py
    12-16: functions of the input shape.  upsample_layer_counter.py 13-20: [output[0]] is
    the first image of the output batch, so lines 14-18 multiply the sizes of one image. *)
Inductive layer : Type :=
| Conv (c : conv) (output_dims : list Z)
| Linear (inner : list Z) (out_features : Z)
| BatchNorm (inner : list Z) (affine : bool)
| Pool (inner : list Z)
| Upsample (inner : list Z).
Definition layer_flops (l : layer) (batch : Z) : Q :=
  match l with
  | Conv c o => conv_flops c batch o
  | Linear s o => inject_Z (prodZ (batch :: s) * o)
  | BatchNorm s a => inject_Z (prodZ (batch :: s) * (if a then 2 else 1))
  | Pool s => inject_Z (prodZ (batch :: s))
  | Upsample s => inject_Z (prodZ s)
  end.

(** * Module trees *)
Inductive tree : Type := Node (id : nat) (supported : bool) (kids : list tree).
Definition root (t : tree) : nat := match t with Node i _ _ => i end.
Definition supp (t : tree) : bool := match t with Node _ s _ => s end.

(** Keep the first occurrence of each identity ([memo] sets of torch's [named_modules] and
    [named_children]). *)
Fixpoint uniq (seen : list nat) (l : list tree) : list tree :=
  match l with
  | [] => []
  | t :: r => if existsb (Nat.eqb (root t)) seen then uniq seen r else t :: uniq (root t :: seen) r
  end.

(** All nodes in pre-order; [modules] is torch's [Module.modules()]. *)
Fixpoint subtrees (t : tree) : list tree :=
  match t with Node _ _ ks => t :: flat_map subtrees ks end.
Definition modules (t : tree) : list tree := uniq [] (subtrees t).

(** The counting state: [__flops__] and [__params__] of every module. *)
Record counts := { flops : nat -> Q; params : nat -> Q }.
(** flops_params_counter.py 496-505 (reset). *)
Definition reset : counts := {| flops := fun _ => 0%Q; params := fun _ => 0%Q |}.
(** 394-424: a supported module that is not disabled gets a hook; the counter adds the FLOPs
    of this call and the layer's parameters at every call (conv_layer_counter.py 43-44). *)
Definition on_call (own : nat -> Q) (s : counts) (call : nat * Q) : counts :=
  let (i, f) := call in
  {| flops := upd (flops s) i (flops s i + f)%Q; params := upd (params s) i (params s i + own i)%Q |}.
(** [calls]: the calls of hooked modules during the forward pass. *)
Definition run (own : nat -> Q) (calls : list (nat * Q)) : counts := fold_left (on_call own) calls reset.

(** 373-391 (compute_average_flops_params_cost). *)
Definition sumQ (l : list Q) : Q := fold_right Qplus 0%Q l.
Definition compute_average (t : tree) (batch : Q) (s : counts) : Q * Q :=
  let ms := filter supp (modules t) in
  ((sumQ (map (fun m => flops s (root m)) ms) / batch)%Q, sumQ (map (fun m => params s (root m)) ms)).

(** 304-324 (accumulate_flops / accumulate_params): a supported module reports its own value,
    any other module the sum over its (distinct) children. *)
Fixpoint acc (v : nat -> Q) (t : tree) : Q :=
  match t with
  | Node i true _ => v i
  | Node _ false ks =>
      (fix go (seen : list nat) (l : list tree) : Q :=
         match l with
         | [] => 0%Q
         | k :: r => if existsb (Nat.eqb (root k)) seen then go seen r else (acc v k + go (root k :: seen) r)%Q
         end) [] ks
  end.
(** 326-333: every module in pre-order; the result replaces the module's own value, converted
    to the requested units ([cf], [cp]; identities when [units] is [None]). *)
Definition acc_step (batch : Q) (cf cp : Q -> Q) (s : counts) (m : tree) : counts :=
  {| flops := upd (flops s) (root m) (cf (acc (fun i => flops s i / batch)%Q m));
     params := upd (params s) (root m) (cp (acc (params s) m)) |}.
Definition accumulate (batch : Q) (cf cp : Q -> Q) (t : tree) (s : counts) : counts :=
  fold_left (acc_step batch cf cp) (modules t) s.

(** * ResourceEstimator *)
(** Configuration values: only [spec_modules] and [seperate_return] are looked into. *)
Inductive cval : Type := CBool (b : bool) | CNames (l : list string) | COther (s : string).
Definition cfg := list (string * cval).
Fixpoint cget (c : cfg) (k : string) : option cval :=
  match c with [] => None | (k', v) :: r => if String.eqb k k' then Some v else cget r k end.
(** [d[k] = v] on a dict. *)
Fixpoint cput (c : cfg) (k : string) (v : cval) : cfg :=
  match c with [] => [(k, v)] | (k', w) :: r => if String.eqb k k' then (k, v) :: r else (k', w) :: cput r k v end.
(** [{**a, **b}]. *)
Definition cmerge (a b : cfg) : cfg := fold_left (fun d kv => cput d (fst kv) (snd kv)) b a.

(** What get_model_flops_params returns: a pair or, with [seperate_return], one entry per
    spec module. *)
Inductive cres : Type := RPair (f p : string) | RDict (d : list (string * (string * string))).

Record est := { e_input_shape : cval; e_units : cval; e_as_strings : cval; e_cfg : cfg }.

Section Estimator.
  (** The keys accepted by _check_flops_params_cfg and the counting function (it receives the
      keyword arguments). *)
  Variable legal : string -> bool.
  Variable counter : (string -> option cval) -> outcome cres.

  (** resource_estimator.py 183-192 (_check_flops_params_cfg). *)
  Definition check_cfg (c : cfg) : outcome unit := if forallb (fun kv => legal (fst kv)) c then Ok tt else Raise KeyError.
  (** 205-215 (_set_default_resource_params). *)
  Definition setdef (c : cfg) (k : string) (v : cval) : cfg := match cget c k with None => cput c k v | Some _ => c end.
  Definition set_defaults (e : est) (c : cfg) : cfg :=
    setdef (setdef (setdef c "input_shape"%string (e_input_shape e)) "units"%string (e_units e)) "as_strings"%string (e_as_strings e).
  (** 120-126 = 165-171: a non-empty per-call configuration is merged and completed,
      otherwise the estimator's own dictionary is used as it is. *)
  Definition resolve (e : est) (call : cfg) : outcome cfg :=
    match call with
    | [] => Ok (e_cfg e)
    | _ => let c := cmerge (e_cfg e) call in do _ <- check_cfg c; Ok (set_defaults e c)
    end.
  (** [flops, params = ...]: unpacking a dict of two entries yields its keys. *)
  Definition unpack (r : cres) : outcome (string * string) :=
    match r with
    | RPair f p => Ok (f, p)
    | RDict [(k1, _); (k2, _)] => Ok (k1, k2)
    | RDict _ => Raise ValueError
    end.
  (** 95-147 (estimate), FLOPs and parameters. *)
  Definition estimate (e : est) (call : cfg) : outcome (string * string) :=
    do c <- resolve e call; do r <- counter (cget c); unpack r.
  (** 149-181 (estimate_separation_modules).  Without a per-call configuration line 172 writes
      into the estimator's own dictionary, before the assertion of line 174. *)
  Definition separation (e : est) (call : cfg) : est * outcome cres :=
    match resolve e call with
    | Raise x => (e, Raise x)
    | Ok c =>
        let c' := cput c "seperate_return"%string (CBool true) in
        let e' := match call with
                  | [] => {| e_input_shape := e_input_shape e; e_units := e_units e; e_as_strings := e_as_strings e; e_cfg := c' |}
                  | _ => e
                  end in
        (e', match cget c' "spec_modules"%string with
             | None => Raise KeyError
             | Some (CNames []) => Raise AssertionError
             | Some _ => counter (cget c')
             end)
    end.
  (** Any sequence of calls on one estimator. *)
  Inductive op : Type := Estimate (c : cfg) | Separation (c : cfg).
  Definition step (e : est) (o : op) : est := match o with Estimate _ => e | Separation c => fst (separation e c) end.
  Definition history (e : est) (os : list op) : est := fold_left step os e.
End Estimator.
