(** The quantization backends' operator tables:
    structures/quantization/backend_config/common_operator_config_utils.py, academic.py,
    native.py, openvino.py, tensorrt.py and mapping.py.

    Simplifications.  Torch modules, functions and method names are strings (two different
    names are two different objects; a method name has a leading dot).  [BackendPatternConfig] and
    [BackendConfig] are torch's: a pattern config is a record of what the setters stored, and
    [set_backend_pattern_config] stores the config under its pattern
    ([self.configs[config.pattern] = config]).  The observation type defaults to
    [OUTPUT_USE_DIFFERENT_OBSERVER_AS_INPUT], as in torch's constructor.  Fuser methods and
    the placeholders used when torch is too old are not modelled. *)
From Verif Require Import Prelude.

(** A pattern: one op, or a (reversed) pair [(outer, inner)]. *)
Inductive pat : Type := One (s : string) | Two (s : string) (p : pat).
Fixpoint pat_eqb (a b : pat) : bool :=
  match a, b with
  | One s, One t => String.eqb s t
  | Two s p, Two t q => String.eqb s t && pat_eqb p q
  | _, _ => false
  end.

Inductive obs : Type := Different | Share.
Record dtype := { d_in : string; d_out : string; d_weight : option string; d_bias : option string; d_dynamic : bool }.
Record cfg := { c_pat : pat; c_obs : obs; c_dtypes : list dtype; c_root : option string; c_qat : option string;
                c_ref : option string; c_fused : option string; c_index : list (string * Z);
                c_args : list (Z * obs); c_observed : bool }.
(** torch's [BackendPatternConfig(pattern)] and its setters. *)
Definition new (p : pat) : cfg :=
  {| c_pat := p; c_obs := Different; c_dtypes := []; c_root := None; c_qat := None; c_ref := None;
     c_fused := None; c_index := []; c_args := []; c_observed := true |}.
Definition set_obs (o : obs) (c : cfg) : cfg :=
  {| c_pat := c_pat c; c_obs := o; c_dtypes := c_dtypes c; c_root := c_root c; c_qat := c_qat c; c_ref := c_ref c;
     c_fused := c_fused c; c_index := c_index c; c_args := c_args c; c_observed := c_observed c |}.
Definition set_dtypes (d : list dtype) (c : cfg) : cfg :=
  {| c_pat := c_pat c; c_obs := c_obs c; c_dtypes := d; c_root := c_root c; c_qat := c_qat c; c_ref := c_ref c;
     c_fused := c_fused c; c_index := c_index c; c_args := c_args c; c_observed := c_observed c |}.
Definition add_dtype (d : dtype) (c : cfg) : cfg := set_dtypes (c_dtypes c ++ [d]) c.
Definition set_root (s : string) (c : cfg) : cfg :=
  {| c_pat := c_pat c; c_obs := c_obs c; c_dtypes := c_dtypes c; c_root := Some s; c_qat := c_qat c; c_ref := c_ref c;
     c_fused := c_fused c; c_index := c_index c; c_args := c_args c; c_observed := c_observed c |}.
Definition set_qat (s : string) (c : cfg) : cfg :=
  {| c_pat := c_pat c; c_obs := c_obs c; c_dtypes := c_dtypes c; c_root := c_root c; c_qat := Some s; c_ref := c_ref c;
     c_fused := c_fused c; c_index := c_index c; c_args := c_args c; c_observed := c_observed c |}.
Definition set_ref (s : string) (c : cfg) : cfg :=
  {| c_pat := c_pat c; c_obs := c_obs c; c_dtypes := c_dtypes c; c_root := c_root c; c_qat := c_qat c; c_ref := Some s;
     c_fused := c_fused c; c_index := c_index c; c_args := c_args c; c_observed := c_observed c |}.
Definition set_fused (s : string) (c : cfg) : cfg :=
  {| c_pat := c_pat c; c_obs := c_obs c; c_dtypes := c_dtypes c; c_root := c_root c; c_qat := c_qat c; c_ref := c_ref c;
     c_fused := Some s; c_index := c_index c; c_args := c_args c; c_observed := c_observed c |}.
Definition set_index (l : list (string * Z)) (c : cfg) : cfg :=
  {| c_pat := c_pat c; c_obs := c_obs c; c_dtypes := c_dtypes c; c_root := c_root c; c_qat := c_qat c; c_ref := c_ref c;
     c_fused := c_fused c; c_index := l; c_args := c_args c; c_observed := c_observed c |}.
Definition set_args (l : list (Z * obs)) (c : cfg) : cfg :=
  {| c_pat := c_pat c; c_obs := c_obs c; c_dtypes := c_dtypes c; c_root := c_root c; c_qat := c_qat c; c_ref := c_ref c;
     c_fused := c_fused c; c_index := c_index c; c_args := l; c_observed := c_observed c |}.
Definition set_observed (b : bool) (c : cfg) : cfg :=
  {| c_pat := c_pat c; c_obs := c_obs c; c_dtypes := c_dtypes c; c_root := c_root c; c_qat := c_qat c; c_ref := c_ref c;
     c_fused := c_fused c; c_index := c_index c; c_args := c_args c; c_observed := b |}.

(** torch's [BackendConfig]: a dictionary from patterns to configs. *)
Definition table := list (pat * cfg).
Fixpoint set_config (t : table) (c : cfg) : table :=
  match t with
  | [] => [(c_pat c, c)]
  | (p, d) :: r => if pat_eqb (c_pat c) p then (p, c) :: r else (p, d) :: set_config r c
  end.
Definition set_configs (t : table) (cs : list cfg) : table := fold_left set_config cs t.
Fixpoint look (t : table) (p : pat) : option cfg :=
  match t with [] => None | (q, c) :: r => if pat_eqb p q then Some c else look r p end.

(** common_operator_config_utils.py 46-74: the modules of one dimension [n] ("1d", "2d", "3d"). *)
Definition root_of (n : string) : string := ("nn.Conv" ++ n)%string.
Definition transpose_of (n : string) : string := ("nn.ConvTranspose" ++ n)%string.
Definition bn_of (n : string) : string := ("nn.BatchNorm" ++ n)%string.
Definition reference_of (n : string) : string := ("nnqr.Conv" ++ n)%string.
Definition transpose_reference_of (n : string) : string := ("nnqr.ConvTranspose" ++ n)%string.
Definition fused_relu_of (n : string) : string := ("nni.ConvReLU" ++ n)%string.
Definition fused_bn_of (n : string) : string := ("nni.ConvBn" ++ n)%string.
Definition fused_bn_relu_of (n : string) : string := ("nni.ConvBnReLU" ++ n)%string.
Definition qat_of (n : string) : string := ("nnqat.Conv" ++ n)%string.
Definition relu_qat_of (n : string) : string := ("nniqat.ConvReLU" ++ n)%string.
Definition bn_qat_of (n : string) : string := ("nniqat.ConvBn" ++ n)%string.
Definition bn_relu_qat_of (n : string) : string := ("nniqat.ConvBnReLU" ++ n)%string.
Definition func_of (n : string) : string := ("F.conv" ++ n)%string.

(** common_operator_config_utils.py 213-377 (_get_conv_configs), the body of the loop. *)
Definition conv_configs_of (ds : list dtype) (n : string) : list cfg :=
  [set_qat (qat_of n) (set_ref (reference_of n) (set_root (root_of n) (set_dtypes ds (set_obs Different (new (One (root_of n)))))));
   set_ref (reference_of n) (set_root (root_of n) (set_dtypes ds (set_obs Different (new (One (qat_of n))))));
   set_index [("weight", 1); ("bias", 2)]%string (set_dtypes ds (set_obs Different (new (One (func_of n)))));
   set_fused (fused_relu_of n) (set_dtypes ds (new (Two "nn.ReLU" (One (root_of n)))));
   set_fused (fused_relu_of n) (set_dtypes ds (new (Two "F.relu" (One (root_of n)))));
   set_qat (relu_qat_of n) (set_ref (reference_of n) (set_root (root_of n) (set_dtypes ds (set_obs Different (new (One (fused_relu_of n)))))));
   set_ref (reference_of n) (set_root (root_of n) (set_dtypes ds (set_obs Different (new (One (relu_qat_of n))))));
   set_dtypes ds (set_obs Different (new (Two "nn.ReLU" (One (func_of n)))));
   set_dtypes ds (set_obs Different (new (Two "F.relu" (One (func_of n)))));
   set_qat (relu_qat_of n) (set_dtypes ds (new (One (fused_relu_of n))));
   set_ref (reference_of n) (set_root (root_of n) (set_dtypes ds (new (One (relu_qat_of n)))));
   set_fused (fused_bn_of n) (set_dtypes ds (new (Two (bn_of n) (One (root_of n)))));
   set_fused (fused_bn_relu_of n) (set_dtypes ds (new (Two "nn.ReLU" (Two (bn_of n) (One (root_of n))))));
   set_fused (fused_bn_relu_of n) (set_root (root_of n) (set_dtypes ds (new (Two "F.relu" (Two (bn_of n) (One (root_of n)))))));
   set_qat (bn_qat_of n) (set_dtypes ds (new (One (fused_bn_of n))));
   set_qat (bn_relu_qat_of n) (set_dtypes ds (new (One (fused_bn_relu_of n))));
   set_ref (reference_of n) (set_root (root_of n) (set_dtypes ds (set_obs Different (new (One (bn_qat_of n))))));
   set_ref (reference_of n) (set_root (root_of n) (set_dtypes ds (set_obs Different (new (One (bn_relu_qat_of n))))));
   set_ref (transpose_reference_of n) (set_root (transpose_of n) (set_dtypes ds (new (One (transpose_of n)))));
   set_ref (transpose_reference_of n) (set_root (transpose_of n) (set_dtypes ds (new (Two (bn_of n) (One (transpose_of n))))))].
(** common_operator_config_utils.py 213-217: the three dimensions in turn. *)
Definition conv_configs (ds : list dtype) : list cfg := flat_map (conv_configs_of ds) ["1d"; "2d"; "3d"]%string.

(** common_operator_config_utils.py 110-210 (_get_linear_configs). *)
Definition linear_configs (ds : list dtype) : list cfg :=
  [set_qat "nnqat.Linear" (set_ref "nnqr.Linear" (set_root "nn.Linear" (set_dtypes ds (set_obs Different (new (One "nn.Linear"))))));
   set_ref "nnqr.Linear" (set_root "nn.Linear" (set_dtypes ds (set_obs Different (new (One "nnqat.Linear")))));
   set_index [("weight", 1); ("bias", 2)]%string (set_dtypes ds (set_obs Different (new (One "F.linear"))));
   set_fused "nni.LinearReLU" (set_dtypes ds (new (Two "nn.ReLU" (One "nn.Linear"))));
   set_fused "nni.LinearReLU" (set_dtypes ds (new (Two "F.relu" (One "nn.Linear"))));
   set_qat "nniqat.LinearReLU" (set_ref "nnqr.Linear" (set_root "nn.Linear" (set_dtypes ds (set_obs Different (new (One "nni.LinearReLU"))))));
   set_ref "nnqr.Linear" (set_root "nn.Linear" (set_dtypes ds (set_obs Different (new (One "nniqat.LinearReLU")))));
   set_dtypes ds (set_obs Different (new (Two "nn.ReLU" (One "F.linear"))));
   set_dtypes ds (set_obs Different (new (Two "F.relu" (One "F.linear"))));
   set_fused "nni.LinearBn1d" (set_dtypes ds (new (Two "nn.BatchNorm1d" (One "nn.Linear"))));
   set_qat "nniqat.LinearBn1d" (set_ref "nnqr.Linear" (set_root "nn.Linear" (set_dtypes ds (set_obs Different (new (One "nni.LinearBn1d"))))));
   set_ref "nnqr.Linear" (set_root "nn.Linear" (set_dtypes ds (set_obs Different (new (One "nniqat.LinearBn1d")))))]%string.

(** common_operator_config_utils.py 77-107 (_get_binary_op_configs). *)
Definition arg_obs : list (Z * obs) := [(0, Different); (1, Share); (2, Different)].
Definition binary_configs (ds : list dtype) : list cfg :=
  flat_map (fun op => map (fun p => set_args arg_obs (set_dtypes ds (new p)))
                          [Two "nn.ReLU" (One op); Two "F.relu" (One op); Two "torch.relu" (One op); One op])
           ["operator.add"; "torch.add"; "operator.mul"; "torch.mul"]%string
  ++ [set_dtypes ds (new (One "torch.matmul"))].

(** common_operator_config_utils.py 380-384 (_get_cat_config). *)
Definition cat_config (ds : list dtype) : cfg := set_dtypes ds (set_obs Share (new (One "torch.cat"))).
(** common_operator_config_utils.py 387-404 (_get_ln_configs). *)
Definition ln_configs (ds : list dtype) : list cfg :=
  [set_dtypes ds (set_obs Different (new (One "nn.LayerNorm")));
   set_index [("weight", 2); ("bias", 3)] (set_dtypes ds (set_obs Different (new (One "F.layer_norm"))))]%string.
(** common_operator_config_utils.py 407-450 (_get_default_op_configs). *)
Definition default_configs (ds : list dtype) : list cfg :=
  map (fun op => set_dtypes ds (set_obs Different (new (One op))))
      ["nn.ELU"; "nn.LeakyReLU"; "nn.Hardswish"; "nn.InstanceNorm1d"; "nn.InstanceNorm2d"; "nn.InstanceNorm3d"; "nn.Dropout";
       "nn.PReLU"; "F.elu"; "F.hardswish"; "F.leaky_relu"; "F.dropout"]%string
  ++ [set_index [("weight", 2); ("bias", 3)]%string (set_dtypes ds (set_obs Different (new (One "F.group_norm"))));
      set_index [("weight", 3); ("bias", 4)]%string (set_dtypes ds (set_obs Different (new (One "F.instance_norm"))))].
(** common_operator_config_utils.py 453-473 (_get_fixed_qparams_op_configs): [ops] are the
    keys of torch's [_FIXED_QPARAMS_OP_TO_OBSERVER]; the observers stored beside them are not
    kept. *)
Definition fixed_configs (ops : list string) (ds : list dtype) : list cfg :=
  map (fun op => set_dtypes ds (set_obs Different (new (One op)))) ops.
(** common_operator_config_utils.py 476-550 (_get_share_qparams_op_configs). *)
Definition share_ops : list string :=
  ["nn.AdaptiveAvgPool1d"; "nn.AdaptiveAvgPool2d"; "nn.AdaptiveAvgPool3d"; "nn.AvgPool1d"; "nn.AvgPool2d"; "nn.AvgPool3d";
   "nn.Hardtanh"; "nn.Identity"; "nn.MaxPool1d"; "nn.MaxPool2d"; "nn.MaxPool3d"; "nn.ReLU"; "torch.adaptive_avg_pool1d";
   "F.adaptive_avg_pool2d"; "F.adaptive_avg_pool3d"; "F.hardtanh"; "F.hardtanh_"; "F.interpolate"; "F.max_pool1d";
   "F.max_pool2d"; "F.max_pool3d"; "F.relu"; "F.relu6"; "torch.avg_pool1d"; "torch._C._nn.avg_pool2d";
   "torch._C._nn.avg_pool3d"; "torch.clamp"; "torch.flatten"; "torch.mean"; "torch.repeat_interleave"; "torch.transpose";
   "torch.squeeze"; "torch.stack"; "torch.unsqueeze"; "operator.floordiv"; ".contiguous"; ".clamp"; ".detach"; ".detach_";
   ".mean"; ".permute"; ".repeat"; ".repeat_interleave"; ".reshape"; ".resize_"; ".relu"; ".relu_"; ".shape"; ".size";
   ".squeeze"; ".squeeze_"; ".transpose"; ".unsqueeze"; ".unsqueeze_"; ".view"]%string.
Definition share_configs (ds : list dtype) : list cfg :=
  map (fun op => set_dtypes ds (set_obs Share (new (One op)))) share_ops.
(** common_operator_config_utils.py 553-590 (_get_bn_configs). *)
Definition bn_to_fused : list (string * string) :=
  [("nn.BatchNorm2d", "nni.BNReLU2d"); ("nn.BatchNorm3d", "nni.BNReLU3d")]%string.
Definition bn_configs (ds : list dtype) : list cfg :=
  flat_map (fun b => [set_fused (snd b) (set_dtypes ds (new (Two "nn.ReLU" (One (fst b)))));
                      set_fused (snd b) (set_dtypes ds (new (Two "F.relu" (One (fst b)))));
                      set_dtypes ds (set_obs Different (new (One (fst b))))]) bn_to_fused
  ++ map (fun b => set_dtypes ds (set_obs Different (new (One (snd b))))) bn_to_fused.
(** common_operator_config_utils.py 593-606 (_get_rnn_op_configs). *)
Definition rnn_configs (ds : list dtype) : list cfg :=
  map (fun r => set_ref (snd r) (set_root (fst r) (set_dtypes ds (set_obs Different (new (One (fst r)))))))
      [("nn.GRUCell", "nnqr.GRUCell"); ("nn.LSTMCell", "nnqr.LSTMCell"); ("nn.RNNCell", "nnqr.RNNCell");
       ("nn.LSTM", "nnqr.LSTM")]%string.
(** common_operator_config_utils.py 609-633 (_get_embedding_op_configs). *)
Definition embedding_configs (ds : list dtype) : list cfg :=
  flat_map (fun e => match e with (op, qat, ref) =>
      [set_observed false (set_ref ref (set_root op (set_qat qat (set_dtypes ds (set_obs Different (new (One op)))))));
       set_observed false (set_ref ref (set_root op (set_dtypes ds (set_obs Different (new (One qat))))))] end)
    [("nn.Embedding", "nnqat.Embedding", "nnqr.Embedding"); ("nn.EmbeddingBag", "nnqat.EmbeddingBag", "nnqr.EmbeddingBag")]%string.

(** native.py 37-91, academic.py 32-37, openvino.py 30-39, tensorrt.py 28-33: the dtype configs. *)
Definition weighted_quint8 : dtype :=
  {| d_in := "quint8"; d_out := "quint8"; d_weight := Some "qint8"%string; d_bias := Some "float"%string; d_dynamic := false |}.
Definition weighted_qint8 : dtype :=
  {| d_in := "qint8"; d_out := "qint8"; d_weight := Some "qint8"%string; d_bias := Some "float"%string; d_dynamic := false |}.
Definition default_quint8 : dtype :=
  {| d_in := "quint8"; d_out := "quint8"; d_weight := None; d_bias := None; d_dynamic := false |}.
Definition dynamic_int8 : dtype :=
  {| d_in := "quint8"; d_out := "float"; d_weight := Some "qint8"%string; d_bias := Some "float"%string; d_dynamic := true |}.
Definition dynamic_float16 : dtype :=
  {| d_in := "float16"; d_out := "float"; d_weight := Some "float16"%string; d_bias := Some "float"%string; d_dynamic := true |}.
Definition input_output_only : dtype :=
  {| d_in := "quint8"; d_out := "quint8"; d_weight := Some "float"%string; d_bias := Some "float"%string; d_dynamic := false |}.
Definition weight_only_quint8 : dtype :=
  {| d_in := "float"; d_out := "float"; d_weight := Some "quint8"%string; d_bias := None; d_dynamic := false |}.
Definition weight_only_quint4x2 : dtype :=
  {| d_in := "float"; d_out := "float"; d_weight := Some "quint4x2"%string; d_bias := None; d_dynamic := false |}.

(** tensorrt.py 35-43 and openvino.py 41-49. *)
Definition addmm_config (d : dtype) : cfg :=
  set_index [("bias", 0); ("input", 1); ("weight", 2)]%string (add_dtype d (set_obs Different (new (One "torch.addmm")))).

(** academic.py 39-44 (get_academic_backend_config), tensorrt.py 44-56, openvino.py 50-78: the
    lists of configs in the order in which they are set. *)
Definition academic_list : list cfg := conv_configs [weighted_quint8] ++ linear_configs [weighted_quint8].
Definition tensorrt_list : list cfg :=
  conv_configs [weighted_qint8] ++ [addmm_config weighted_qint8] ++ linear_configs [weighted_qint8].
Definition openvino_list : list cfg :=
  conv_configs [weighted_quint8] ++ [addmm_config weighted_quint8]
  ++ [add_dtype default_quint8 (set_obs Share (new (One "torch.cat")))]
  ++ linear_configs [weighted_quint8] ++ binary_configs [weighted_quint8] ++ share_configs [default_quint8].
(** native.py 93-135 (get_native_backend_config), [ops] as in [fixed_configs]. *)
Definition native_list (ops : list string) : list cfg :=
  conv_configs [weighted_quint8]
  ++ linear_configs [weighted_quint8; dynamic_int8; dynamic_float16]
  ++ binary_configs [weighted_quint8]
  ++ [cat_config [default_quint8]]
  ++ default_configs [default_quint8]
  ++ fixed_configs ops [weighted_quint8]
  ++ share_configs [default_quint8]
  ++ bn_configs [default_quint8]
  ++ ln_configs [input_output_only]
  ++ rnn_configs [dynamic_int8; dynamic_float16]
  ++ embedding_configs [weight_only_quint8; weight_only_quint4x2].
Definition academic : table := set_configs [] academic_list.
Definition tensorrt : table := set_configs [] tensorrt_list.
Definition openvino : table := set_configs [] openvino_list.
Definition native (ops : list string) : table := set_configs [] (native_list ops).

(** mapping.py 10-25: [v] is [digit_version(torch.__version__)], compared as a tuple. *)
Fixpoint tuple_leb (a b : list Z) : bool :=
  match a, b with
  | [], _ => true
  | _ :: _, [] => false
  | x :: r, y :: s => (x <? y) || ((x =? y) && tuple_leb r s)
  end.
Definition backend_configs (v : list Z) (ops : list string) : list (string * option table) :=
  if tuple_leb [1; 13; 0; 0; 0; 0] v && tuple_leb v [1; 13; 1; 0; 0; 0]
  then [("academic", Some academic); ("native", Some (native ops)); ("tensorrt", Some tensorrt); ("openvino", Some openvino)]%string
  else [("academic", None); ("native", None); ("tensorrt", None); ("openvino", None)]%string.
