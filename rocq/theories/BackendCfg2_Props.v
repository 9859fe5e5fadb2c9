(** C233, C235: what the backends say about linear layers, and which operators share observers. *)
From Verif Require Import Prelude BackendCfg_Model BackendCfg_Props.
Open Scope list_scope.
Open Scope Z_scope.

(** The way of a linear layer from floating point to quantized. *)
Theorem C233_linear : forall ds,
  let t := set_configs [] (linear_configs ds) in
  (forall act, act = "nn.ReLU"%string \/ act = "F.relu"%string -> exists c, look t (Two act (One "nn.Linear"%string)) = Some c /\
     c_fused c = Some "nni.LinearReLU"%string /\ c_dtypes c = ds) /\
  (forall act, act = "nn.ReLU"%string \/ act = "F.relu"%string -> exists c, look t (Two act (One "F.linear"%string)) = Some c /\
     c_fused c = None /\ c_obs c = Different /\ c_dtypes c = ds) /\
  (exists c, look t (Two "nn.BatchNorm1d" (One "nn.Linear")) = Some c /\ c_fused c = Some "nni.LinearBn1d"%string /\ c_dtypes c = ds) /\
  (forall k, In k [""; "ReLU"; "Bn1d"]%string ->
     exists c d, look t (One ((if String.eqb k "" then "nn." else "nni.") ++ "Linear" ++ k)%string) = Some c /\
       c_qat c = Some ((if String.eqb k "" then "nnqat." else "nniqat.") ++ "Linear" ++ k)%string /\
       c_root c = Some "nn.Linear"%string /\ c_ref c = Some "nnqr.Linear"%string /\ c_dtypes c = ds /\
       look t (One ((if String.eqb k "" then "nnqat." else "nniqat.") ++ "Linear" ++ k)%string) = Some d /\
       c_qat d = None /\ c_root d = Some "nn.Linear"%string /\ c_ref d = Some "nnqr.Linear"%string /\ c_dtypes d = ds) /\
  (exists c, look t (One "F.linear"%string) = Some c /\ c_index c = [("weight", 1); ("bias", 2)]%string /\ c_dtypes c = ds).
Proof.
  intros ds t. subst t. repeat split;
    try (intros act [-> | ->]); try (intros k K; cbn [In] in K; destruct K as [<- | [<- | [<- | []]]]);
    vm_compute; repeat (eexists || split).
Qed.
Example C233_linear_ex : exists c, look (set_configs [] (linear_configs [default_quint8])) (One "nni.LinearBn1d"%string) = Some c /\ c_qat c = Some "nniqat.LinearBn1d"%string.
Proof. vm_compute. repeat (eexists || split). Qed.

(** Every backend knows the linear layers and the convolutions, with its own dtypes. *)
Definition weighted (s : string) (d : dtype) : Prop :=
  d_in d = s /\ d_out d = s /\ d_weight d = Some "qint8"%string /\ d_bias d = Some "float"%string /\ d_dynamic d = false.
Theorem C233_weighted_layers : forall op,
  In op ["nn.Linear"; "F.linear"; "nn.Conv1d"; "nn.Conv2d"; "nn.Conv3d"; "nn.ConvTranspose1d"; "nn.ConvTranspose2d"; "nn.ConvTranspose3d";
         "F.conv1d"; "F.conv2d"; "F.conv3d"]%string ->
  (exists c d, look academic (One op) = Some c /\ c_dtypes c = [d] /\ weighted "quint8" d) /\
  (exists c d, look openvino (One op) = Some c /\ c_dtypes c = [d] /\ weighted "quint8" d) /\
  (exists c d, look tensorrt (One op) = Some c /\ c_dtypes c = [d] /\ weighted "qint8" d) /\
  (exists c d r, look (native []) (One op) = Some c /\ c_dtypes c = d :: r /\ weighted "quint8" d /\
     (In op ["nn.Linear"; "F.linear"]%string -> length r = 2%nat /\ Forall (fun e => d_dynamic e = true /\ d_out e = "float"%string) r)).
Proof.
  intros op H. cbn [In] in H.
  repeat (destruct H as [<-|H]; [
    split; [vm_compute; repeat (eexists || split)|]; split; [vm_compute; repeat (eexists || split)|];
    split; [vm_compute; repeat (eexists || split)|];
    eexists _, _, _; split; [vm_compute; reflexivity|]; split; [vm_compute; reflexivity|];
    split; [vm_compute; repeat split|];
    cbn [In]; intros K; repeat (destruct K as [K|K]; [try discriminate K|]); try contradiction; vm_compute; repeat constructor |]).
  contradiction.
Qed.
Example C233_weighted_ex : exists c, look academic (One "F.linear"%string) = Some c /\ c_dtypes c = [weighted_quint8].
Proof. vm_compute. repeat (eexists || split). Qed.

(** The operators that share, named. *)
Theorem C235_share_names : forall s,
  In (One s) sharers <->
  In s ["torch.cat";
        "nn.Identity"; "nn.ReLU"; "nn.Hardtanh"; "F.relu"; "F.relu6"; "F.hardtanh"; "F.hardtanh_"; "torch.clamp"; ".clamp"; ".relu"; ".relu_";
        "nn.AdaptiveAvgPool1d"; "nn.AdaptiveAvgPool2d"; "nn.AdaptiveAvgPool3d"; "torch.adaptive_avg_pool1d"; "F.adaptive_avg_pool2d"; "F.adaptive_avg_pool3d";
        "nn.AvgPool1d"; "nn.AvgPool2d"; "nn.AvgPool3d"; "torch.avg_pool1d"; "torch._C._nn.avg_pool2d"; "torch._C._nn.avg_pool3d";
        "nn.MaxPool1d"; "nn.MaxPool2d"; "nn.MaxPool3d"; "F.max_pool1d"; "F.max_pool2d"; "F.max_pool3d"; "F.interpolate"; "torch.mean"; ".mean";
        "torch.flatten"; "torch.repeat_interleave"; ".repeat_interleave"; ".repeat"; "torch.transpose"; ".transpose"; "torch.squeeze"; ".squeeze"; ".squeeze_";
        "torch.stack"; "torch.unsqueeze"; ".unsqueeze"; ".unsqueeze_"; "operator.floordiv"; ".contiguous"; ".detach"; ".detach_";
        ".permute"; ".reshape"; ".resize_"; ".shape"; ".size"; ".view"]%string.
Proof.
  intros s. match goal with |- _ <-> In s ?l => set (names := l) end.
  assert (A : incl sharers (map One names)).
  { intros p I. assert (F : forallb (fun p => existsb (pat_eqb p) (map One names)) sharers = true) by (vm_compute; reflexivity).
    rewrite forallb_forall in F. specialize (F p I). apply existsb_exists in F. destruct F as (x & X & E). apply pat_eqb_true in E. subst x. exact X. }
  assert (B : incl (map One names) sharers).
  { intros p I. assert (F : forallb (fun p => existsb (pat_eqb p) sharers) (map One names) = true) by (vm_compute; reflexivity).
    rewrite forallb_forall in F. specialize (F p I). apply existsb_exists in F. destruct F as (x & X & E). apply pat_eqb_true in E. subst x. exact X. }
  split; intros H.
  - apply A in H. apply in_map_iff in H. destruct H as (x & E & I). injection E as E. subst x. exact I.
  - apply B. apply in_map_iff. exists s. split; [reflexivity|exact H].
Qed.
Example C235_names_ex : In (One "torch.flatten"%string) sharers.
Proof. apply C235_share_names. do 33 right. left. reflexivity. Qed.
Print Assumptions C233_linear.
Print Assumptions C233_weighted_layers.
Print Assumptions C235_share_names.
