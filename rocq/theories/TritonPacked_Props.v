(** A packed GPTQ layer multiplies with its quantized weights (C254): packing, the choice of
    a configuration and the kernel together. *)
From Coq Require Import QArith.
From Verif Require Import Prelude Gptq_Model Gptq_Props Autotune_Model TritonKernel_Model TritonKernel_Props TritonTune_Model TritonTune_Props.
Open Scope list_scope.
Open Scope Z_scope.

(** The memory holds the tensors that [pack] has made: qweight through its strides, the rows
    of zeros and scales one after the other, g_idx contiguous; [ins] inputs, [outs] outputs. *)
Definition holds (t : tensors) (bits : Z) (p : packed) (ins outs groups : nat) : Prop :=
  (forall w r, (w < ins / Z.to_nat (32 / bits))%nat -> (r < outs)%nat -> b_mem t (Z.of_nat w * stride_bk t + Z.of_nat r * stride_bn t) = nth w (nth r (qweight p) []) 0) /\
  (forall g c, (g < groups)%nat -> (c < outs / Z.to_nat (32 / bits))%nat -> z_mem t (Z.of_nat g * stride_zeros t + Z.of_nat c) = nth c (nth g (qzeros p) []) 0) /\
  (forall g r, (g < groups)%nat -> (r < outs)%nat -> s_mem t (Z.of_nat g * stride_scales t + Z.of_nat r) = nth r (nth g (p_scales p) []) 0%Q) /\
  (forall k, (k < ins)%nat -> g_mem t (Z.of_nat k) = Z.of_nat (nth k (p_gidx p) 0%nat)).

Lemma supported_or bits : Gptq_Model.supported bits = true -> TritonKernel_Props.supported bits.
Proof. unfold Gptq_Model.supported, TritonKernel_Props.supported. rewrite !orb_true_iff, !Z.eqb_eq. tauto. Qed.
Lemma unpack_value bits words k : TritonKernel_Props.supported bits ->
  unpack bits words k = value bits (nth (k / Z.to_nat (32 / bits)) words 0) (Z.of_nat k mod (32 / bits)).
Proof.
  intros S. pose proof (per_pos bits S) as P. unfold unpack. cbv zeta. assert (B : 0 < bits) by (destruct S as [->|[->| ->]]; lia).
  replace (Z.of_nat (k mod Z.to_nat (32 / bits))) with (Z.of_nat k mod (32 / bits)) by (rewrite Nat2Z.inj_mod, Z2Nat.id by lia; reflexivity).
  apply value_land; [apply Z.mod_pos_bound; exact P|exact B].
Qed.
Lemma div_lt_mul a b c : (0 < c)%nat -> (b mod c = 0)%nat -> (a < b)%nat -> (a / c < b / c)%nat.
Proof. intros C D L. apply Nat.div_lt_upper_bound; [lia|]. pose proof (Nat.div_mod b c ltac:(lia)). lia. Qed.
Lemma mod_per bits n : TritonKernel_Props.supported bits -> (n mod 32 = 0)%nat -> (n mod Z.to_nat (32 / bits) = 0)%nat.
Proof.
  intros S H. apply Nat.mod_divides in H as [c ->]; [|lia]. destruct S as [->|[->| ->]].
  - change (Z.to_nat (32 / 2)) with 16%nat. replace (32 * c)%nat with ((2 * c) * 16)%nat by lia. apply Nat.mod_mul. lia.
  - change (Z.to_nat (32 / 4)) with 8%nat. replace (32 * c)%nat with ((4 * c) * 8)%nat by lia. apply Nat.mod_mul. lia.
  - change (Z.to_nat (32 / 8)) with 4%nat. replace (32 * c)%nat with ((8 * c) * 4)%nat by lia. apply Nat.mod_mul. lia.
Qed.
Lemma weight_packed t bits p ins outs groups k r : TritonKernel_Props.supported bits -> holds t bits p ins outs groups -> (ins mod 32 = 0)%nat -> (outs mod 32 = 0)%nat ->
  (k < ins)%nat -> (r < outs)%nat -> (nth k (p_gidx p) 0 < groups)%nat -> weight t bits (Z.of_nat k) (Z.of_nat r) = kernel_weight bits p r k.
Proof.
  intros S (Hw & Hz & Hs & Hg) Mi Mo Hk Hr G. pose proof (per_pos bits S) as P. set (per := Z.to_nat (32 / bits)) in *. assert (Ep : 32 / bits = Z.of_nat per) by (unfold per; lia).
  unfold weight, kernel_weight. cbv zeta. rewrite !unpack_value by exact S. fold per. rewrite (Hg k Hk). unfold word, zword, TritonKernel_Props.scale.
  rewrite Ep. rewrite <- !Nat2Z.inj_div. rewrite Hw by (try apply div_lt_mul; try apply mod_per; try assumption; lia). rewrite Hz by (try apply div_lt_mul; try apply mod_per; try assumption; lia).
  rewrite Hs by assumption. reflexivity.
Qed.

(** Each entry that the layer stores is the sum over the inputs times the quantized weights,
    for every configuration that the autotuner may use. *)
Theorem C254_packed_partial : forall bits n weight grp g_idx p t M M' N' K' s c,
  Gptq_Model.supported bits = true -> fits bits n weight grp g_idx -> pack bits n weight grp g_idx = Ok p -> (length weight mod 128 = 0)%nat -> (n mod 32 = 0)%nat -> Forall (Forall (fun q => (1 <= zero q)%Q)) grp ->
  holds t bits p (length weight) n (length grp) -> 0 <= M -> distinct t M (Z.of_nat n) -> stride_ak t = 1 -> matmul_pruner M' N' K' forward_configs = Ok s -> In c (items s) ->
  forall m r v, 0 <= m < M -> (r < n)%nat ->
    In (stride_cm t * m + stride_cn t * Z.of_nat r, v) (fwd t M (Z.of_nat n) (Z.of_nat (length weight)) bits (2 ^ bits - 1) (c_m c) (c_n c) (c_k c) (c_group c)) ->
    (v == total (length weight) (fun k => A t m k * nth r (nth (Z.to_nat k) weight []) 0))%Q.
Proof.
  intros bits n weight grp g_idx p t M M' N' K' s c S F E Mi Mo Z1 Ho HM Di Sa Ep Ic m r v Hm Hr I. pose proof (supported_or bits S) as Sb.
  assert (M32 : (length weight mod 32 = 0)%nat). { apply Nat.mod_divides in Mi as [q Eq]; [|discriminate]. rewrite Eq. replace (128 * q)%nat with ((4 * q) * 32)%nat by lia. apply Nat.mod_mul. lia. }
  assert (D128 : (128 | Z.of_nat (length weight))). { apply Nat.mod_divides in Mi as [q Eq]; [|discriminate]. exists (Z.of_nat q). lia. }
  pose proof (C254_tuned_partial M' N' K' s c t M (Z.of_nat n) (Z.of_nat (length weight)) bits Ep Ic HM ltac:(lia) ltac:(lia) D128 Sb Di Sa m (Z.of_nat r) v Hm ltac:(lia) I) as V.
  rewrite V. rewrite Nat2Z.id. apply total_ext. intros k Hk. destruct (C72_packed_partial bits n weight grp g_idx p S F E M32 Mo Z1) as [KW _].
  specialize (KW (Z.to_nat k) r ltac:(lia) Hr). rewrite <- KW. replace k with (Z.of_nat (Z.to_nat k)) at 2 by lia.
  assert (Gp : p_gidx p = g_idx). { unfold pack in E. rewrite S in E. cbn [negb] in E. apply Ok_inj in E. subst p. reflexivity. }
  rewrite (weight_packed t bits p (length weight) n (length grp)); try assumption; [reflexivity|lia|]. rewrite Gp. destruct F as (Lg & _ & Gi & _). rewrite Forall_forall in Gi. apply Gi. apply nth_In. lia.
Qed.

(** The gradient with respect to the input is multiplied with the same weights. *)
Theorem C254_packed_gradient_partial : forall bits n weight grp g_idx p t M c,
  Gptq_Model.supported bits = true -> fits bits n weight grp g_idx -> pack bits n weight grp g_idx = Ok p -> (length weight mod 32 = 0)%nat -> (n mod 128 = 0)%nat -> Forall (Forall (fun q => (1 <= zero q)%Q)) grp ->
  holds t bits p (length weight) n (length grp) -> 0 <= M -> distinct t M (Z.of_nat (length weight)) -> stride_ak t = 1 -> stride_bn t = 1 -> In c transpose_configs ->
  forall m k v, 0 <= m < M -> (k < length weight)%nat ->
    In (stride_cm t * m + stride_cn t * Z.of_nat k, v) (bwd t M (Z.of_nat n) (Z.of_nat (length weight)) bits (2 ^ bits - 1) (c_m c) (c_n c) (c_k c) (c_group c)) ->
    (v == total n (fun r => A t m r * nth (Z.to_nat r) (nth k weight []) 0))%Q.
Proof.
  intros bits n weight grp g_idx p t M c S F E Mi Mo Z1 Ho HM Di Sa Sbn Ic m k v Hm Hk I. pose proof (supported_or bits S) as Sb.
  assert (M32 : (n mod 32 = 0)%nat). { apply Nat.mod_divides in Mo as [q Eq]; [|discriminate]. rewrite Eq. replace (128 * q)%nat with ((4 * q) * 32)%nat by lia. apply Nat.mod_mul. lia. }
  assert (D128 : (128 | Z.of_nat n)). { apply Nat.mod_divides in Mo as [q Eq]; [|discriminate]. exists (Z.of_nat q). lia. }
  pose proof (C254_tuned_gradient_partial c t M (Z.of_nat n) (Z.of_nat (length weight)) bits Ic HM ltac:(lia) ltac:(lia) D128 Sb Di Sa Sbn m (Z.of_nat k) v Hm ltac:(lia) I) as V.
  rewrite V. rewrite Nat2Z.id. apply total_ext. intros r Hr. destruct (C72_packed_partial bits n weight grp g_idx p S F E Mi M32 Z1) as [KW _].
  specialize (KW k (Z.to_nat r) Hk ltac:(lia)). rewrite <- KW. replace r with (Z.of_nat (Z.to_nat r)) at 2 by lia.
  assert (Gp : p_gidx p = g_idx). { unfold pack in E. rewrite S in E. cbn [negb] in E. apply Ok_inj in E. subst p. reflexivity. }
  rewrite (weight_packed t bits p (length weight) n (length grp)); try assumption; [reflexivity|lia|]. rewrite Gp. destruct F as (Lg & _ & Gi & _). rewrite Forall_forall in Gi. apply Gi. apply nth_In. lia.
Qed.

(** A layer of 128 inputs and 32 outputs in memory. *)
Definition laid_out (p : packed) : tensors :=
  {| a_mem := fun i => inject_Z (i mod 7); b_mem := fun i => nth (Z.to_nat (i / 32)) (nth (Z.to_nat (i mod 32)) (qweight p) []) 0;
     s_mem := fun i => nth (Z.to_nat (i mod 32)) (nth (Z.to_nat (i / 32)) (p_scales p) []) 0%Q; z_mem := fun i => nth (Z.to_nat (i mod 4)) (nth (Z.to_nat (i / 4)) (qzeros p) []) 0;
     g_mem := fun i => Z.of_nat (nth (Z.to_nat i) (p_gidx p) 0%nat);
     stride_am := 128; stride_ak := 1; stride_bk := 32; stride_bn := 1; stride_cm := 32; stride_cn := 1; stride_scales := 32; stride_zeros := 4 |}.
Lemma laid_out_holds p : holds (laid_out p) 4 p 128 32 1.
Proof.
  assert (DM : forall q r b, 0 <= r < b -> (q * b + r) / b = q /\ (q * b + r) mod b = r).
  { intros q r b H. split; [symmetry; apply (Z.div_unique_pos _ b q r); lia|symmetry; apply (Z.mod_unique_pos _ b q r); lia]. }
  unfold holds, laid_out. cbn [b_mem s_mem z_mem g_mem stride_bk stride_bn stride_scales stride_zeros]. change (Z.to_nat (32 / 4)) with 8%nat. change (32 / 8)%nat with 4%nat. repeat split.
  - intros w r _ H. rewrite Z.mul_1_r. destruct (DM (Z.of_nat w) (Z.of_nat r) 32 ltac:(lia)) as [-> ->]. rewrite !Nat2Z.id. reflexivity.
  - intros g c _ H. destruct (DM (Z.of_nat g) (Z.of_nat c) 4 ltac:(lia)) as [-> ->]. rewrite !Nat2Z.id. reflexivity.
  - intros g r _ H. destruct (DM (Z.of_nat g) (Z.of_nat r) 32 ltac:(lia)) as [-> ->]. rewrite !Nat2Z.id. reflexivity.
  - intros k _. rewrite Nat2Z.id. reflexivity.
Qed.
Definition none : packed := {| qweight := []; qzeros := []; p_scales := []; p_gidx := [] |}.
(** [ins] inputs and [outs] outputs, all weights -5. *)
Definition example (ins outs : nat) : packed :=
  match pack 4 outs (repeat (repeat (inject_Z 3 - inject_Z 8)%Q outs) ins) [repeat (unit_params 8) outs] (repeat 0%nat ins) with Ok p => p | Raise _ => none end.
Lemma example_ok ins outs : pack 4 outs (repeat (repeat (inject_Z 3 - inject_Z 8)%Q outs) ins) [repeat (unit_params 8) outs] (repeat 0%nat ins) = Ok (example ins outs).
Proof. unfold example, pack. cbn [Gptq_Model.supported Z.eqb Pos.eqb orb negb]. reflexivity. Qed.
Example C254_packed_ex : exists s c, let w := repeat (repeat (inject_Z 3 - inject_Z 8)%Q 32) 128 in let p := example 128 32 in let t := laid_out p in
  fits 4 32 w [repeat (unit_params 8) 32] (repeat 0%nat 128) /\ pack 4 32 w [repeat (unit_params 8) 32] (repeat 0%nat 128) = Ok p /\ holds t 4 p 128 32 1 /\ distinct t 2 32 /\ stride_ak t = 1 /\
  matmul_pruner 2 32 128 forward_configs = Ok s /\ In c (items s) /\
  exists v, In (stride_cm t * 1 + stride_cn t * Z.of_nat 3, v) (fwd t 2 (Z.of_nat 32) (Z.of_nat 128) 4 (2 ^ 4 - 1) (c_m c) (c_n c) (c_k c) (c_group c)).
Proof.
  eexists _, (shrink 16 32 128 (cfg 7 32 32 128 2 4)). cbv zeta. split; [apply fits_const; lia|]. split; [apply example_ok|]. split; [apply laid_out_holds|].
  split; [intros m n m' n' Hm Hn Hm' Hn'; unfold laid_out; cbn [stride_cm stride_cn]; lia|]. split; [reflexivity|]. split; [reflexivity|]. split; [vm_compute; tauto|].
  set (t := laid_out (example 128 32)). clearbody t. destruct (C253_stored t 2 (Z.of_nat 32) (Z.of_nat 128) 4 (2 ^ 4 - 1) 16 32 128 8) as (H & _); [unfold sizes; lia|].
  exact (H 1 (Z.of_nat 3) ltac:(lia) ltac:(lia)).
Qed.
(** And one of 32 inputs and 128 outputs, for the gradient. *)
Definition laid_out_wide (p : packed) : tensors :=
  {| a_mem := fun i => inject_Z (i mod 7); b_mem := fun i => nth (Z.to_nat (i / 128)) (nth (Z.to_nat (i mod 128)) (qweight p) []) 0;
     s_mem := fun i => nth (Z.to_nat (i mod 128)) (nth (Z.to_nat (i / 128)) (p_scales p) []) 0%Q; z_mem := fun i => nth (Z.to_nat (i mod 16)) (nth (Z.to_nat (i / 16)) (qzeros p) []) 0;
     g_mem := fun i => Z.of_nat (nth (Z.to_nat i) (p_gidx p) 0%nat);
     stride_am := 128; stride_ak := 1; stride_bk := 128; stride_bn := 1; stride_cm := 32; stride_cn := 1; stride_scales := 128; stride_zeros := 16 |}.
Lemma laid_out_wide_holds p : holds (laid_out_wide p) 4 p 32 128 1.
Proof.
  assert (DM : forall q r b, 0 <= r < b -> (q * b + r) / b = q /\ (q * b + r) mod b = r).
  { intros q r b H. split; [symmetry; apply (Z.div_unique_pos _ b q r); lia|symmetry; apply (Z.mod_unique_pos _ b q r); lia]. }
  unfold holds, laid_out_wide. cbn [b_mem s_mem z_mem g_mem stride_bk stride_bn stride_scales stride_zeros]. change (Z.to_nat (32 / 4)) with 8%nat. change (128 / 8)%nat with 16%nat. repeat split.
  - intros w r _ H. rewrite Z.mul_1_r. destruct (DM (Z.of_nat w) (Z.of_nat r) 128 ltac:(lia)) as [-> ->]. rewrite !Nat2Z.id. reflexivity.
  - intros g c _ H. destruct (DM (Z.of_nat g) (Z.of_nat c) 16 ltac:(lia)) as [-> ->]. rewrite !Nat2Z.id. reflexivity.
  - intros g r _ H. destruct (DM (Z.of_nat g) (Z.of_nat r) 128 ltac:(lia)) as [-> ->]. rewrite !Nat2Z.id. reflexivity.
  - intros k _. rewrite Nat2Z.id. reflexivity.
Qed.
Example C254_packed_gradient_ex : exists c, let w := repeat (repeat (inject_Z 3 - inject_Z 8)%Q 128) 32 in let p := example 32 128 in let t := laid_out_wide p in
  fits 4 128 w [repeat (unit_params 8) 128] (repeat 0%nat 32) /\ pack 4 128 w [repeat (unit_params 8) 128] (repeat 0%nat 32) = Ok p /\ holds t 4 p 32 128 1 /\ distinct t 2 32 /\ stride_ak t = 1 /\ stride_bn t = 1 /\
  In c transpose_configs /\
  exists v, In (stride_cm t * 1 + stride_cn t * Z.of_nat 3, v) (bwd t 2 (Z.of_nat 128) (Z.of_nat 32) 4 (2 ^ 4 - 1) (c_m c) (c_n c) (c_k c) (c_group c)).
Proof.
  exists (cfg 7 32 128 32 2 4). cbv zeta. split; [apply fits_const; lia|]. split; [apply example_ok|]. split; [apply laid_out_wide_holds|].
  split; [intros m n m' n' Hm Hn Hm' Hn'; unfold laid_out_wide; cbn [stride_cm stride_cn]; lia|]. split; [reflexivity|]. split; [reflexivity|]. split; [unfold transpose_configs; cbn; tauto|].
  set (t := laid_out_wide (example 32 128)). clearbody t. destruct (C253_stored t 2 (Z.of_nat 128) (Z.of_nat 32) 4 (2 ^ 4 - 1) 32 128 32 8) as (_ & _ & H & _); [unfold sizes; lia|].
  exact (H 1 (Z.of_nat 3) ltac:(lia) ltac:(lia)).
Qed.
Print Assumptions C254_packed_partial.
Print Assumptions C254_packed_gradient_partial.
