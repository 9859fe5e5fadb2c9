(** The triton kernels with the block sizes that the autotuner chooses (C254). *)
From Coq Require Import QArith.
From Verif Require Import Prelude Autotune_Model Autotune_Props TritonKernel_Model TritonKernel_Props TritonTune_Model.
Open Scope list_scope.
Open Scope Z_scope.

(** A power of two between 16 and 128. *)
Definition small_power (b : Z) : Prop := In b [16; 32; 64; 128].
Lemma pow2_small k : 0 <= k -> 16 <= 2 ^ k <= 128 -> small_power (2 ^ k).
Proof.
  intros K H. assert (k < 8). { destruct (Z.lt_ge_cases k 8) as [L|L]; [exact L|]. pose proof (Z.pow_le_mono_r 2 8 k ltac:(lia) L) as P. change (2 ^ 8) with 256 in P. lia. }
  assert (4 <= k). { destruct (Z.lt_ge_cases k 4) as [L|L]; [|exact L]. pose proof (Z.pow_le_mono_r 2 k 3 ltac:(lia) ltac:(lia)) as P. change (2 ^ 3) with 8 in P. lia. }
  assert (C : k = 4 \/ k = 5 \/ k = 6 \/ k = 7) by lia. unfold small_power. destruct C as [->|[->|[->| ->]]]; cbn; tauto.
Qed.
(** What shrinking leaves. *)
Lemma min_small d m b : block_bound d m -> small_power b -> small_power (Z.min m b).
Proof.
  intros ((k & K & ->) & L & _) B. destruct (Z.le_gt_cases b (2 ^ k)) as [G|G]; [rewrite Z.min_r by lia; exact B|]. rewrite Z.min_l by lia. apply pow2_small; [exact K|].
  unfold small_power in B. cbn in B. lia.
Qed.
Lemma small_128 b : small_power b -> (b | 128).
Proof. unfold small_power. cbn. intros [<-|[<-|[<-|[<-|[]]]]]; [exists 8|exists 4|exists 2|exists 1]; reflexivity. Qed.
Lemma small_per b bits : small_power b -> supported bits -> (32 / bits | b).
Proof.
  unfold small_power. cbn. intros B [->|[->| ->]]; [change (32 / 2) with 16|change (32 / 4) with 8|change (32 / 8) with 4];
    destruct B as [<-|[<-|[<-|[<-|[]]]]]; apply Z.mod_divide; try lia; reflexivity.
Qed.

(** A configuration with positive sizes. *)
Definition usable (c : config) : Prop := 0 < c_m c /\ 0 < c_n c /\ 0 < c_k c /\ 0 < c_group c.
Lemma shrunk M N K configs s c : matmul_pruner M N K configs = Ok s -> In c (items s) -> exists m n k c0, block_bound M m /\ block_bound N n /\ block_bound K k /\ In c0 configs /\
  c_m c = Z.min m (c_m c0) /\ c_n c = Z.min n (c_n c0) /\ c_k c = Z.min k (c_k c0) /\ c_group c = c_group c0.
Proof.
  unfold matmul_pruner. destruct (next_pow2 M) as [m|] eqn:Em; [|discriminate]. cbn [bind]. destruct (next_pow2 N) as [n|] eqn:En; [|discriminate]. cbn [bind]. destruct (next_pow2 K) as [k|] eqn:Ek; [|discriminate]. cbn [bind].
  intros H I. apply Ok_inj in H. subst s. cbn [items] in I. destruct (dedup_spec (map (shrink m n k) configs) []) as (_ & B & _). apply B in I as [I _]. apply in_map_iff in I as (c0 & <- & I).
  exists m, n, k, c0. apply next_bound in Em as [_ Em], En as [_ En], Ek as [_ Ek]. repeat (split; [assumption|]). repeat split.
Qed.
Lemma min_pos d m b : block_bound d m -> 0 < b -> 0 < Z.min m b.
Proof. intros (_ & L & _) B. lia. Qed.

(** Whichever configuration the autotuner has found fastest, for whatever sizes (the cache is
    shared by sizes that round to the same powers of two), a layer whose number of inputs is a
    multiple of 128 is computed right, and so is the gradient if its number of outputs is. *)
Theorem C254_tuned_partial : forall M' N' K' s c t M N K bits, matmul_pruner M' N' K' forward_configs = Ok s -> In c (items s) -> 0 <= M -> 0 <= N -> 0 <= K -> (128 | K) ->
  supported bits -> distinct t M N -> stride_ak t = 1 -> fwd_claim t M N K bits (c_m c) (c_n c) (c_k c) (c_group c).
Proof.
  intros M' N' K' s c t M N K bits E I HM HN HK Dv Sb Di Sa. destruct (shrunk _ _ _ _ _ _ E I) as (m & n & k & c0 & Bm & Bn & Bk & I0 & -> & -> & -> & ->).
  assert (U : usable c0 /\ small_power (c_k c0)). { unfold usable, small_power. revert I0. unfold forward_configs. cbn. intuition (subst; cbn; try lia; tauto). }
  destruct U as [(U1 & U2 & U3 & U4) U5]. assert (P : small_power (Z.min k (c_k c0))) by (eapply min_small; eassumption).
  apply C254_forward_partial; try assumption.
  - unfold sizes. repeat split; try assumption; eapply min_pos; eassumption.
  - apply small_per; assumption.
  - eapply Z.divide_trans; [apply small_128; exact P|exact Dv].
Qed.
(** (The autotuner of the transposed kernel prunes nothing.) *)
Theorem C254_tuned_gradient_partial : forall c t M N K bits, In c transpose_configs -> 0 <= M -> 0 <= N -> 0 <= K -> (128 | N) ->
  supported bits -> distinct t M K -> stride_ak t = 1 -> stride_bn t = 1 -> bwd_claim t M N K bits (c_m c) (c_n c) (c_k c) (c_group c).
Proof.
  intros c t M N K bits I HM HN HK Dv Sb Di Sa Sbn.
  assert (U : usable c /\ small_power (c_n c)). { unfold usable, small_power. revert I. unfold transpose_configs. cbn. intuition (subst; cbn; try lia; tauto). }
  destruct U as [(U1 & U2 & U3 & U4) U5]. apply C254_backward_partial; try assumption.
  - unfold sizes. tauto.
  - apply small_per; assumption.
  - eapply Z.divide_trans; [apply small_128; exact U5|exact Dv].
Qed.
(** With 96 inputs, which is a multiple of 32, the configurations of the file include one that
    computes something else. *)
Definition C254_tuned_claim : Prop := forall s c t M N K bits, matmul_pruner M N K forward_configs = Ok s -> In c (items s) -> 0 <= M -> 0 <= N -> 0 <= K -> (32 | K) -> (32 | N) ->
  supported bits -> distinct t M N -> stride_ak t = 1 -> fwd_claim t M N K bits (c_m c) (c_n c) (c_k c) (c_group c).
Theorem C254_tuned_refuted : ~ C254_tuned_claim.
Proof.
  intros H. assert (F : fwd_claim (eights 96 1 96) 1 32 96 4 16 32 64 8).
  { pose (c := shrink 16 32 128 (cfg 6 64 64 64 3 8)). apply (H (AGenerator (dedup [] (map (shrink 16 32 128) forward_configs))) c (eights 96 1 96) 1 32 96 4);
      [reflexivity|vm_compute; tauto|lia|lia|lia|exists 3; reflexivity|exists 1; reflexivity|right; left; reflexivity|apply eights_distinct; lia|reflexivity]. }
  specialize (F 0 0 (fwd_acc (eights 96 1 96) 1 32 96 4 (2 ^ 4 - 1) 16 32 64 8 0 0 0) ltac:(lia) ltac:(lia)).
  assert (I : In (stride_cm (eights 96 1 96) * 0 + stride_cn (eights 96 1 96) * 0, fwd_acc (eights 96 1 96) 1 32 96 4 (2 ^ 4 - 1) 16 32 64 8 0 0 0) (fwd (eights 96 1 96) 1 32 96 4 (2 ^ 4 - 1) 16 32 64 8)).
  { apply in_fwd. exists 0, 0, 0. vm_compute. repeat split; congruence. }
  apply F in I. vm_compute in I. discriminate I.
Qed.
(** Launches that meet the conditions. *)
Example C254_tuned_ex : let t := eights 128 1 128 in exists s c, matmul_pruner 2 32 128 forward_configs = Ok s /\ In c (items s) /\ c_k c = 128 /\ (128 | 128) /\ supported 4 /\ distinct t 2 32 /\ stride_ak t = 1 /\
  (fwd_acc t 2 32 128 4 15 (c_m c) (c_n c) (c_k c) 8 0 1 3 == total 128 (fun k => A t 1 k * weight t 4 k 3))%Q.
Proof.
  cbv zeta. eexists _, (shrink 16 32 128 (cfg 7 32 32 128 2 4)). split; [reflexivity|]. split; [vm_compute; tauto|]. split; [reflexivity|]. split; [exists 1; reflexivity|]. split; [right; left; reflexivity|].
  split; [apply eights_distinct; lia|]. split; [reflexivity|]. vm_compute. reflexivity.
Qed.
Example C254_tuned_gradient_ex : let t := eights 128 1 128 in exists c, In c transpose_configs /\ c_n c = 128 /\ (128 | 128) /\ supported 4 /\ distinct t 2 32 /\ stride_ak t = 1 /\ stride_bn t = 1 /\
  (bwd_acc t 2 128 32 4 15 (c_m c) (c_n c) (c_k c) 8 0 1 3 == total 128 (fun n => A t 1 n * weight t 4 3 n))%Q.
Proof.
  cbv zeta. exists (cfg 7 32 128 32 2 4). split; [unfold transpose_configs; cbn; tauto|]. split; [reflexivity|]. split; [exists 1; reflexivity|]. split; [right; left; reflexivity|].
  split; [apply eights_distinct; lia|]. split; [reflexivity|]. split; [reflexivity|]. vm_compute. reflexivity.
Qed.
(** A launch stores each entry once: 3 rows and 5 columns in tiles of 2 by 2. *)
Example C253_stored_ex : sizes 3 5 16 2 2 16 2 /\ map fst (fwd (eights 5 1 16) 3 5 16 4 15 2 2 16 2) = [0; 1; 5; 6; 10; 11; 2; 3; 7; 8; 12; 13; 4; 9; 14].
Proof. split; [unfold sizes; lia|]. vm_compute. reflexivity. Qed.
Print Assumptions C254_tuned_partial.
Print Assumptions C254_tuned_gradient_partial.
Print Assumptions C254_tuned_refuted.
