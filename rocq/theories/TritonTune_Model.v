(** The configurations that the autotuner tries for the two kernels of
    implementations/quantization/gptq/ops.py. *)
From Coq Require Import String.
From Verif Require Import Prelude Autotune_Model.
Local Open Scope string_scope.
Local Open Scope list_scope.
Local Open Scope Z_scope.

Definition cfg (id : nat) (m n k stages warps : Z) : config :=
  {| c_id := id; c_keys := ["BLOCK_SIZE_M"; "BLOCK_SIZE_N"; "BLOCK_SIZE_K"; "GROUP_SIZE_M"]; c_m := m; c_n := n; c_k := k; c_group := 8; c_stages := stages; c_warps := warps |}.
(** Lines 22-96; pruned by matmul248_kernel_config_pruner (lines 99-104). *)
Definition forward_configs : list config :=
  [cfg 0 64 256 32 4 4; cfg 1 128 128 32 4 4; cfg 2 64 128 32 4 4; cfg 3 128 32 32 4 4; cfg 4 64 64 32 4 4; cfg 5 64 128 32 2 8; cfg 6 64 64 64 3 8; cfg 7 32 32 128 2 4].
(** Lines 191-265; without a pruner. *)
Definition transpose_configs : list config :=
  [cfg 0 64 32 256 4 4; cfg 1 128 32 128 4 4; cfg 2 64 32 128 4 4; cfg 3 128 32 32 4 4; cfg 4 64 32 64 4 4; cfg 5 64 32 128 2 8; cfg 6 64 64 64 3 8; cfg 7 32 128 32 2 4].
