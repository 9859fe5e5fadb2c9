(** Model of the kernels of mmrazor/implementations/quantization/gptq/ops.py: matmul_248_kernel
    (lines 107-189), transpose_matmul_248_kernel (268-351) and their launches (356-395).

    Memory is a function from addresses to values, so that a load outside of a tensor returns
    whatever the memory holds; the half and single precision arithmetic is exact (Q). *)
From Coq Require Import QArith.
From Verif Require Import Prelude.
Open Scope Z_scope.

Definition cdiv (a b : Z) : Z := (a + b - 1) / b.
(** [tl.arange(0, n)] and [range(0, n)]. *)
Definition arange (n : Z) : list Z := map Z.of_nat (seq 0 (Z.to_nat n)).

(** Lines 123-134 and 284-295: the tile of the output that program [pid] computes; [cols] is
    N (K for the transposed kernel) and [bc] its block size. *)
Definition tile (M cols bm bc group pid : Z) : Z * Z :=
  let num_pid_m := cdiv M bm in
  let num_pid_c := cdiv cols bc in
  let num_pid_in_group := group * num_pid_c in
  let group_id := pid / num_pid_in_group in
  let first_pid_m := group_id * group in
  let group_size_m := Z.min (num_pid_m - first_pid_m) group in
  (first_pid_m + pid mod group_size_m, (pid mod num_pid_in_group) / group_size_m).
(** Lines 362-366 and 384-386, the grid. *)
Definition grid (M cols bm bc : Z) : Z := cdiv M bm * cdiv cols bc.

(** The memory of the tensors and their strides. *)
Record tensors : Type := {
  a_mem : Z -> Q; b_mem : Z -> Z; s_mem : Z -> Q; z_mem : Z -> Z; g_mem : Z -> Z;
  stride_am : Z; stride_ak : Z; stride_bk : Z; stride_bn : Z; stride_cm : Z; stride_cn : Z; stride_scales : Z; stride_zeros : Z }.

(** Lines 169-170, 178-179 (329-330, 338-339): unpacking, scaling and shifting. *)
Definition dequant (maxq word shift zword zshift : Z) (s : Q) : Q :=
  (inject_Z (Z.land (Z.shiftr word shift) maxq - (Z.land (Z.shiftr zword zshift) maxq + 1)) * s)%Q.
Definition qsum (l : list Q) : Q := fold_left Qplus l 0%Q.

Section Kernel.
Variable t : tensors.
Variables M N K bits maxq bm bn bk group : Z.
Let per := 32 / bits.

(** Lines 136-184: entry ([i], [j]) of the accumulator of a program; [step] is the number of
    the iteration, the pointers have been advanced that many times. *)
Definition fwd_acc (pid i j : Z) : Q :=
  let '(pid_m, pid_n) := tile M N bm bn group pid in
  let offs_am := pid_m * bm + i in
  let offs_bn := pid_n * bn + j in
  qsum (map (fun step =>
    qsum (map (fun k =>
      let g := g_mem t (k + step * bk) in
      let s := s_mem t (offs_bn + g * stride_scales t) in
      let z := z_mem t (offs_bn / per + g * stride_zeros t) in
      let a := if offs_am <? M then a_mem t (offs_am * stride_am t + k * stride_ak t + step * bk) else 0%Q in
      let b := b_mem t ((k / per) * stride_bk t + offs_bn * stride_bn t + step * ((bk / per) * stride_bk t)) in
      (a * dequant maxq b ((k mod per) * bits) z ((offs_bn mod per) * bits) s)%Q)
    (arange bk))) (arange (cdiv K bk))).
(** Lines 186-189: what a program stores where. *)
Definition fwd_stores (pid : Z) : list (Z * Q) :=
  let '(pid_m, pid_n) := tile M N bm bn group pid in
  flat_map (fun i => flat_map (fun j =>
    let offs_am := pid_m * bm + i in let offs_bn := pid_n * bn + j in
    if (offs_am <? M) && (offs_bn <? N) then [(stride_cm t * offs_am + stride_cn t * offs_bn, fwd_acc pid i j)] else [])
    (arange bn)) (arange bm).
(** Lines 356-374, [matmul248]: the stores of all programs. *)
Definition fwd : list (Z * Q) := flat_map fwd_stores (arange (grid M N bm bn)).

(** Lines 297-346: the same for the transposed kernel, whose output has K columns. *)
Definition bwd_acc (pid i j : Z) : Q :=
  let '(pid_m, pid_k) := tile M K bm bk group pid in
  let offs_am := pid_m * bm + i in
  let offs_bk := pid_k * bk + j in
  let g := g_mem t offs_bk in
  qsum (map (fun step =>
    qsum (map (fun n =>
      let s := s_mem t (n + g * stride_scales t + step * bn) in
      let z := z_mem t (n / per + g * stride_zeros t + step * (bn / per)) in
      let a := if offs_am <? M then a_mem t (offs_am * stride_am t + n * stride_ak t + step * bn) else 0%Q in
      let b := b_mem t ((offs_bk / per) * stride_bk t + n * stride_bn t + step * bn) in
      (a * dequant maxq b ((offs_bk mod per) * bits) z ((n mod per) * bits) s)%Q)
    (arange bn))) (arange (cdiv N bn))).
(** Lines 348-351 and 377-395. *)
Definition bwd_stores (pid : Z) : list (Z * Q) :=
  let '(pid_m, pid_k) := tile M K bm bk group pid in
  flat_map (fun i => flat_map (fun j =>
    let offs_am := pid_m * bm + i in let offs_bk := pid_k * bk + j in
    if (offs_am <? M) && (offs_bk <? K) then [(stride_cm t * offs_am + stride_cn t * offs_bk, bwd_acc pid i j)] else [])
    (arange bk)) (arange bm).
Definition bwd : list (Z * Q) := flat_map bwd_stores (arange (grid M K bm bk)).
End Kernel.
