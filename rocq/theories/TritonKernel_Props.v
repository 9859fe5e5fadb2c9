(** Properties of the triton kernels of GPTQ. *)
From Coq Require Import QArith.
From Verif Require Import Prelude TritonKernel_Model.
Open Scope Z_scope.

(** ** The tiles *)
Lemma cdiv_spec a b : 0 < b -> (cdiv a b - 1) * b < a <= cdiv a b * b.
Proof. intros H. unfold cdiv. pose proof (Z.div_mod (a + b - 1) b ltac:(lia)). pose proof (Z.mod_pos_bound (a + b - 1) b H). nia. Qed.
Lemma cdiv_nonneg a b : 0 <= a -> 0 < b -> 0 <= cdiv a b.
Proof. intros A B. pose proof (cdiv_spec a b B). nia. Qed.
Lemma cdiv_in a b x : 0 < b -> 0 <= x < a -> 0 <= x / b < cdiv a b.
Proof. intros B X. pose proof (cdiv_spec a b B) as C. pose proof (Z.div_mod x b ltac:(lia)). pose proof (Z.mod_pos_bound x b B). split; [apply Z.div_pos; lia|]. nia. Qed.

(** The facts about the group of a program. *)
Lemma group_facts nm nc group pid : 0 <= pid < nm * nc -> 0 < group -> 0 < nc ->
  let g := pid / (group * nc) in let gs := Z.min (nm - g * group) group in
  0 <= g /\ 0 < gs /\ g * group + gs <= nm /\ 0 <= pid mod (group * nc) < gs * nc /\ pid = g * (group * nc) + pid mod (group * nc).
Proof.
  intros P G C g gs. assert (W : 0 < group * nc) by nia. pose proof (Z.div_mod pid (group * nc) ltac:(lia)) as D. pose proof (Z.mod_pos_bound pid (group * nc) W) as B. fold g in D.
  assert (G0 : 0 <= g) by (apply Z.div_pos; lia). set (r := pid mod (group * nc)) in *.
  assert (F : g * group < nm). { destruct (Z.lt_ge_cases (g * group) nm) as [L|L]; [exact L|]. exfalso. nia. }
  split; [exact G0|]. split; [unfold gs; lia|]. split; [unfold gs; lia|]. split; [|lia]. split; [lia|].
  destruct (Z.min_spec (nm - g * group) group) as [[L E]|[L E]]; unfold gs; rewrite E; nia.
Qed.

(** Each program has a tile of the output, and each tile exactly one program, also if the
    number of rows of tiles is no multiple of the group size. *)
Theorem C253_tiles : forall M cols bm bc group, 0 <= M -> 0 <= cols -> 0 < bm -> 0 < bc -> 0 < group ->
  (forall pid, 0 <= pid < grid M cols bm bc -> 0 <= fst (tile M cols bm bc group pid) < cdiv M bm /\ 0 <= snd (tile M cols bm bc group pid) < cdiv cols bc) /\
  (forall x y, 0 <= x < cdiv M bm -> 0 <= y < cdiv cols bc ->
     exists pid, 0 <= pid < grid M cols bm bc /\ tile M cols bm bc group pid = (x, y) /\
       forall pid', 0 <= pid' < grid M cols bm bc -> tile M cols bm bc group pid' = (x, y) -> pid' = pid).
Proof.
  intros M cols bm bc group HM HC Bm Bc G. unfold grid. pose proof (cdiv_nonneg M bm HM Bm) as Nm. pose proof (cdiv_nonneg cols bc HC Bc) as Nc.
  unfold tile. set (nm := cdiv M bm) in *. set (nc := cdiv cols bc) in *. clearbody nm nc. split.
  - intros pid P. assert (C : 0 < nc) by nia. destruct (group_facts nm nc group pid P G C) as (G0 & GS & GF & R & _). cbv zeta. cbn [fst snd].
    set (g := pid / (group * nc)) in *. set (gs := Z.min (nm - g * group) group) in *. pose proof (Z.mod_pos_bound pid gs GS) as MB. split; [nia|].
    split; [apply Z.div_pos; lia|]. apply Z.div_lt_upper_bound; [exact GS|]. lia.
  - intros x y X Y. cbv zeta. set (g := x / group). set (gs := Z.min (nm - g * group) group). set (u := x - g * group).
    assert (C : 0 < nc) by lia. pose proof (Z.div_mod x group ltac:(lia)) as D. fold g in D. pose proof (Z.mod_pos_bound x group G) as B.
    assert (G0 : 0 <= g) by (apply Z.div_pos; lia).
    assert (U : 0 <= u < gs) by (unfold u, gs; lia). assert (GS : 0 < gs) by lia. assert (GL : gs <= group) by (unfold gs; lia). assert (GF : g * group + gs <= nm) by (unfold gs; lia).
    set (w := group * nc). assert (W : 0 < w) by (unfold w; nia).
    set (v := (u - g * w) mod gs). pose proof (Z.mod_pos_bound (u - g * w) gs GS) as V. fold v in V.
    set (r := y * gs + v). assert (R : 0 <= r < gs * nc) by (unfold r; nia). assert (RW : r < w) by (unfold w; nia).
    assert (Mod : forall r', 0 <= r' < w -> (g * w + r') / w = g /\ (g * w + r') mod w = r').
    { intros r' R'. split; [symmetry; apply (Z.div_unique_pos _ w g r'); lia|symmetry; apply (Z.mod_unique_pos _ w g r'); lia]. }
    assert (Rg : r / gs = y) by (symmetry; apply (Z.div_unique_pos _ gs y v); unfold r; lia).
    assert (Vm : (g * w + r) mod gs = u).
    { unfold r. replace (g * w + (y * gs + v)) with (g * w + v + y * gs) by lia. rewrite Z.mod_add by lia. unfold v. rewrite Z.add_mod_idemp_r by lia.
      replace (g * w + (u - g * w)) with u by lia. apply Z.mod_small. exact U. }
    exists (g * w + r). split; [unfold w in *; nia|]. destruct (Mod r ltac:(lia)) as [M1 M2]. fold w. rewrite M1, M2. fold gs. rewrite Rg, Vm. split; [f_equal; unfold u; lia|].
    intros pid' P' E'. destruct (group_facts nm nc group pid' P' G C) as (G0' & GS' & GF' & R' & D'). fold w in G0', GS', GF', R', D'. injection E' as E1 E2.
    remember (pid' / w) as g' eqn:Eg'. clear Eg'. pose proof (Z.mod_pos_bound pid' (Z.min (nm - g' * group) group) GS') as MB.
    assert (Gg : g' = g). { unfold g. apply Z.div_unique_pos with (r := pid' mod Z.min (nm - g' * group) group); lia. }
    subst g'. fold gs in GS', GF', R', E1, E2, MB.
    rewrite D'. f_equal. set (r' := pid' mod w) in *. pose proof (Z.div_mod r' gs ltac:(lia)) as Dr. rewrite E2 in Dr.
    assert (V' : r' mod gs = v).
    { unfold v. assert (U' : u = pid' mod gs) by (unfold u; lia). rewrite U'. rewrite Zminus_mod_idemp_l. rewrite D' at 1. f_equal. lia. }
    unfold r. rewrite <- V'. lia.
Qed.
Example C253_tiles_ex : map (fun pid => tile 10 9 2 3 2 pid) (arange (grid 10 9 2 3)) =
  [(0, 0); (1, 0); (0, 1); (1, 1); (0, 2); (1, 2); (2, 0); (3, 0); (2, 1); (3, 1); (2, 2); (3, 2); (4, 0); (4, 1); (4, 2)].
Proof. reflexivity. Qed.

(** ** Sums *)
Lemma in_arange n x : In x (arange n) <-> 0 <= x < n.
Proof.
  unfold arange. rewrite in_map_iff. split.
  - intros (k & <- & I). apply in_seq in I. lia.
  - intros H. exists (Z.to_nat x). split; [lia|]. apply in_seq. lia.
Qed.
(** The specification: the sum of [f 0], ..., [f (n - 1)]. *)
Fixpoint total (n : nat) (f : Z -> Q) : Q := match n with O => 0%Q | S n' => (total n' f + f (Z.of_nat n'))%Q end.
Lemma total_ext n f g : (forall k, 0 <= k < Z.of_nat n -> (f k == g k)%Q) -> (total n f == total n g)%Q.
Proof. induction n as [|n IH]; intros H; [reflexivity|]. cbn [total]. rewrite IH by (intros k K; apply H; lia). rewrite (H (Z.of_nat n)) by lia. reflexivity. Qed.
Lemma total_add n k f : (total (n + k) f == total n f + total k (fun i => f (Z.of_nat n + i)%Z))%Q.
Proof.
  induction k as [|k IH]; [rewrite Nat.add_0_r; cbn [total]; ring|]. rewrite Nat.add_succ_r. cbn [total]. rewrite IH. replace (Z.of_nat (n + k)) with (Z.of_nat n + Z.of_nat k) by lia. ring.
Qed.
Lemma total_blocks n b f : (total n (fun s => total b (fun k => f (s * Z.of_nat b + k)%Z)) == total (n * b) f)%Q.
Proof.
  induction n as [|n IH]; [reflexivity|]. replace (S n * b)%nat with (n * b + b)%nat by lia. rewrite total_add. cbn [total]. rewrite IH.
  replace (Z.of_nat (n * b)) with (Z.of_nat n * Z.of_nat b) by lia. reflexivity.
Qed.
Lemma qsum_app l x : (qsum (l ++ [x]) = qsum l + x)%Q.
Proof. unfold qsum. rewrite fold_left_app. reflexivity. Qed.
Lemma qsum_arange n f : (qsum (map f (arange (Z.of_nat n))) == total n f)%Q.
Proof.
  unfold arange. rewrite Nat2Z.id. induction n as [|n IH]; [reflexivity|]. rewrite seq_S, map_app, map_app. cbn [map]. rewrite qsum_app. cbn [total]. rewrite IH. reflexivity.
Qed.
Lemma qsum_total n f : 0 <= n -> (qsum (map f (arange n)) == total (Z.to_nat n) f)%Q.
Proof. intros H. rewrite <- qsum_arange. rewrite Z2Nat.id by exact H. reflexivity. Qed.

(** ** What the kernels compute *)
Section Spec.
Variable t : tensors.
Variables bits : Z.
(** The tensors as torch sees them through their strides; scales, zeros and group indices
    are contiguous. *)
Definition A (m k : Z) : Q := a_mem t (m * stride_am t + k * stride_ak t).
Definition word (r n : Z) : Z := b_mem t (r * stride_bk t + n * stride_bn t).
Definition zword (g c : Z) : Z := z_mem t (g * stride_zeros t + c).
Definition scale (g n : Z) : Q := s_mem t (g * stride_scales t + n).
(** Value number [i] of the [32 / bits] values of a word. *)
Definition value (w i : Z) : Z := (w / 2 ^ (i * bits)) mod 2 ^ bits.
(** The weight from input [k] to output [n]. *)
Definition weight (k n : Z) : Q :=
  (inject_Z (value (word (k / (32 / bits)) n) (k mod (32 / bits)) - (value (zword (g_mem t k) (n / (32 / bits))) (n mod (32 / bits)) + 1)) * scale (g_mem t k) n)%Q.
End Spec.

Lemma value_land w i bits : 0 <= i -> 0 < bits -> Z.land (Z.shiftr w (i * bits)) (2 ^ bits - 1) = value bits w i.
Proof.
  intros I B. unfold value. rewrite Z.shiftr_div_pow2 by nia. replace (2 ^ bits - 1) with (Z.ones bits) by (rewrite Z.ones_equiv; lia). apply Z.land_ones. lia.
Qed.

Definition supported (bits : Z) : Prop := bits = 2 \/ bits = 4 \/ bits = 8.
Lemma per_pos bits : supported bits -> 0 < 32 / bits.
Proof. intros [->|[->| ->]]; reflexivity. Qed.

(** Offsets of a block: [q] blocks of [b] elements, [per] of which share a word. *)
Lemma div_block per b q i : 0 < per -> (per | b) -> (q * b + i) / per = q * (b / per) + i / per.
Proof. intros P (c & ->). rewrite Z.div_mul by lia. replace (q * (c * per) + i) with (i + q * c * per) by lia. rewrite Z.div_add by lia. lia. Qed.
Lemma mod_block per b q i : 0 < per -> (per | b) -> (q * b + i) mod per = i mod per.
Proof. intros P (c & ->). replace (q * (c * per) + i) with (i + q * c * per) by lia. apply Z.mod_add. lia. Qed.

Lemma cdiv_exact a b : 0 < b -> (b | a) -> cdiv a b * b = a.
Proof. intros B (c & ->). unfold cdiv. replace (c * b + b - 1) with ((b - 1) + c * b) by lia. rewrite Z.div_add by lia. rewrite Z.div_small by lia. lia. Qed.

Lemma blocks_total nb b K f : 0 <= nb -> 0 < b -> nb * b = K ->
  (qsum (map (fun step => qsum (map (fun k => f (step * b + k)%Z) (arange b))) (arange nb)) == total (Z.to_nat K) f)%Q.
Proof.
  intros Nb B E. rewrite qsum_total by exact Nb. rewrite (total_ext _ _ (fun s => total (Z.to_nat b) (fun k => f (s * Z.of_nat (Z.to_nat b) + k)))).
  - rewrite total_blocks. replace (Z.to_nat nb * Z.to_nat b)%nat with (Z.to_nat K) by (subst K; rewrite Z2Nat.inj_mul; lia). reflexivity.
  - intros s _. rewrite qsum_total by lia. apply total_ext. intros k _. rewrite Z2Nat.id by lia. reflexivity.
Qed.

Lemma qsum_ext (l : list Z) f g : (forall x, In x l -> (f x == g x)%Q) -> (qsum (map f l) == qsum (map g l))%Q.
Proof.
  unfold qsum. assert (H : forall (a b : Q), (a == b)%Q -> (forall x, In x l -> (f x == g x)%Q) -> (fold_left Qplus (map f l) a == fold_left Qplus (map g l) b)%Q).
  { induction l as [|x l IH]; intros a b E F; [exact E|]. cbn [map fold_left]. apply IH; [rewrite E, (F x) by (left; reflexivity); reflexivity|]. intros y I. apply F. right. exact I. }
  intros F. apply H; [reflexivity|exact F].
Qed.

(** An entry of the accumulator of the forward kernel. *)
Lemma fwd_acc_ok t M N K bits bm bn bk group pid i j m n : supported bits -> 0 <= K -> 0 < bk -> (32 / bits | bk) -> (bk | K) -> stride_ak t = 1 ->
  fst (tile M N bm bn group pid) * bm + i = m -> snd (tile M N bm bn group pid) * bn + j = n -> m < M ->
  (fwd_acc t M N K bits (2 ^ bits - 1) bm bn bk group pid i j == total (Z.to_nat K) (fun k => A t m k * weight t bits k n))%Q.
Proof.
  intros Sb HK Hbk Dper Dk Sa Em En Hm. pose proof (per_pos bits Sb) as P. assert (Bp : 0 < bits) by (destruct Sb as [->|[->| ->]]; lia).
  unfold fwd_acc. destruct (tile M N bm bn group pid) as [pm pn]. cbn [fst snd] in Em, En. rewrite Em, En.
  rewrite <- (blocks_total (cdiv K bk) bk K) by (try apply cdiv_nonneg; try apply cdiv_exact; assumption).
  apply qsum_ext. intros s Is. apply in_arange in Is. apply qsum_ext. intros k Ik. apply in_arange in Ik. cbv zeta.
  replace (m <? M) with true by lia. unfold A, weight, word, zword, scale, dequant. rewrite Sa.
  rewrite div_block, mod_block by assumption.
  pose proof (Z.mod_pos_bound k (32 / bits) P). pose proof (Z.mod_pos_bound n (32 / bits) P).
  rewrite !value_land by lia.
  replace (k + s * bk) with (s * bk + k) by lia.
  replace (m * stride_am t + k * 1 + s * bk) with (m * stride_am t + (s * bk + k) * 1) by lia.
  replace (k / (32 / bits) * stride_bk t + n * stride_bn t + s * (bk / (32 / bits) * stride_bk t)) with ((s * (bk / (32 / bits)) + k / (32 / bits)) * stride_bk t + n * stride_bn t) by lia.
  replace (n / (32 / bits) + g_mem t (s * bk + k) * stride_zeros t) with (g_mem t (s * bk + k) * stride_zeros t + n / (32 / bits)) by lia.
  replace (n + g_mem t (s * bk + k) * stride_scales t) with (g_mem t (s * bk + k) * stride_scales t + n) by lia.
  reflexivity.
Qed.
(** And of the transposed kernel. *)
Lemma bwd_acc_ok t M N K bits bm bn bk group pid i j m k : supported bits -> 0 <= N -> 0 < bn -> (32 / bits | bn) -> (bn | N) -> stride_ak t = 1 -> stride_bn t = 1 ->
  fst (tile M K bm bk group pid) * bm + i = m -> snd (tile M K bm bk group pid) * bk + j = k -> 0 <= k -> m < M ->
  (bwd_acc t M N K bits (2 ^ bits - 1) bm bn bk group pid i j == total (Z.to_nat N) (fun n => A t m n * weight t bits k n))%Q.
Proof.
  intros Sb HN Hbn Dper Dn Sa Sbn Em Ek K0 Hm. pose proof (per_pos bits Sb) as P. assert (Bp : 0 < bits) by (destruct Sb as [->|[->| ->]]; lia).
  unfold bwd_acc. destruct (tile M K bm bk group pid) as [pm pk]. cbn [fst snd] in Em, Ek. rewrite Em, Ek. cbv zeta.
  rewrite <- (blocks_total (cdiv N bn) bn N) by (try apply cdiv_nonneg; try apply cdiv_exact; assumption).
  apply qsum_ext. intros s Is. apply in_arange in Is. apply qsum_ext. intros n In. apply in_arange in In.
  replace (m <? M) with true by lia. unfold A, weight, word, zword, scale, dequant. rewrite Sa, Sbn.
  rewrite div_block, mod_block by assumption.
  pose proof (Z.mod_pos_bound k (32 / bits) P). pose proof (Z.mod_pos_bound n (32 / bits) P).
  rewrite !value_land by lia.
  replace (m * stride_am t + n * 1 + s * bn) with (m * stride_am t + (s * bn + n) * 1) by lia.
  replace (k / (32 / bits) * stride_bk t + n * 1 + s * bn) with (k / (32 / bits) * stride_bk t + (s * bn + n) * 1) by lia.
  replace (n / (32 / bits) + g_mem t k * stride_zeros t + s * (bn / (32 / bits))) with (g_mem t k * stride_zeros t + (s * (bn / (32 / bits)) + n / (32 / bits))) by lia.
  replace (n + g_mem t k * stride_scales t + s * bn) with (g_mem t k * stride_scales t + (s * bn + n)) by lia.
  reflexivity.
Qed.

(** The stores of a launch. *)
Lemma in_fwd t M N K bits maxq bm bn bk group ad v : In (ad, v) (fwd t M N K bits maxq bm bn bk group) <->
  exists pid i j, 0 <= pid < grid M N bm bn /\ 0 <= i < bm /\ 0 <= j < bn /\
    let m := fst (tile M N bm bn group pid) * bm + i in let n := snd (tile M N bm bn group pid) * bn + j in
    m < M /\ n < N /\ ad = stride_cm t * m + stride_cn t * n /\ v = fwd_acc t M N K bits maxq bm bn bk group pid i j.
Proof.
  unfold fwd. rewrite in_flat_map. split.
  - intros (pid & Ip & H). unfold fwd_stores in H. destruct (tile M N bm bn group pid) as [pm pn] eqn:ET. apply in_flat_map in H as (i & Ii & H). apply in_flat_map in H as (j & Ij & H).
    apply in_arange in Ip, Ii, Ij. exists pid, i, j. rewrite ET. cbn [fst snd]. destruct ((_ <? _) && (_ <? _)) eqn:E in H; [|destruct H]. destruct H as [H|[]]. injection H as <- <-.
    apply andb_true_iff in E as [E1 E2]. repeat split; lia.
  - intros (pid & i & j & Ip & Ii & Ij & H). exists pid. split; [apply in_arange; exact Ip|]. unfold fwd_stores. destruct (tile M N bm bn group pid) as [pm pn]. cbn [fst snd] in H. destruct H as (Hm & Hn & -> & ->).
    apply in_flat_map. exists i. split; [apply in_arange; exact Ii|]. apply in_flat_map. exists j. split; [apply in_arange; exact Ij|].
    replace ((pm * bm + i <? M) && (pn * bn + j <? N)) with true; [left; reflexivity|]. symmetry. apply andb_true_iff. lia.
Qed.
Lemma in_bwd t M N K bits maxq bm bn bk group ad v : In (ad, v) (bwd t M N K bits maxq bm bn bk group) <->
  exists pid i j, 0 <= pid < grid M K bm bk /\ 0 <= i < bm /\ 0 <= j < bk /\
    let m := fst (tile M K bm bk group pid) * bm + i in let k := snd (tile M K bm bk group pid) * bk + j in
    m < M /\ k < K /\ ad = stride_cm t * m + stride_cn t * k /\ v = bwd_acc t M N K bits maxq bm bn bk group pid i j.
Proof.
  unfold bwd. rewrite in_flat_map. split.
  - intros (pid & Ip & H). unfold bwd_stores in H. destruct (tile M K bm bk group pid) as [pm pn] eqn:ET. apply in_flat_map in H as (i & Ii & H). apply in_flat_map in H as (j & Ij & H).
    apply in_arange in Ip, Ii, Ij. exists pid, i, j. rewrite ET. cbn [fst snd]. destruct ((_ <? _) && (_ <? _)) eqn:E in H; [|destruct H]. destruct H as [H|[]]. injection H as <- <-.
    apply andb_true_iff in E as [E1 E2]. repeat split; lia.
  - intros (pid & i & j & Ip & Ii & Ij & H). exists pid. split; [apply in_arange; exact Ip|]. unfold bwd_stores. destruct (tile M K bm bk group pid) as [pm pn]. cbn [fst snd] in H. destruct H as (Hm & Hn & -> & ->).
    apply in_flat_map. exists i. split; [apply in_arange; exact Ii|]. apply in_flat_map. exists j. split; [apply in_arange; exact Ij|].
    replace ((pm * bm + i <? M) && (pn * bk + j <? K)) with true; [left; reflexivity|]. symmetry. apply andb_true_iff. lia.
Qed.

(** The sizes of a launch. *)
Definition sizes (M N K bm bn bk group : Z) : Prop := 0 <= M /\ 0 <= N /\ 0 <= K /\ 0 < bm /\ 0 < bn /\ 0 < bk /\ 0 < group.

(** Each entry of the output is stored, and only entries of the output are. *)
Theorem C253_stored : forall t M N K bits maxq bm bn bk group, sizes M N K bm bn bk group ->
  (forall m n, 0 <= m < M -> 0 <= n < N -> exists v, In (stride_cm t * m + stride_cn t * n, v) (fwd t M N K bits maxq bm bn bk group)) /\
  (forall ad v, In (ad, v) (fwd t M N K bits maxq bm bn bk group) -> exists m n, 0 <= m < M /\ 0 <= n < N /\ ad = stride_cm t * m + stride_cn t * n) /\
  (forall m k, 0 <= m < M -> 0 <= k < K -> exists v, In (stride_cm t * m + stride_cn t * k, v) (bwd t M N K bits maxq bm bn bk group)) /\
  (forall ad v, In (ad, v) (bwd t M N K bits maxq bm bn bk group) -> exists m k, 0 <= m < M /\ 0 <= k < K /\ ad = stride_cm t * m + stride_cn t * k).
Proof.
  intros t M N K bits maxq bm bn bk group (HM & HN & HK & Bm & Bn & Bk & G).
  destruct (C253_tiles M N bm bn group HM HN Bm Bn G) as [F1 F2]. destruct (C253_tiles M K bm bk group HM HK Bm Bk G) as [B1 B2].
  assert (Dm : forall x b, 0 < b -> x = (x / b) * b + x mod b /\ 0 <= x mod b < b) by (intros x b Hb; pose proof (Z.div_mod x b ltac:(lia)); pose proof (Z.mod_pos_bound x b Hb); lia).
  repeat split.
  - intros m n Hm Hn. destruct (F2 (m / bm) (n / bn) (cdiv_in _ _ _ Bm Hm) (cdiv_in _ _ _ Bn Hn)) as (pid & P & E & _). eexists. apply in_fwd. exists pid, (m mod bm), (n mod bn).
    rewrite E. cbn [fst snd]. destruct (Dm m bm Bm) as [<- Im]. destruct (Dm n bn Bn) as [<- Jn]. repeat split; try lia.
  - intros ad v H. apply in_fwd in H as (pid & i & j & P & I & J & H1 & H2 & H3 & _). destruct (F1 pid P) as [T1 T2]. eexists _, _. split; [split; [|exact H1]|split; [split; [|exact H2]|exact H3]]; nia.
  - intros m n Hm Hn. destruct (B2 (m / bm) (n / bk) (cdiv_in _ _ _ Bm Hm) (cdiv_in _ _ _ Bk Hn)) as (pid & P & E & _). eexists. apply in_bwd. exists pid, (m mod bm), (n mod bk).
    rewrite E. cbn [fst snd]. destruct (Dm m bm Bm) as [<- Im]. destruct (Dm n bk Bk) as [<- Jn]. repeat split; try lia.
  - intros ad v H. apply in_bwd in H as (pid & i & j & P & I & J & H1 & H2 & H3 & _). destruct (B1 pid P) as [T1 T2]. eexists _, _. split; [split; [|exact H1]|split; [split; [|exact H2]|exact H3]]; nia.
Qed.

(** The output has room for its rows: different entries have different addresses. *)
Definition distinct (t : tensors) (rows cols : Z) : Prop := forall m n m' n', 0 <= m < rows -> 0 <= n < cols -> 0 <= m' < rows -> 0 <= n' < cols ->
  stride_cm t * m + stride_cn t * n = stride_cm t * m' + stride_cn t * n' -> m = m' /\ n = n'.

(** The forward kernel multiplies with the unpacked weights, whatever the block sizes are, if
    the block size of the inputs divides their number and the input's rows are contiguous. *)
Definition fwd_claim (t : tensors) (M N K bits bm bn bk group : Z) : Prop :=
  forall m n v, 0 <= m < M -> 0 <= n < N -> In (stride_cm t * m + stride_cn t * n, v) (fwd t M N K bits (2 ^ bits - 1) bm bn bk group) ->
    (v == total (Z.to_nat K) (fun k => A t m k * weight t bits k n))%Q.
Theorem C254_forward_partial : forall t M N K bits bm bn bk group, sizes M N K bm bn bk group -> supported bits -> distinct t M N ->
  (32 / bits | bk) -> (bk | K) -> stride_ak t = 1 -> fwd_claim t M N K bits bm bn bk group.
Proof.
  intros t M N K bits bm bn bk group HS Sb Di Dper Dk Sa m n v Hm Hn H. pose proof HS as (HM & HN & HK & Bm & Bn & Bk & G).
  apply in_fwd in H as (pid & i & j & P & I & J & H1 & H2 & H3 & ->). destruct (C253_tiles M N bm bn group HM HN Bm Bn G) as [F1 _]. destruct (F1 pid P) as [T1 T2].
  apply Di in H3 as [E1 E2]; [|lia|lia|nia|nia]. apply fwd_acc_ok; try assumption; try (symmetry; assumption). lia.
Qed.
(** The transposed kernel computes the gradient: it multiplies with the same weights,
    transposed. *)
Definition bwd_claim (t : tensors) (M N K bits bm bn bk group : Z) : Prop :=
  forall m k v, 0 <= m < M -> 0 <= k < K -> In (stride_cm t * m + stride_cn t * k, v) (bwd t M N K bits (2 ^ bits - 1) bm bn bk group) ->
    (v == total (Z.to_nat N) (fun n => A t m n * weight t bits k n))%Q.
Theorem C254_backward_partial : forall t M N K bits bm bn bk group, sizes M N K bm bn bk group -> supported bits -> distinct t M K ->
  (32 / bits | bn) -> (bn | N) -> stride_ak t = 1 -> stride_bn t = 1 -> bwd_claim t M N K bits bm bn bk group.
Proof.
  intros t M N K bits bm bn bk group HS Sb Di Dper Dk Sa Sbn m k v Hm Hk H. pose proof HS as (HM & HN & HK & Bm & Bn & Bk & G).
  apply in_bwd in H as (pid & i & j & P & I & J & H1 & H2 & H3 & ->). destruct (C253_tiles M K bm bk group HM HK Bm Bk G) as [F1 _]. destruct (F1 pid P) as [T1 T2].
  apply Di in H3 as [E1 E2]; [|lia|lia|nia|nia]. apply bwd_acc_ok; try assumption; try (symmetry; assumption); lia.
Qed.

(** Without these conditions the claim is false: loads run over the end of the rows (only
    the rows are masked), and the pointers advance as if the columns had stride 1. *)
Definition C254_claim : Prop := forall t M N K bits bm bn bk group, sizes M N K bm bn bk group -> supported bits -> distinct t M N -> distinct t M K ->
  (32 / bits | bk) -> (32 / bits | bn) -> (32 | K) -> (32 | N) -> fwd_claim t M N K bits bm bn bk group /\ bwd_claim t M N K bits bm bn bk group.
(** Every value of a word is 8 (the word is 0x88888888 as an int32), every zero point 0 + 1
    and every scale 1. *)
Definition eights (ld ak am : Z) : tensors :=
  {| a_mem := fun i => inject_Z (i mod 7); b_mem := fun _ => -2004318072; s_mem := fun _ => 1%Q; z_mem := fun _ => 0; g_mem := fun _ => 0;
     stride_am := am; stride_ak := ak; stride_bk := 32; stride_bn := 1; stride_cm := ld; stride_cn := 1; stride_scales := 32; stride_zeros := 4 |}.
Lemma eights_distinct ld ak am rows cols : cols <= ld -> distinct (eights ld ak am) rows cols.
Proof.
  intros L m n m' n' Hm Hn Hm' Hn'. unfold eights. cbn [stride_cm stride_cn]. rewrite !Z.mul_1_l. intros E.
  assert (m = m') by (destruct (Z.lt_trichotomy m m') as [L1|[L1|L1]]; [exfalso; nia|exact L1|exfalso; nia]). subst. lia.
Qed.
(** 96 inputs in blocks of 64. *)
Theorem C254_blocks_refuted : ~ C254_claim.
Proof.
  intros H. destruct (H (eights 96 1 96) 1 32 96 4 16 32 64 8) as [F _].
  - unfold sizes. lia.
  - right. left. reflexivity.
  - apply eights_distinct. lia.
  - apply eights_distinct. lia.
  - exists 8. reflexivity.
  - exists 4. reflexivity.
  - exists 3. reflexivity.
  - exists 1. reflexivity.
  - specialize (F 0 0 (fwd_acc (eights 96 1 96) 1 32 96 4 (2 ^ 4 - 1) 16 32 64 8 0 0 0) ltac:(lia) ltac:(lia)).
    assert (I : In (stride_cm (eights 96 1 96) * 0 + stride_cn (eights 96 1 96) * 0, fwd_acc (eights 96 1 96) 1 32 96 4 (2 ^ 4 - 1) 16 32 64 8 0 0 0) (fwd (eights 96 1 96) 1 32 96 4 (2 ^ 4 - 1) 16 32 64 8)).
    { apply in_fwd. exists 0, 0, 0. vm_compute. repeat split; congruence. }
    apply F in I. vm_compute in I. discriminate I.
Qed.
(** A transposed input: its columns are not contiguous. *)
Definition C254_strides_claim : Prop := forall t M N K bits bm bn bk group, sizes M N K bm bn bk group -> supported bits -> distinct t M N ->
  (32 / bits | bk) -> (bk | K) -> fwd_claim t M N K bits bm bn bk group.
Theorem C254_strides_refuted : ~ C254_strides_claim.
Proof.
  intros H. assert (F : fwd_claim (eights 64 2 1) 2 32 64 4 16 32 32 8).
  { apply H; [unfold sizes; lia|right; left; reflexivity|apply eights_distinct; lia|exists 4; reflexivity|exists 2; reflexivity]. }
  specialize (F 0 0 (fwd_acc (eights 64 2 1) 2 32 64 4 (2 ^ 4 - 1) 16 32 32 8 0 0 0) ltac:(lia) ltac:(lia)).
  assert (I : In (stride_cm (eights 64 2 1) * 0 + stride_cn (eights 64 2 1) * 0, fwd_acc (eights 64 2 1) 2 32 64 4 (2 ^ 4 - 1) 16 32 32 8 0 0 0) (fwd (eights 64 2 1) 2 32 64 4 (2 ^ 4 - 1) 16 32 32 8)).
  { apply in_fwd. exists 0, 0, 0. vm_compute. repeat split; congruence. }
  apply F in I. vm_compute in I. discriminate I.
Qed.
(** A launch that meets the conditions. *)
Example C254_ex : let t := eights 64 1 64 in sizes 2 32 64 16 32 32 8 /\ supported 4 /\ distinct t 2 32 /\ (32 / 4 | 32) /\ (32 | 64) /\ stride_ak t = 1 /\
  (fwd_acc t 2 32 64 4 15 16 32 32 8 0 1 3 == total 64 (fun k => A t 1 k * weight t 4 k 3))%Q /\ (fwd_acc t 2 32 64 4 15 16 32 32 8 0 1 3 == 1330)%Q.
Proof.
  cbv zeta. split; [unfold sizes; lia|]. split; [right; left; reflexivity|]. split; [apply eights_distinct; lia|]. split; [exists 4; reflexivity|]. split; [exists 2; reflexivity|]. split; [reflexivity|].
  split; vm_compute; reflexivity.
Qed.
Print Assumptions C253_tiles.
Print Assumptions C253_stored.
Print Assumptions C254_forward_partial.
Print Assumptions C254_backward_partial.
Print Assumptions C254_blocks_refuted.
Print Assumptions C254_strides_refuted.
