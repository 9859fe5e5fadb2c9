(** C45, C46, C47: SparseGPT. *)
From Coq Require Import Permutation Sorted Qround Lqa.
From Verif Require Import Prelude Candidates_Model Candidates_Props Recorder_Model SparseGpt_Model SparseGpt_Lemmas.
Open Scope Z_scope.

(** * C45: sparsity and patterns *)
Lemma masks_shape s hs W ms : block_masks s hs W = Ok ms -> exists t, threshold s (concat (map (scores hs) W)) = Ok t /\
  ms = map (map (fun x => Qle_bool x t)) (map (scores hs) W).
Proof.
  unfold block_masks. destruct (threshold s _) as [t|e]; cbn [bind]; [|discriminate]. intros E. apply Ok_inj in E. exists t. split; [reflexivity|].
  rewrite <- E, map_map. reflexivity.
Qed.
Lemma count_map_filter {A} (f : A -> bool) l : count_true (map f l) = length (filter f l).
Proof. unfold count_true. induction l as [|x r IH]; [reflexivity|]. cbn. destruct (f x); cbn; congruence. Qed.
(** Full claim (unstructured): for every sparsity in [0, 1], the fraction of the entries of a
    block that are masked is the sparsity, rounded down. *)
Definition C45_claim : Prop :=
  forall c hs W s, tri c hs -> wide c W -> (0 < c)%nat -> W <> [] -> (0 <= s <= 1)%Q ->
    exists ms, block_masks s hs W = Ok ms /\
      Z.of_nat (count_true (concat ms)) = Qfloor (inject_Z (Z.of_nat (length (concat W))) * s).
Theorem C45_sparsity_zero_refuted : ~ C45_claim.
Proof.
  intros H. destruct (H 2%nat [[1; 0]; [1]]%Q [[3; 4]]%Q 0%Q) as (ms & E & C).
  - cbn. auto.
  - repeat constructor.
  - lia.
  - discriminate.
  - split; discriminate.
  - vm_compute in E. injection E as <-. vm_compute in C. discriminate C.
Qed.
Lemma scores_len hs W c : tri c hs -> wide c W -> length (concat (map (scores hs) W)) = length (concat W).
Proof.
  intros T Wd. induction W as [|w W IH]; [reflexivity|]. inversion Wd; subst. cbn. rewrite !app_length, IH by assumption.
  rewrite (scores_length (length w)); [reflexivity|apply tri_length; exact T|reflexivity].
Qed.
(** With sparsity 1 there is no threshold: the indexing raises. *)
Theorem C45_sparsity_one_raises :
  forall c hs W, tri c hs -> wide c W -> (0 < c)%nat -> W <> [] -> block_masks 1 hs W = Raise IndexError.
Proof.
  intros c hs W T Wd C N. unfold block_masks, threshold, py_index.
  set (tmp := concat (map (scores hs) W)).
  assert (E : Qtrunc (inject_Z (Z.of_nat (length tmp)) * 1) = Z.of_nat (length tmp)).
  { rewrite Qtrunc_floor; [|rewrite Qmult_1_r; change 0%Q with (inject_Z 0); rewrite <- Zle_Qle; lia].
    rewrite (Qfloor_comp _ (inject_Z (Z.of_nat (length tmp)))) by apply Qmult_1_r. apply Qfloor_Z. }
  rewrite E. assert (L : Z.of_nat (length tmp) <? 0 = false) by (apply Z.ltb_ge; lia). rewrite L, L, Nat2Z.id.
  assert (X : nth_error (qsort tmp) (length tmp) = None) by (apply nth_error_None; rewrite (Permutation_length (qsort_perm tmp)); lia).
  rewrite X. reflexivity.
Qed.
Example C45_sparsity_one_ex : block_masks 1 [[1; 0]; [1]]%Q [[3; 4]]%Q = Raise IndexError /\ block_masks (1#2) [[1; 0]; [1]]%Q [[3; 4]]%Q = Ok [[true; true]].
Proof. split; reflexivity. Qed.
(** Below 1, one entry more than the fraction is masked (more if there are ties), and every
    masked entry has a smaller score than every other entry. *)
Theorem C45_mask_partial :
  forall c hs W s, tri c hs -> wide c W -> (0 < c)%nat -> W <> [] -> (0 <= s)%Q -> (s < 1)%Q ->
    exists ms, block_masks s hs W = Ok ms /\ wide c (map (map (fun b : bool => if b then 1 else 0)%Q) ms) /\ length ms = length W /\
      let sc := concat (map (scores hs) W) in
      let wanted := Qfloor (inject_Z (Z.of_nat (length (concat W))) * s) in
      wanted + 1 <= Z.of_nat (count_true (concat ms)) /\
      (distinct sc -> Z.of_nat (count_true (concat ms)) = wanted + 1) /\
      (forall i j a b, nth_error (concat ms) i = Some true -> nth_error (concat ms) j = Some false ->
         nth_error sc i = Some a -> nth_error sc j = Some b -> (a < b)%Q).
Proof.
  intros c hs W s T Wd C N H0 H1. set (sc := concat (map (scores hs) W)).
  assert (NE : sc <> []).
  { intros E. apply (f_equal (@length Q)) in E. unfold sc in E. rewrite (scores_len _ _ _ T Wd) in E. destruct W as [|w W]; [contradiction|].
    inversion Wd; subst. cbn in E. rewrite app_length in E. lia. }
  destruct (threshold_ok s sc H0 H1 NE) as (t & Et & En). unfold sc in Et.
  exists (map (map (fun x => Qle_bool x t)) (map (scores hs) W)).
  split; [unfold block_masks; rewrite Et; cbn [bind]; rewrite map_map; reflexivity|].
  split.
  { unfold wide. rewrite map_map. apply Forall_map, Forall_map. apply Forall_impl with (2 := Wd). intros w Lw. rewrite !map_length.
    apply scores_length; [apply tri_length; exact T|exact Lw]. }
  split; [rewrite !map_length; reflexivity|]. cbn zeta. rewrite <- concat_map. fold sc. rewrite count_map_filter.
  rewrite <- (scores_len _ _ _ T Wd). fold sc.
  assert (L : (0 < length sc)%nat) by (destruct sc; [contradiction|cbn; lia]).
  pose proof (floor_range _ s H0 H1 L) as FR.
  rewrite <- (filter_perm_length _ _ _ (qsort_perm sc)). split; [|split].
  - pose proof (sorted_count _ _ _ (qsort_sorted sc) En) as S. lia.
  - intros D. apply distinct_iff in D. apply (distinct'_perm _ (qsort sc)) in D; [|symmetry; apply qsort_perm].
    rewrite (sorted_count_exact _ _ _ (qsort_sorted sc) D En). lia.
  - intros i j a b Hi Hj Ha Hb. rewrite nth_error_map, Ha in Hi. rewrite nth_error_map, Hb in Hj. cbn in Hi, Hj.
    injection Hi as Hi. injection Hj as Hj. apply Qle_bool_iff in Hi. assert (G : ~ (b <= t)%Q) by (intros X; apply Qle_bool_iff in X; congruence).
    apply Qnot_le_lt in G. eapply Qle_lt_trans; eassumption.
Qed.
Example C45_mask_ex :
  tri 2 [[1; 0]; [1]]%Q /\ wide 2 [[3; 4]; [1; 2]]%Q /\ block_masks (1#4) [[1; 0]; [1]]%Q [[3; 4]; [1; 2]]%Q = Ok [[false; false]; [true; true]].
Proof. split; [cbn; auto|]. split; [repeat constructor|reflexivity]. Qed.

Lemma zip_row_prune hs c : tri c hs -> forall ms W, wide c W -> Forall (fun r => length r = c) ms -> length ms = length W ->
  let qe := map (fun p => row_prune hs (fst p) (snd p)) (combine ms W) in
  length qe = length W /\ Forall (fun p => length (fst p) = c) qe /\ (count_true (concat ms) <= zeros (concat (map fst qe)))%nat.
Proof.
  intros T. induction ms as [|r ms IH]; intros [|w W] Wd F L; try discriminate; [cbn; repeat split; constructor|].
  inversion Wd; inversion F; subst. injection L as L. destruct (IH W) as (I1 & I2 & I3); [assumption|assumption|exact L|].
  cbn [combine map fst snd concat length]. pose proof (row_prune_spec _ hs r w T ltac:(congruence) ltac:(congruence)) as R.
  destruct (row_prune hs r w) as [qs es]. destruct R as (R1 & R2 & R3). split; [congruence|]. split; [constructor; assumption|].
  cbn [fst]. rewrite count_true_app, zeros_app. pose proof (zeros_mask r qs ltac:(congruence) R3). lia.
Qed.
Lemma diag_len H : length (diag H) = length H.
Proof. unfold diag. rewrite map_length, combine_length, seq_length. apply Nat.min_id. Qed.
Lemma kill_wide H n W : length H = n -> wide n W -> wide n (map (kill (dead H)) W).
Proof.
  intros L Wd. unfold wide. apply Forall_map. apply Forall_impl with (2 := Wd). intros w Lw. unfold kill, dead.
  rewrite map_length, combine_length, map_length, diag_len. lia.
Qed.
(** Unstructured pruning of a layer: at least the wanted fraction (and one entry more) of every
    block of columns is zero afterwards; it never fails if the factorisation succeeds. *)
Theorem C45_unstructured_partial :
  forall topk factor alias_w alias_h s m bs percdamp l hinv,
    (0 <= s)%Q -> (s < 1)%Q -> (0 < bs)%nat -> weight l <> [] -> wide (length (hess l)) (weight l) ->
    factor (damped percdamp (revive (hess l))) = Some hinv -> tri (length (hess l)) hinv ->
    exists l', prune topk factor alias_w alias_h s 0 m bs percdamp l = (l', None) /\
      wide (length (hess l)) (weight l') /\ length (weight l') = length (weight l) /\
      forall k, (k * bs < length (hess l))%nat ->
        let c := Nat.min bs (length (hess l) - k * bs) in
        Qfloor (inject_Z (Z.of_nat (length (weight l) * c)) * s) + 1 <= Z.of_nat (zeros (concat (cols (k * bs) c (weight l')))).
Proof.
  intros topk factor aw ah s m bs pd l hinv H0 H1 B N Wd Ef T. unfold prune. rewrite Ef.
  set (n := length (hess l)) in *. set (W0 := map (kill (dead (hess l))) (weight l)).
  assert (Wd0 : wide n W0) by (apply kill_wide; [reflexivity|exact Wd]).
  assert (L0 : length W0 = length (weight l)) by apply map_length.
  pose proof (blocks_spec topk s 0 m (length (weight l))
    (fun c Q => Qfloor (inject_Z (Z.of_nat (length (weight l) * c)) * s) + 1 <= Z.of_nat (zeros (concat Q))) (fun c => (0 < c)%nat)) as BS.
  destruct (fun X => BS X (block_sizes n bs) hinv W0) as (W' & E & Wd' & L' & G).
  - intros c hs W C Th Ww Lw.
    assert (NW : W <> []) by (destruct (weight l); [contradiction|destruct W; [discriminate|discriminate]]).
    destruct (C45_mask_partial c hs W s Th Ww C NW H0 H1) as (ms & Em & Wm & Lm & Cm & _ & _).
    assert (Fm : Forall (fun r => length r = c) ms).
    { unfold wide in Wm. rewrite Forall_map in Wm. apply Forall_impl with (2 := Wm). intros r Hr. rewrite map_length in Hr. exact Hr. }
    destruct (zip_row_prune hs c Th ms W Ww Fm Lm) as (Z1 & Z2 & Z3).
    exists (map (fun p => row_prune hs (fst p) (snd p)) (combine ms W)). split.
    { unfold block. cbn [Nat.eqb]. rewrite Em. reflexivity. }
    split; [congruence|]. split; [exact Z2|].
    assert (Lc : length (concat W) = (length (weight l) * c)%nat).
    { rewrite <- Lw. clear -Ww. induction W as [|w W IH]; [reflexivity|]. inversion Ww; subst. cbn. rewrite app_length, IH by assumption. lia. }
    rewrite Lc in Cm. lia.
  - apply sizes_le. exact B.
  - rewrite sizes_sum by exact B. exact T.
  - rewrite sizes_sum by exact B. exact Wd0.
  - exact L0.
  - rewrite E. cbn [Nat.eqb andb]. rewrite sizes_sum in Wd' by exact B. eexists. split; [reflexivity|]. cbn [weight].
    replace (if aw then W' else W') with W' by (destruct aw; reflexivity). split; [exact Wd'|]. split; [exact L'|].
    intros k Hk. destruct (sizes_split n bs k B Hk) as (pre & post & Es & Ep). specialize (G pre _ post Es). rewrite Ep in G. exact G.
Qed.

(** ** N:M patterns *)
(** A topk that meets its contract. *)
Definition ex_topk (l : list Q) (k : nat) : list nat :=
  map snd (firstn k (stable_sort (fun a b : Q * nat => negb (Qle_bool (fst b) (fst a))) (combine l (seq 0 (length l))))).
Lemma ss_app {A} (R : A -> A -> Prop) a b : StronglySorted R (a ++ b) -> forall x y, In x a -> In y b -> R x y.
Proof.
  induction a as [|z a IH]; intros S x y Hx Hy; [destruct Hx|]. inversion S; subst. destruct Hx as [->|Hx]; [|apply IH; assumption].
  rewrite Forall_forall in H2. apply H2. apply in_or_app. right. exact Hy.
Qed.
Lemma combine_seq_nth : forall (l : list Q) k p, In p (combine l (seq k (length l))) -> (k <= snd p < k + length l)%nat /\ fst p = nth (snd p - k) l 0%Q.
Proof.
  induction l as [|x l IH]; intros k p H; [destruct H|]. cbn [length seq combine] in H. destruct H as [<-|H].
  - cbn. rewrite Nat.sub_diag. split; [lia|reflexivity].
  - apply IH in H. cbn [length]. destruct H as [H E]. split; [lia|]. rewrite E. replace (snd p - k)%nat with (S (snd p - S k)) by lia. reflexivity.
Qed.
Lemma ex_topk_ok : topk_ok ex_topk.
Proof.
  intros l k L. unfold ex_topk. set (L0 := combine l (seq 0 (length l))). set (S := stable_sort _ L0).
  assert (P : Permutation S L0) by apply stable_perm.
  assert (LS : length S = length l) by (rewrite (Permutation_length P); unfold L0; rewrite combine_length, seq_length; apply Nat.min_id).
  assert (SN : map snd L0 = seq 0 (length l)).
  { unfold L0. clear. generalize 0%nat as k. induction l as [|x l IH]; intros k; [reflexivity|]. cbn. f_equal. apply IH. }
  assert (ND : NoDup (map snd S)) by (eapply Permutation_NoDup; [apply Permutation_map; symmetry; exact P|rewrite SN; apply seq_NoDup]).
  assert (SS : StronglySorted (fun a b : Q * nat => (fst a <= fst b)%Q) S).
  { apply stable_sorted.
    - intros a b H. apply Bool.negb_true_iff in H. apply Qle_bool_false in H. exact H.
    - intros a b H. apply Bool.negb_false_iff in H. apply Qle_bool_iff in H. exact H.
    - intros a b c. apply Qle_trans. }
  assert (V : forall p, In p S -> (snd p < length l)%nat /\ fst p = nth (snd p) l 0%Q).
  { intros p H. apply (Permutation_in _ P) in H. apply combine_seq_nth in H. rewrite Nat.sub_0_r in H. destruct H; split; [lia|assumption]. }
  split; [rewrite map_length, firstn_length; lia|]. split.
  { rewrite <- firstn_map. rewrite <- (firstn_skipn k (map snd S)) in ND. clear -ND. remember (skipn k (map snd S)) as b. clear Heqb.
    induction (firstn k (map snd S)) as [|x a IH]; [constructor|]. inversion ND; subst. constructor; [intros H; apply H1; apply in_or_app; auto|auto]. }
  split.
  { intros i H. apply in_map_iff in H. destruct H as (p & <- & Hp). apply V. rewrite <- (firstn_skipn k S). apply in_or_app. auto. }
  intros i j Hi Hj Nj. apply in_map_iff in Hi. destruct Hi as (p & <- & Hp).
  assert (Ij : In j (map snd S)) by (eapply Permutation_in; [apply Permutation_map; symmetry; exact P|rewrite SN; apply in_seq; lia]).
  apply in_map_iff in Ij. destruct Ij as (q & <- & Hq).
  assert (Hq' : In q (skipn k S)).
  { rewrite <- (firstn_skipn k S) in Hq. apply in_app_or in Hq. destruct Hq as [Hq|Hq]; [|exact Hq]. exfalso. apply Nj. apply in_map. exact Hq. }
  assert (Hp' : In p S) by (rewrite <- (firstn_skipn k S); apply in_or_app; auto).
  rewrite <- (proj2 (V p Hp')), <- (proj2 (V q ltac:(rewrite <- (firstn_skipn k S); apply in_or_app; auto))).
  rewrite <- (firstn_skipn k S) in SS. exact (ss_app _ _ _ SS p q Hp Hq').
Qed.

Definition identity3 (n : nat) : list (list Q) := map (fun k => 1%Q :: repeat 0%Q (n - 1 - k)) (seq 0 n).
Definition eye (n : nat) : matrix := map (fun i => map (fun j => if Nat.eqb i j then 1%Q else 0%Q) (seq 0 n)) (seq 0 n).
(** Full claim (N:M): whatever the widths, pruning with the pattern n:m succeeds and leaves at
    least n zeros in every aligned group of m columns. *)
Definition C45_nm_claim : Prop :=
  forall topk factor s n m bs percdamp l hinv,
    topk_ok topk -> (0 < n <= m)%nat -> (0 < bs)%nat -> wide (length (hess l)) (weight l) ->
    factor (damped percdamp (revive (hess l))) = Some hinv -> tri (length (hess l)) hinv ->
    exists l', prune topk factor true true s n m bs percdamp l = (l', None) /\ Forall (pattern n m) (weight l').
(** A layer with six inputs cannot be pruned 2:4. *)
Theorem C45_nm_refuted : ~ C45_nm_claim.
Proof.
  intros H. destruct (H ex_topk (fun _ => Some (identity3 6)) 0%Q 2%nat 4%nat 128%nat 0%Q {| weight := [[1; 2; 3; 4; 5; 6]]%Q; hess := eye 6 |} (identity3 6)) as (l' & E & _).
  - apply ex_topk_ok.
  - lia.
  - apply Nat.ltb_lt. reflexivity.
  - repeat constructor.
  - reflexivity.
  - cbn. repeat split.
  - vm_compute in E. discriminate E.
Qed.
(** Nor does a block size that is no multiple of four: the check at the end fails. *)
Theorem C45_nm_blocksize_refuted :
  exists l, wide 16 (weight l) /\
    snd (prune ex_topk (fun _ => Some (identity3 16)) true true 0 2 4 7 0 l) = Some AssertionError.
Proof.
  exists {| weight := [[1; 1; 1; 1; 1; 1; 1; 1; 1; 5; 5; 5; 1; 1; 1; 1]]%Q; hess := eye 16 |}.
  split; [repeat constructor|]. vm_compute. reflexivity.
Qed.
Lemma groups4_pattern : forall w g, length w = (g * 4)%nat -> pattern 2 4 w -> forallb (fun x => (2 <=? zeros x)%nat) (groups4 w) = true.
Proof.
  intros w g. revert w. induction g as [|g IH]; intros w L P.
  - destruct w; [reflexivity|discriminate].
  - destruct w as [|a [|b [|c [|d r]]]]; try discriminate. cbn [groups4 forallb]. apply Bool.andb_true_iff. split.
    + apply Nat.leb_le. apply (P 0%nat). cbn. lia.
    + apply IH; [cbn in L; lia|]. intros k Hk. specialize (P (S k)). cbn [Nat.mul length] in P. apply P. lia.
Qed.
Lemma groups4_app : forall a g b, length a = (g * 4)%nat -> groups4 (a ++ b) = groups4 a ++ groups4 b.
Proof.
  intros a g. revert a. induction g as [|g IH]; intros a b L.
  - destruct a; [reflexivity|discriminate].
  - destruct a as [|x [|y [|z [|t r]]]]; try discriminate. cbn [app groups4]. rewrite IH; [reflexivity|cbn in L; lia].
Qed.
Lemma is_sparse_ok g W : wide (g * 4) W -> Forall (pattern 2 4) W -> is_weight_sparse_24 W = Ok true.
Proof.
  intros Wd P. unfold is_weight_sparse_24.
  assert (L : (length (concat W) = length W * g * 4)%nat).
  { clear P. induction W as [|w W IH]; [reflexivity|]. inversion Wd; subst. cbn. rewrite app_length, IH by assumption. lia. }
  rewrite L, Nat.mod_mul by lia. cbn [Nat.eqb]. f_equal. clear L.
  induction W as [|w W IH]; [reflexivity|]. inversion Wd; inversion P; subst. cbn [concat].
  rewrite (groups4_app w g) by assumption. rewrite forallb_app, IH by assumption. rewrite (groups4_pattern w g) by assumption. reflexivity.
Qed.
Lemma forall2_len {A B} (P : A -> B -> Prop) : forall l k, Forall2 P l k -> length l = length k.
Proof. induction 1; cbn; congruence. Qed.
Lemma mapM_rows {A B} (f : A -> outcome B) (P : A -> B -> Prop) : forall l, (forall x, In x l -> exists y, f x = Ok y /\ P x y) ->
  exists ys, mapM f l = Ok ys /\ Forall2 P l ys.
Proof.
  induction l as [|x l IH]; intros H; [exists []; split; [reflexivity|constructor]|].
  destruct (H x (or_introl eq_refl)) as (y & E & Py). destruct IH as (ys & Es & F); [intros z Hz; apply H; right; exact Hz|].
  exists (y :: ys). cbn. rewrite E. cbn [bind]. rewrite Es. split; [reflexivity|constructor; assumption].
Qed.
(** If the block size and the width are multiples of m, the claim holds (for 2:4 including the
    check at the end). *)
Theorem C45_nm_partial :
  forall topk factor alias_w alias_h s n m b g percdamp l hinv,
    topk_ok topk -> (0 < n <= m)%nat -> (0 < b)%nat -> length (hess l) = (g * m)%nat -> wide (g * m) (weight l) ->
    factor (damped percdamp (revive (hess l))) = Some hinv -> tri (g * m) hinv ->
    exists l', prune topk factor alias_w alias_h s n m (b * m) percdamp l = (l', None) /\
      wide (g * m) (weight l') /\ length (weight l') = length (weight l) /\ Forall (pattern n m) (weight l').
Proof.
  intros topk factor aw ah s n m b g pd l hinv TK NM B Lh Wd Ef T. unfold prune. rewrite Ef, Lh.
  set (W0 := map (kill (dead (hess l))) (weight l)).
  assert (Wd0 : wide (g * m) W0) by (apply kill_wide; assumption).
  assert (BP : (0 < b * m)%nat) by nia.
  pose proof (blocks_spec topk s n m (length (weight l)) (fun c Q => Forall (pattern n m) Q) (fun c => exists j, c = (j * m)%nat)) as BS.
  destruct (fun X => BS X (block_sizes (g * m) (b * m)) hinv W0) as (W' & E & Wd' & L' & G).
  - intros c hs W (j & ->) Th Ww Lw. unfold block. destruct (Nat.eqb_spec n 0); [lia|].
    destruct (mapM_rows (row_nm topk n m 0 [] hs) (fun _ p => length (fst p) = (j * m)%nat /\ pattern n m (fst p)) W) as (qe & Eq & F).
    { intros w Hw. unfold wide in Ww. rewrite Forall_forall in Ww.
      destruct (row_nm_spec topk TK n m ltac:(lia) ltac:(lia) j 0 [] hs w) as (qs & es & E & L1 & _ & P); [apply Nat.mod_0_l; lia|exact Th|apply Ww; exact Hw|].
      exists (qs, es). split; [exact E|]. split; [exact L1|exact P]. }
    exists qe. split; [exact Eq|]. split; [rewrite <- (forall2_len _ _ _ F); exact Lw|].
    clear -F. split; [|rewrite Forall_map]; induction F; constructor; try (apply H); assumption.
  - unfold block_sizes. apply Forall_app. split.
    + apply Forall_forall. intros x I. apply repeat_spec in I. subst. exists b. reflexivity.
    + destruct (Nat.eqb_spec ((g * m) mod (b * m)) 0); constructor; [|constructor]. rewrite Nat.mul_mod_distr_r by lia. eauto.
  - rewrite sizes_sum by exact BP. exact T.
  - rewrite sizes_sum by exact BP. exact Wd0.
  - apply map_length.
  - rewrite sizes_sum in Wd' by exact BP.
    assert (PA : Forall (pattern n m) W').
    { apply Forall_forall. intros w Hw k Hk. unfold wide in Wd'. rewrite Forall_forall in Wd'. pose proof (Wd' w Hw) as Lw. rewrite Lw in Hk.
      set (j := (k / b)%nat).
      pose proof (Nat.div_mod k b ltac:(lia)) as D. pose proof (Nat.mod_upper_bound k b ltac:(lia)) as U. fold j in D.
      assert (J : (j * (b * m) < g * m)%nat) by nia.
      destruct (sizes_split (g * m) (b * m) j BP J) as (pre & post & Es & Ep). specialize (G pre _ post Es). rewrite Ep in G.
      set (c := Nat.min (b * m) (g * m - j * (b * m))) in *. unfold cols in G. rewrite Forall_map, Forall_forall in G. specialize (G w Hw (k mod b)%nat).
      assert (KG : (k + 1 <= g)%nat) by nia.
      assert (C1 : ((k mod b) * m + m <= c)%nat) by (unfold c; apply Nat.min_glb; nia).
      assert (Lc : (length (firstn c (skipn (j * (b * m)) w)) = c)%nat) by (rewrite firstn_length, skipn_length, Lw; unfold c; lia).
      rewrite Lc in G. specialize (G C1). rewrite skipn_firstn_comm, firstn_firstn in G. rewrite Nat.min_l in G by lia.
      assert (SK : skipn (k mod b * m) (skipn (j * (b * m)) w) = skipn (k * m) w).
      { assert (X : forall x y (l : list Q), skipn x (skipn y l) = skipn (y + x) l) by (intros x y; revert x; induction y as [|y IH]; intros x [|z l0]; cbn; [reflexivity|reflexivity|destruct x; reflexivity|apply IH]).
        rewrite X. f_equal. nia. }
      rewrite SK in G. exact G. }
    rewrite E. assert (R : exists l', ({| weight := if aw then W' else W'; hess := if ah then damped pd (revive (hess l)) else hess l |}, @None exn) = (l', None) /\ weight l' = W').
    { eexists. split; [reflexivity|]. destruct aw; reflexivity. }
    destruct R as (l' & R1 & R2).
    destruct (Nat.eqb n 2 && Nat.eqb m 4) eqn:E24.
    + apply Bool.andb_true_iff in E24. destruct E24 as [E2 E4]. apply Nat.eqb_eq in E2, E4. subst n m.
      rewrite (is_sparse_ok g) by assumption. rewrite R1. exists l'. rewrite R2. split; [reflexivity|]. split; [exact Wd'|]. split; [exact L'|exact PA].
    + rewrite R1. exists l'. rewrite R2. split; [reflexivity|]. split; [exact Wd'|]. split; [exact L'|exact PA].
Qed.
Example C45_nm_ex :
  let l := {| weight := [[4; 3; 2; 1; 8; 7; 6; 5]]%Q; hess := eye 8 |} in
  let r := prune ex_topk (fun _ => Some (identity3 8)) false false 0 2 4 (1 * 4) 0 l in
  tri (2 * 4) (identity3 8) /\ wide (2 * 4) (weight l) /\ snd r = None /\
  map (map (fun q => Qeq_bool q 0)) (weight (fst r)) = [[false; false; true; true; false; false; true; true]].
Proof. split; [cbn; repeat split|]. split; [repeat constructor|]. split; vm_compute; reflexivity. Qed.
Example C45_unstructured_ex :
  let l := {| weight := [[4; 3; 2; 1]; [8; 7; 6; 5]]%Q; hess := eye 4 |} in
  let r := prune ex_topk (fun _ => Some (identity3 4)) true true (1#4) 0 0 3 0 l in
  tri 4 (identity3 4) /\ wide 4 (weight l) /\ snd r = None /\
  map (map (fun q => Qeq_bool q 0)) (weight (fst r)) = [[false; true; true; true]; [false; false; false; false]].
Proof. split; [cbn; repeat split|]. split; [repeat constructor|]. split; vm_compute; reflexivity. Qed.

(** * C46: the Hessian *)
Inductive op := Init | Update (dist : bool) (xs : list batch).
Definition run_op (a : accumulator) (o : op) : outcome accumulator :=
  match o with Init => Ok (init_hessian a) | Update d xs => update_hessian d xs a end.
Fixpoint run_ops (ops : list op) (a : accumulator) : outcome accumulator :=
  match ops with [] => Ok a | o :: r => do a' <- run_op a o; run_ops r a' end.
(** Samples and Gram matrices of the inputs of all workers. *)
Definition samples (xs : list batch) : Z := Z.of_nat (length (concat xs)).
Definition total (us : list (list batch)) (i j : nat) : Q := sumQ (map (fun xs => sumQ (map (fun x => gram x i j) xs)) us).
Definition count (us : list (list batch)) : Z := fold_right Z.add 0 (map samples us).
(** The full claim. *)
Definition C46_claim : Prop :=
  forall dist pre us a, us <> [] -> (forall xs, In xs us -> 0 < samples xs) -> (dist = false -> forall xs, In xs us -> length xs = 1%nat) ->
    run_ops (pre ++ Init :: map (Update dist) us) acc_init = Ok a ->
    exists h, _hessian a = Some h /\ forall i j, (h i j == total us i j / inject_Z (count us))%Q.
Theorem C46_reinit_refuted : ~ C46_claim.
Proof.
  intros H. set (x := [[[1]]]%Q : batch).
  destruct (H false [Init; Update false [x]] [[x]] {| _hessian := Some (fun i j => ((fun _ _ => 0) i j * inject_Z 1 + sumQ (map (fun x => gram x i j) [x])) / inject_Z 2)%Q; hessian_batch := 2 |}) as (h & E & C).
  - discriminate.
  - intros xs [<-|[]]. reflexivity.
  - intros _ xs [<-|[]]. reflexivity.
  - reflexivity.
  - cbn [_hessian] in E. injection E as <-. specialize (C 0%nat 0%nat). vm_compute in C. discriminate C.
Qed.
(** Workers with batches of different sizes are weighted as if all had the batch of rank 0. *)
Theorem C46_workers_refuted : ~ C46_claim.
Proof.
  intros H. set (x := [[[1]]]%Q : batch). set (y := [[[1]]; [[1]]]%Q : batch).
  destruct (H true [] [[y; x]] {| _hessian := Some (fun i j => ((fun _ _ => 0) i j * inject_Z 0 + sumQ (map (fun x => gram x i j) [y; x])) / inject_Z 4)%Q; hessian_batch := 4 |}) as (h & E & C).
  - discriminate.
  - intros xs [<-|[]]. reflexivity.
  - discriminate.
  - reflexivity.
  - cbn [_hessian] in E. injection E as <-. specialize (C 0%nat 0%nat). vm_compute in C. discriminate C.
Qed.
(** Every worker has as many samples as rank 0. *)
Definition even (xs : list batch) : Prop := forall x, In x xs -> length x = length (hd [] xs).
Lemma even_samples xs : even xs -> Z.of_nat (length (hd [] xs)) * Z.of_nat (length xs) = samples xs.
Proof.
  intros E. unfold samples. unfold even in E. revert E. generalize (length (hd [] xs)) as n. intros n E.
  assert (L : length (concat xs) = (length xs * n)%nat).
  { induction xs as [|x xs IH]; [reflexivity|]. cbn. rewrite app_length, IH by (intros y Hy; apply E; right; exact Hy). rewrite (E x (or_introl eq_refl)). lia. }
  rewrite L. lia.
Qed.
Lemma run_ops_app : forall a b st, run_ops (a ++ b) st = do x <- run_ops a st; run_ops b x.
Proof. induction a as [|o a IH]; intros b st; [reflexivity|]. cbn [app run_ops]. destruct (run_op st o); [apply IH|reflexivity]. Qed.
Lemma run_ops_nonneg : forall ops a a', run_ops ops a = Ok a' -> 0 <= hessian_batch a -> 0 <= hessian_batch a'.
Proof.
  induction ops as [|o ops IH]; intros a a' E H; cbn [run_ops] in E; [apply Ok_inj in E; congruence|].
  destruct (run_op a o) as [a1|] eqn:E1; cbn [bind] in E; [|discriminate]. apply (IH _ _ E).
  destruct o as [|d xs]; cbn [run_op] in E1.
  - apply Ok_inj in E1. subst. exact H.
  - unfold update_hessian in E1. destruct (_hessian a); [|discriminate]. apply Ok_inj in E1. subst. cbn [hessian_batch]. lia.
Qed.
Lemma updates_spec dist : forall us a h, _hessian a = Some h -> 0 <= hessian_batch a -> (forall xs, In xs us -> 0 < samples xs /\ even xs) ->
  exists a' h', run_ops (map (Update dist) us) a = Ok a' /\ _hessian a' = Some h' /\ hessian_batch a' = hessian_batch a + count us /\
    forall i j, (h' i j * inject_Z (hessian_batch a') == h i j * inject_Z (hessian_batch a) + total us i j)%Q.
Proof.
  induction us as [|xs us IH]; intros a h Eh B H.
  - exists a, h. cbn. unfold count, total. cbn. split; [reflexivity|]. split; [exact Eh|]. split; [lia|]. intros. ring.
  - destruct (H xs (or_introl eq_refl)) as [P Ev]. cbn [map run_ops run_op]. unfold update_hessian. rewrite Eh. cbn [bind]. rewrite (even_samples xs Ev).
    edestruct (IH {| _hessian := Some (fun i j => (h i j * inject_Z (hessian_batch a) + sumQ (map (fun x => gram x i j) xs)) / inject_Z (hessian_batch a + samples xs))%Q; hessian_batch := hessian_batch a + samples xs |})
      as (a' & h' & E & E' & Bt & V); [reflexivity|cbn; lia|intros y Hy; apply H; right; exact Hy|].
    exists a', h'. split; [exact E|]. split; [exact E'|]. cbn [hessian_batch] in Bt, V. split; [unfold count in *; cbn [map fold_right]; lia|].
    intros i j. rewrite V. change (total (xs :: us) i j) with (sumQ (map (fun x => gram x i j) xs) + total us i j)%Q. field.
    intros C. assert (X : (0 < inject_Z (hessian_batch a + samples xs))%Q) by (change 0%Q with (inject_Z 0); rewrite <- Zlt_Qlt; lia). rewrite C in X. apply Qlt_irrefl in X. exact X.
Qed.
(** Exactly: the sum over the inputs since the last initialisation, divided by the number of
    samples since the layer was built. *)
Theorem C46_exact :
  forall dist pre us b, run_ops pre acc_init = Ok b -> us <> [] -> (forall xs, In xs us -> 0 < samples xs /\ even xs) ->
    exists a h, run_ops (pre ++ Init :: map (Update dist) us) acc_init = Ok a /\ _hessian a = Some h /\
      hessian_batch a = hessian_batch b + count us /\
      forall i j, (h i j == total us i j / inject_Z (hessian_batch b + count us))%Q.
Proof.
  intros dist pre us b E N H. rewrite run_ops_app, E. cbn [bind run_ops run_op].
  pose proof (run_ops_nonneg _ _ _ E (Z.le_refl 0)) as B.
  destruct (updates_spec dist us (init_hessian b) (fun _ _ => 0%Q) eq_refl B H) as (a & h & E1 & E2 & E3 & V).
  exists a, h. split; [exact E1|]. split; [exact E2|]. cbn [init_hessian hessian_batch] in *. split; [exact E3|].
  intros i j. specialize (V i j). rewrite E3 in V.
  assert (C : 0 < count us).
  { destruct us as [|xs us]; [contradiction|]. unfold count. cbn [map fold_right]. destruct (H xs (or_introl eq_refl)).
    assert (0 <= fold_right Z.add 0 (map samples us)); [|lia]. clear. induction us; cbn; [lia|unfold samples at 1; lia]. }
  assert (X : ~ (inject_Z (hessian_batch b + count us) == 0)%Q).
  { intros X. assert (Y : (0 < inject_Z (hessian_batch b + count us))%Q) by (change 0%Q with (inject_Z 0); rewrite <- Zlt_Qlt; lia). rewrite X in Y. apply Qlt_irrefl in Y. exact Y. }
  assert (V' : (total us i j == h i j * inject_Z (hessian_batch b + count us))%Q) by (rewrite V; ring).
  rewrite V'. field. exact X.
Qed.
(** The claim holds for the first initialisation (and whenever no sample was seen before). *)
Theorem C46_first_partial :
  forall dist us, us <> [] -> (forall xs, In xs us -> 0 < samples xs /\ even xs) ->
    exists a h, run_ops (Init :: map (Update dist) us) acc_init = Ok a /\ _hessian a = Some h /\
      forall i j, (h i j == total us i j / inject_Z (count us))%Q.
Proof.
  intros dist us N H. destruct (C46_exact dist [] us acc_init eq_refl N H) as (a & h & E1 & E2 & E3 & V). exists a, h. auto.
Qed.
Example C46_ex :
  (forall xs, In xs [[[[[1; 2]]]]; [[[[3; 0]]]]]%Q -> 0 < samples xs /\ even xs) /\
  (total [[[[[1; 2]]]]; [[[[3; 0]]]]]%Q 0 0 / inject_Z (count [[[[[1; 2]]]]; [[[[3; 0]]]]]%Q) == 10)%Q.
Proof.
  split; [|reflexivity]. intros xs [<-|[<-|[]]]; (split; [reflexivity|]); intros x [<-|[]]; reflexivity.
Qed.

(** * C47: failures *)
(** The full claim: a layer whose pruning fails keeps its weight and its Hessian. *)
Definition C47_claim : Prop :=
  forall topk factor alias_w alias_h s n m bs percdamp l l' e,
    prune topk factor alias_w alias_h s n m bs percdamp l = (l', Some e) -> l' = l.
Theorem C47_in_place_refuted : ~ C47_claim.
Proof.
  intros H. specialize (H ex_topk (fun _ => None) true true (1#2)%Q 0%nat 0%nat 128%nat (1#100)%Q
    {| weight := [[1; 2]]%Q; hess := [[0; 0]; [0; 3]]%Q |} _ _ eq_refl).
  apply (f_equal weight) in H. vm_compute in H. discriminate H.
Qed.
(** A half-pruned weight is left behind if the check at the end fails (2:4 with six inputs). *)
Theorem C47_half_pruned_refuted :
  exists l l', prune ex_topk (fun _ => Some (identity3 6)) true true 0 2 4 128 0 l = (l', Some RuntimeError) /\ weight l' <> weight l.
Proof.
  exists {| weight := [[1; 2; 3; 4; 5; 6]]%Q; hess := eye 6 |}. eexists. split; [vm_compute; reflexivity|]. vm_compute. discriminate.
Qed.
(** Whatever the outcome, the shared Hessian is damped and its dead entries are set to 1. *)
Theorem C47_hessian :
  forall topk factor alias_w s n m bs percdamp l,
    hess (fst (prune topk factor alias_w true s n m bs percdamp l)) = damped percdamp (revive (hess l)).
Proof.
  intros. unfold prune. destruct (factor _) as [hinv|]; [|reflexivity]. destruct (blocks _ _ _ _ _ _ _) as [W [e|]]; [reflexivity|].
  destruct (Nat.eqb n 2 && Nat.eqb m 4); [|reflexivity]. destruct (is_weight_sparse_24 W) as [[|]|]; reflexivity.
Qed.
Example C47_hessian_ex :
  hess (fst (prune ex_topk (fun _ => None) true true (1#2) 0 0 128 1 {| weight := []; hess := [[0; 0]; [0; 3]]%Q |})) <> [[0; 0]; [0; 3]]%Q.
Proof. vm_compute. discriminate. Qed.
(** If the computation works on copies (a weight that is not float, a Hessian on another
    device), a failure changes nothing. *)
Theorem C47_copies_partial :
  forall topk factor s n m bs percdamp l l' e, prune topk factor false false s n m bs percdamp l = (l', Some e) -> l' = l.
Proof.
  intros topk factor s n m bs pd l l' e. unfold prune. destruct l as [w h]. cbn [weight hess].
  destruct (factor _) as [hinv|]; [|intros H; inversion H; reflexivity].
  destruct (blocks _ _ _ _ _ _ _) as [W [e'|]]; [intros H; inversion H; reflexivity|].
  destruct (Nat.eqb n 2 && Nat.eqb m 4); [|intros H; inversion H].
  destruct (is_weight_sparse_24 W) as [[|]|]; intros H; inversion H; reflexivity.
Qed.
Example C47_copies_ex : let l := {| weight := [[1; 2; 3; 4; 5; 6]]%Q; hess := eye 6 |} in
  prune ex_topk (fun _ => Some (identity3 6)) false false 0 2 4 128 0 l = (l, Some RuntimeError).
Proof. vm_compute. reflexivity. Qed.
(** The compressor prunes every layer, also after a failure. *)
Theorem C47_continues :
  forall topk factor alias_w alias_h s n m bs percdamp ls k l, nth_error ls k = Some l ->
    nth_error (compress topk factor alias_w alias_h s n m bs percdamp ls) k = Some (prune topk factor alias_w alias_h s n m bs percdamp l).
Proof. intros. unfold compress. rewrite nth_error_map, H. reflexivity. Qed.
Example C47_continues_ex :
  map snd (compress ex_topk (fun _ => Some (identity3 6)) true true 0 2 4 128 0
    [{| weight := [[1; 2; 3; 4; 5; 6]]%Q; hess := eye 6 |}; {| weight := [[1; 2; 3; 4; 5; 6]; [1; 2; 3; 4; 5; 6]]%Q; hess := eye 6 |}]) = [Some RuntimeError; None].
Proof. vm_compute. reflexivity. Qed.

Print Assumptions C45_sparsity_zero_refuted.
Print Assumptions C45_sparsity_one_raises.
Print Assumptions C45_mask_partial.
Print Assumptions C45_unstructured_partial.
Print Assumptions C45_nm_refuted.
Print Assumptions C45_nm_blocksize_refuted.
Print Assumptions C45_nm_partial.
Print Assumptions C46_reinit_refuted.
Print Assumptions C46_workers_refuted.
Print Assumptions C46_exact.
Print Assumptions C46_first_partial.
Print Assumptions C47_in_place_refuted.
Print Assumptions C47_half_pruned_refuted.
Print Assumptions C47_hessian.
Print Assumptions C47_copies_partial.
Print Assumptions C47_continues.
