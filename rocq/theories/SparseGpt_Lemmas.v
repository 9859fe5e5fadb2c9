(** Lemmas about the SparseGPT model. *)
From Coq Require Import Permutation Sorted Qround Lqa.
From Verif Require Import Prelude Candidates_Model Candidates_Props Recorder_Model SparseGpt_Model.
Open Scope Z_scope.

(** * Sorting and thresholds *)
Lemma qsort_perm l : Permutation (qsort l) l.
Proof. apply stable_perm. Qed.
Lemma qsort_sorted l : StronglySorted Qle (qsort l).
Proof.
  apply stable_sorted.
  - intros a b H. apply Bool.negb_true_iff in H. apply Qle_bool_false in H. exact H.
  - intros a b H. apply Bool.negb_false_iff in H. apply Qle_bool_iff in H. exact H.
  - intros a b c. apply Qle_trans.
Qed.
Lemma filter_perm_length {A} (f : A -> bool) l l' : Permutation l l' -> length (filter f l) = length (filter f l').
Proof. induction 1; cbn; [reflexivity|destruct (f x); cbn; congruence|destruct (f x), (f y); reflexivity|congruence]. Qed.
Lemma sorted_count : forall l k t, StronglySorted Qle l -> nth_error l k = Some t -> (k + 1 <= length (filter (fun s => Qle_bool s t) l))%nat.
Proof.
  induction l as [|x r IH]; intros k t S E; [destruct k; discriminate|]. inversion S; subst. destruct k as [|k]; cbn [nth_error] in E.
  - injection E as ->. cbn [filter]. assert (X : Qle_bool t t = true) by (apply Qle_bool_iff, Qle_refl). rewrite X. cbn. lia.
  - cbn [filter]. assert (X : Qle_bool x t = true).
    { apply Qle_bool_iff. rewrite Forall_forall in H2. apply H2. eapply nth_error_In. exact E. }
    rewrite X. cbn [length]. specialize (IH k t H1 E). lia.
Qed.
(** Pairwise different numbers. *)
Definition distinct (l : list Q) : Prop := forall i j a b, nth_error l i = Some a -> nth_error l j = Some b -> (a == b)%Q -> i = j.
Definition distinct' (l : list Q) : Prop := ForallOrdPairs (fun a b => ~ (a == b)%Q) l.
Lemma distinct_iff l : distinct l <-> distinct' l.
Proof.
  split.
  - induction l as [|x r IH]; intros H; constructor.
    + apply Forall_forall. intros y Hy E. apply In_nth_error in Hy. destruct Hy as (n & Hn). specialize (H 0%nat (S n) x y eq_refl Hn E). discriminate.
    + apply IH. intros i j a b Hi Hj E. specialize (H (S i) (S j) a b Hi Hj E). congruence.
  - induction 1 as [|x r H F IH]; intros i j a b Hi Hj E; [destruct i; discriminate|]. rewrite Forall_forall in H.
    destruct i as [|i], j as [|j]; cbn in Hi, Hj.
    + reflexivity.
    + injection Hi as ->. exfalso. apply (H b); [eapply nth_error_In; exact Hj|exact E].
    + injection Hj as ->. exfalso. apply (H a); [eapply nth_error_In; exact Hi|symmetry; exact E].
    + f_equal. eapply IH; eassumption.
Qed.
Lemma distinct'_perm l l' : Permutation l l' -> distinct' l -> distinct' l'.
Proof.
  unfold distinct'. induction 1; intros D.
  - exact D.
  - inversion D; subst. constructor; [|auto]. eapply Permutation_Forall; eassumption.
  - inversion D; subst. inversion H2; subst. inversion H1; subst. constructor.
    + constructor; [intros E; apply H5; symmetry; exact E|assumption].
    + constructor; assumption.
  - auto.
Qed.
Lemma sorted_count_exact : forall l k t, StronglySorted Qle l -> distinct' l -> nth_error l k = Some t ->
  length (filter (fun s => Qle_bool s t) l) = (k + 1)%nat.
Proof.
  induction l as [|x r IH]; intros k t S D E; [destruct k; discriminate|]. inversion S; inversion D; subst. destruct k as [|k]; cbn [nth_error] in E.
  - injection E as ->. cbn [filter]. assert (X : Qle_bool t t = true) by (apply Qle_bool_iff, Qle_refl). rewrite X. cbn [length].
    assert (Z : filter (fun s => Qle_bool s t) r = []).
    { rewrite !Forall_forall in *. clear -H2 H5. induction r as [|y r IH]; [reflexivity|]. cbn [filter].
      destruct (Qle_bool y t) eqn:F.
      - exfalso. apply Qle_bool_iff in F. apply (H5 y); [left; reflexivity|]. apply Qle_antisym; [apply H2; left; reflexivity|exact F].
      - apply IH; intros z Hz; [apply H5|apply H2]; right; exact Hz. }
    rewrite Z. reflexivity.
  - cbn [filter]. assert (X : Qle_bool x t = true).
    { apply Qle_bool_iff. rewrite Forall_forall in H2. apply H2. eapply nth_error_In. exact E. }
    rewrite X. cbn [length]. rewrite (IH k t) by assumption. reflexivity.
Qed.
Lemma Qtrunc_floor q : (0 <= q)%Q -> Qtrunc q = Qfloor q.
Proof.
  destruct q as [n d]. intros H. unfold Qtrunc, Qfloor. cbn. unfold Qle in H. cbn in H. apply Z.quot_div_nonneg; lia.
Qed.
Lemma floor_range n s : (0 <= s)%Q -> (s < 1)%Q -> (0 < n)%nat ->
  0 <= Qfloor (inject_Z (Z.of_nat n) * s) < Z.of_nat n.
Proof.
  intros H0 H1 N. assert (P : (0 < inject_Z (Z.of_nat n))%Q) by (change 0%Q with (inject_Z 0); rewrite <- Zlt_Qlt; lia). split.
  - change 0 with (Qfloor 0). apply Qfloor_resp_le. apply Qmult_le_0_compat; [apply Qlt_le_weak; exact P|exact H0].
  - assert (L : (inject_Z (Z.of_nat n) * s < inject_Z (Z.of_nat n))%Q) by (rewrite <- (Qmult_1_r (inject_Z (Z.of_nat n))) at 2; apply Qmult_lt_l; assumption).
    pose proof (Qfloor_le (inject_Z (Z.of_nat n) * s)) as F. assert (X : (inject_Z (Qfloor (inject_Z (Z.of_nat n) * s)) < inject_Z (Z.of_nat n))%Q) by (eapply Qle_lt_trans; eassumption).
    rewrite <- Zlt_Qlt in X. exact X.
Qed.
Lemma threshold_ok s tmp : (0 <= s)%Q -> (s < 1)%Q -> tmp <> [] ->
  exists t, threshold s tmp = Ok t /\ nth_error (qsort tmp) (Z.to_nat (Qfloor (inject_Z (Z.of_nat (length tmp)) * s))) = Some t.
Proof.
  intros H0 H1 N. assert (L : (0 < length tmp)%nat) by (destruct tmp; [contradiction|cbn; lia]).
  pose proof (floor_range _ s H0 H1 L) as R. unfold threshold, py_index.
  assert (P : (0 <= inject_Z (Z.of_nat (length tmp)) * s)%Q) by (apply Qmult_le_0_compat; [change 0%Q with (inject_Z 0); rewrite <- Zle_Qle; lia|exact H0]).
  rewrite Qtrunc_floor by exact P. set (k := Qfloor _) in *.
  assert (E1 : k <? 0 = false) by (apply Z.ltb_ge; lia). rewrite E1, E1.
  destruct (nth_error (qsort tmp) (Z.to_nat k)) as [t|] eqn:E; [eauto|].
  apply nth_error_None in E. rewrite (Permutation_length (qsort_perm tmp)) in E. lia.
Qed.

(** * Rows *)
(** The rows of an upper triangular matrix, from the diagonal on. *)
Fixpoint tri (n : nat) (hs : list (list Q)) : Prop :=
  match n, hs with
  | O, [] => True
  | S n', r :: hs' => length r = n /\ tri n' hs'
  | _, _ => False
  end.
Lemma tri_length : forall n hs, tri n hs -> length hs = n.
Proof. induction n as [|n IH]; intros [|r hs] H; cbn in H; try contradiction; [reflexivity|]. cbn. f_equal. apply IH. apply H. Qed.
Lemma tri_skipn : forall k n hs, tri (k + n) hs -> tri n (skipn k hs).
Proof. induction k as [|k IH]; intros n hs H; [exact H|]. destruct hs as [|r hs]; cbn in H; [contradiction|]. cbn [skipn]. apply IH. apply H. Qed.
Lemma axpy_length e h w : length h = length w -> length (axpy e h w) = length w.
Proof. intros H. unfold axpy. rewrite map_length, combine_length, H. apply Nat.min_id. Qed.
Lemma row_prune_spec : forall n hs ms w, tri n hs -> length ms = n -> length w = n ->
  let '(qs, es) := row_prune hs ms w in
  length qs = n /\ length es = n /\ forall i, nth_error ms i = Some true -> nth_error qs i = Some 0%Q.
Proof.
  induction n as [|n IH]; intros hs ms w T M W; destruct hs as [|r hs]; cbn in T; try contradiction.
  - destruct ms; [|discriminate]. cbn. repeat split. intros [|i]; discriminate.
  - destruct T as [R T]. destruct r as [|d h]; [discriminate|]. destruct ms as [|m ms]; [discriminate|]. destruct w as [|x w]; [discriminate|].
    cbn in R, M, W. injection R as R. injection M as M. injection W as W. cbn [row_prune].
    set (e := ((x - (if m then 0 else x)) / d)%Q). specialize (IH hs ms (axpy e h w) T M).
    rewrite axpy_length in IH by congruence. specialize (IH W).
    destruct (row_prune hs ms (axpy e h w)) as [qs es]. destruct IH as (L1 & L2 & Z). cbn [length]. split; [congruence|]. split; [congruence|].
    intros [|i] E; cbn in *; [|apply Z; exact E]. injection E as ->. reflexivity.
Qed.
(** Masked entries are zero, so there are at least as many zeros as masks. *)
Lemma zeros_mask : forall ms qs, length qs = length ms -> (forall i, nth_error ms i = Some true -> nth_error qs i = Some 0%Q) -> (count_true ms <= zeros qs)%nat.
Proof.
  unfold count_true, zeros. induction ms as [|m ms IH]; intros qs L H; [cbn; lia|]. destruct qs as [|q qs]; [discriminate|]. injection L as L.
  specialize (IH qs L (fun i => H (S i))). cbn [filter]. destruct m.
  - specialize (H 0%nat eq_refl). cbn in H. injection H as ->. cbn. lia.
  - destruct (Qeq_bool q 0); cbn [length]; lia.
Qed.
Lemma zeros_app a b : zeros (a ++ b) = (zeros a + zeros b)%nat.
Proof. unfold zeros. rewrite filter_app, app_length. reflexivity. Qed.
Lemma count_true_app a b : count_true (a ++ b) = (count_true a + count_true b)%nat.
Proof. unfold count_true. rewrite filter_app, app_length. reflexivity. Qed.
Lemma scores_length n hs w : length hs = n -> length w = n -> length (scores hs w) = n.
Proof. intros H1 H2. unfold scores. rewrite map_length, combine_length, H1, H2. apply Nat.min_id. Qed.
Lemma cut_spec : forall c r k hs, tri (c + r) hs ->
  tri c (map (fun p => firstn (k + c - fst p) (snd p)) (combine (seq k c) (firstn c hs))) /\
  Forall (fun h => length h = r) (map (fun p => skipn (k + c - fst p) (snd p)) (combine (seq k c) (firstn c hs))).
Proof.
  induction c as [|c IH]; intros r k hs T; [cbn; split; [exact I|constructor]|]. destruct hs as [|h hs]; cbn in T; [contradiction|].
  destruct T as [L T]. destruct (IH r (S k) hs T) as [I1 I2].
  assert (E : forall B (f : nat -> list Q -> B), map (fun p => f (k + S c - fst p)%nat (snd p)) (combine (seq (S k) c) (firstn c hs)) = map (fun p => f (S k + c - fst p)%nat (snd p)) (combine (seq (S k) c) (firstn c hs))).
  { intros B f. apply map_ext. intros p. f_equal. lia. }
  cbn [firstn seq combine map fst snd tri]. replace (k + S c - k)%nat with (S c) by lia. split.
  - split; [rewrite firstn_length; lia|]. rewrite (E _ (fun n l => firstn n l)). exact I1.
  - constructor; [rewrite skipn_length; lia|]. rewrite (E _ (fun n l => skipn n l)). exact I2.
Qed.
Lemma trail_length : forall outside es w, Forall (fun h => length h = length w) outside ->
  length (fold_left (fun w (he : list Q * Q) => axpy (snd he) (fst he) w) (combine outside es) w) = length w.
Proof.
  induction outside as [|h o IH]; intros es w F; [reflexivity|]. destruct es as [|e es]; [reflexivity|]. inversion F; subst.
  cbn [combine fold_left fst snd]. rewrite IH; rewrite axpy_length by assumption; [reflexivity|assumption].
Qed.
Lemma combine_rows {A B} (P : A -> Prop) (R : B -> Prop) (a : list A) (b : list B) p : Forall P a -> Forall R b -> In p (combine a b) -> P (fst p) /\ R (snd p).
Proof.
  intros Ha Hb I. destruct p as [x y]. rewrite Forall_forall in Ha, Hb. split; [apply Ha; eapply in_combine_l; exact I|apply Hb; eapply in_combine_r; exact I].
Qed.

(** A part of the columns of a matrix. *)
Definition cols (a c : nat) (W : matrix) : matrix := map (fun w => firstn c (skipn a w)) W.
Definition wide (n : nat) (W : matrix) : Prop := Forall (fun w => length w = n) W.
Lemma cols_wide a c n W : wide n W -> (a + c <= n)%nat -> wide c (cols a c W).
Proof.
  unfold wide, cols. intros H L. apply Forall_map. apply Forall_impl with (2 := H). intros w E. rewrite firstn_length, skipn_length. lia.
Qed.
Lemma cols_head c qs R : length qs = length R -> Forall (fun q => length q = c) qs -> cols 0 c (map (fun p => fst p ++ snd p) (combine qs R)) = qs.
Proof.
  revert R. induction qs as [|q qs IH]; intros [|r R] L F; try discriminate; [reflexivity|]. inversion F; subst. injection L as L.
  cbn [combine map cols fst snd skipn]. f_equal; [|apply IH; assumption].
  rewrite firstn_app, firstn_all, Nat.sub_diag. cbn. apply app_nil_r.
Qed.
Lemma cols_tail c a d qs R : length qs = length R -> Forall (fun q => length q = c) qs -> cols (c + a) d (map (fun p => fst p ++ snd p) (combine qs R)) = cols a d R.
Proof.
  revert R. induction qs as [|q qs IH]; intros [|r R] L F; try discriminate; [reflexivity|]. inversion F; subst. injection L as L.
  cbn [combine map cols fst snd]. f_equal; [|apply IH; assumption].
  rewrite skipn_app. replace (length q + a - length q)%nat with a by lia. rewrite (skipn_all2 (n := length q + a) q) by lia. reflexivity.
Qed.

Section Blocks.
  Variable topk : list Q -> nat -> list nat.
  Variables (sparsity : Q) (n m : nat).
  Notation block := (block topk sparsity n m).
  Notation blocks := (blocks topk sparsity n m).
  (** [rows]: number of rows.  What a block achieves for its columns. *)
  Variables (rows : nat) (good : nat -> matrix -> Prop) (sz : nat -> Prop).
  Hypothesis block_good : forall c hs W, sz c -> tri c hs -> wide c W -> length W = rows ->
    exists qe, block hs W = Ok qe /\ length qe = rows /\ Forall (fun p => length (fst p) = c) qe /\ good c (map fst qe).
  Lemma blocks_spec : forall sizes hinv W, Forall sz sizes -> tri (fold_right Nat.add 0%nat sizes) hinv -> wide (fold_right Nat.add 0%nat sizes) W -> length W = rows ->
    exists W', blocks sizes hinv W = (W', None) /\ wide (fold_right Nat.add 0%nat sizes) W' /\ length W' = rows /\
      forall pre c post, sizes = pre ++ c :: post -> good c (cols (fold_right Nat.add 0%nat pre) c W').
  Proof.
    induction sizes as [|c sizes IH]; intros hinv W S T Wd L.
    - exists W. cbn. repeat split; [exact Wd|exact L|]. intros [|] ? ? E; discriminate.
    - inversion S as [|? ? Sc Ss]; subst. cbn [fold_right] in T, Wd. cbn [SparseGpt_Model.blocks]. set (r := fold_right Nat.add 0%nat sizes) in *.
      destruct (cut_spec c r 0 hinv T) as [C1 C2]. cbn [Nat.add] in C1, C2.
      set (inside := map (fun p => firstn (c - fst p) (snd p)) (combine (seq 0 c) (firstn c hinv))) in *.
      set (outside := map (fun p => skipn (c - fst p) (snd p)) (combine (seq 0 c) (firstn c hinv))) in *.
      destruct (block_good c inside (map (firstn c) W) Sc C1) as (qe & E & Lq & Fq & G).
      { unfold wide. apply Forall_map. apply Forall_impl with (2 := Wd). intros w E. rewrite firstn_length. lia. }
      { rewrite map_length. reflexivity. }
      rewrite E.
      set (rest := map (fun p => fold_left (fun w he => axpy (snd he) (fst he) w) (combine outside (snd (fst p))) (skipn c (snd p))) (combine qe W)).
      destruct (IH (skipn c hinv) rest Ss) as (R & ER & WR & LR & GR).
      { apply tri_skipn. exact T. }
      { unfold wide, rest. apply Forall_map. apply Forall_forall. intros [[q e] w] I. cbn [fst snd].
        apply in_combine_r in I. unfold wide in Wd. rewrite Forall_forall in Wd. specialize (Wd w I).
        assert (X : length (skipn c w) = r) by (rewrite skipn_length; lia). rewrite trail_length; [exact X|]. rewrite X. exact C2. }
      { unfold rest. rewrite map_length, combine_length, Lq. apply Nat.min_id. }
      rewrite ER. eexists. split; [reflexivity|].
      set (qs := map fst qe) in *.
      assert (Fqs : Forall (fun q => length q = c) qs) by (apply Forall_map; exact Fq).
      assert (Lqs : length qs = length R) by (unfold qs; rewrite map_length; congruence).
      assert (EQ : map (fun p : list Q * list Q * list Q => fst (fst p) ++ snd p) (combine qe R) = map (fun p => fst p ++ snd p) (combine qs R)).
      { unfold qs. clear. revert R. induction qe as [|x qe IH]; intros [|y R]; try reflexivity. cbn. f_equal. apply IH. }
      rewrite EQ. split; [|split].
      + unfold wide. apply Forall_map. apply Forall_forall. intros p I. destruct (combine_rows _ _ _ _ _ Fqs WR I) as [H1 H2].
        rewrite app_length, H1, H2. reflexivity.
      + rewrite map_length, combine_length, <- Lqs. unfold qs. rewrite map_length, Lq. apply Nat.min_id.
      + intros [|c0 pre] c' post Es; cbn [app] in Es; injection Es as -> Es.
        * cbn [fold_right]. rewrite cols_head by assumption. exact G.
        * cbn [fold_right]. rewrite cols_tail by assumption. eapply GR. exact Es.
  Qed.
End Blocks.
Lemma sizes_sum columns bs : (0 < bs)%nat -> fold_right Nat.add 0%nat (block_sizes columns bs) = columns.
Proof.
  intros H. unfold block_sizes. assert (R : forall k x, fold_right Nat.add x (repeat bs k) = (k * bs + x)%nat) by (induction k as [|k IH]; intros x; cbn; [reflexivity|rewrite IH; lia]).
  rewrite fold_right_app, R. pose proof (Nat.div_mod columns bs ltac:(lia)) as D. destruct (Nat.eqb_spec (columns mod bs) 0); cbn [fold_right]; lia.
Qed.
Lemma sizes_split columns bs k : (0 < bs)%nat -> (k * bs < columns)%nat ->
  exists pre post, block_sizes columns bs = pre ++ Nat.min bs (columns - k * bs) :: post /\ fold_right Nat.add 0%nat pre = (k * bs)%nat.
Proof.
  intros H L. pose proof (Nat.div_mod columns bs ltac:(lia)) as D. pose proof (Nat.mod_upper_bound columns bs ltac:(lia)) as U.
  assert (R : forall k, fold_right Nat.add 0%nat (repeat bs k) = (k * bs)%nat) by (induction k0 as [|k0 IH]; cbn; [reflexivity|rewrite IH; lia]).
  unfold block_sizes. destruct (Nat.lt_ge_cases k (columns / bs)) as [K|K].
  - exists (repeat bs k). replace (columns / bs)%nat with (k + S (columns / bs - k - 1))%nat by lia. rewrite repeat_app. cbn [repeat].
    rewrite <- app_assoc. cbn [app]. eexists. split; [|apply R]. f_equal. f_equal. rewrite Nat.min_l; [reflexivity|]. nia.
  - assert (k = columns / bs)%nat by nia. subst k. exists (repeat bs (columns / bs)). exists []. split; [|apply R]. f_equal.
    destruct (Nat.eqb_spec (columns mod bs) 0); [nia|]. f_equal. rewrite Nat.min_r by nia. nia.
Qed.
Lemma sizes_le columns bs : (0 < bs)%nat -> Forall (fun c => (0 < c)%nat) (block_sizes columns bs).
Proof.
  intros H. unfold block_sizes. apply Forall_app. split; [apply Forall_forall; intros x I; apply repeat_spec in I; lia|].
  destruct (Nat.eqb_spec (columns mod bs) 0); constructor; [lia|constructor].
Qed.

(** * N:M groups *)
(** The contract of torch.topk(..., largest=False): [k] different positions with the smallest
    entries. *)
Definition topk_ok (topk : list Q -> nat -> list nat) : Prop :=
  forall l k, (k <= length l)%nat ->
    length (topk l k) = k /\ NoDup (topk l k) /\ (forall i, In i (topk l k) -> (i < length l)%nat) /\
    (forall i j, In i (topk l k) -> (j < length l)%nat -> ~ In j (topk l k) -> (nth i l 0 <= nth j l 0)%Q).
Lemma mask_count : forall t n, NoDup t -> (forall i, In i t -> (i < n)%nat) ->
  count_true (map (fun i => existsb (Nat.eqb i) t) (seq 0 n)) = length t.
Proof.
  intros t n ND B. unfold count_true.
  assert (E : forall l, length (filter (fun b : bool => b) (map (fun i => existsb (Nat.eqb i) t) l)) = length (filter (fun i => existsb (Nat.eqb i) t) l)).
  { induction l as [|x l IH]; [reflexivity|]. cbn. destruct (existsb (Nat.eqb x) t); cbn; congruence. }
  rewrite E. apply Permutation_length. apply NoDup_Permutation.
  - apply NoDup_filter, seq_NoDup.
  - exact ND.
  - intros x. rewrite filter_In, in_seq, existsb_exists. split.
    + intros (_ & y & Hy & Ey). apply Nat.eqb_eq in Ey. subst. exact Hy.
    + intros Hx. split; [split; [lia|apply B in Hx; lia]|]. exists x. split; [exact Hx|apply Nat.eqb_refl].
Qed.
Section NM.
  Variable topk : list Q -> nat -> list nat.
  Hypothesis T : topk_ok topk.
  Variables n m : nat.
  Hypothesis nm : (n <= m)%nat.
  Hypothesis mpos : (0 < m)%nat.
  (** Inside a group. *)
  Lemma row_nm_inside : forall pend i hs w N, tri (length pend + N) hs -> length w = (length pend + N)%nat ->
    (forall j, (j < length pend)%nat -> ((i + j) mod m <> 0)%nat) ->
    exists qs es w', length qs = length pend /\ length es = length pend /\ length w' = N /\ (count_true pend <= zeros qs)%nat /\
      row_nm topk n m i pend hs w = do r <- row_nm topk n m (i + length pend) [] (skipn (length pend) hs) w'; Ok (qs ++ fst r, es ++ snd r).
  Proof.
    induction pend as [|b pend IH]; intros i hs w N Tr L Hm.
    - exists [], [], w. cbn [length Nat.add] in *. rewrite Nat.add_0_r. cbn [skipn].
      repeat split; [exact L|cbn; lia|]. destruct (row_nm topk n m i [] hs w) as [[a c]|]; reflexivity.
    - destruct hs as [|r hs]; cbn in Tr; [contradiction|]. destruct Tr as [Lr Tr]. destruct r as [|d h]; [discriminate|].
      destruct w as [|x w]; [discriminate|]. cbn in Lr, L. injection Lr as Lr. injection L as L.
      assert (M0 : (i mod m <> 0)%nat) by (specialize (Hm 0%nat ltac:(cbn; lia)); rewrite Nat.add_0_r in Hm; exact Hm).
      cbn [row_nm]. destruct (Nat.eqb_spec m 0); [lia|]. destruct (Nat.eqb_spec (i mod m) 0); [contradiction|]. cbn [bind hd tl].
      set (q := if b then 0%Q else x). set (e := ((x - q) / d)%Q).
      destruct (IH (1 + i)%nat hs (axpy e h w) N Tr) as (qs & es & w' & L1 & L2 & L3 & Z & E).
      { rewrite axpy_length; congruence. }
      { intros j Hj. specialize (Hm (S j) ltac:(cbn; lia)). replace (1 + i + j)%nat with (i + S j)%nat by lia. exact Hm. }
      exists (q :: qs), (e :: es), w'. cbn [length]. repeat split; [congruence|congruence|exact L3| |].
      + change (b :: pend) with ([b] ++ pend). change (q :: qs) with ([q] ++ qs). rewrite count_true_app, zeros_app.
        assert (X : (count_true [b] <= zeros [q])%nat) by (unfold q; destruct b; cbn; [lia|destruct (Qeq_bool x 0); cbn; lia]). lia.
      + rewrite E. replace (1 + i + length pend)%nat with (i + S (length pend))%nat by lia. cbn [skipn].
        destruct (row_nm topk n m (i + S (length pend)) [] (skipn (length pend) hs) w') as [[a c]|]; reflexivity.
  Qed.
  (** A list in which every aligned group of [m] has [n] zeros. *)
  Definition pattern (l : list Q) : Prop := forall k, (k * m + m <= length l)%nat -> (n <= zeros (firstn m (skipn (k * m) l)))%nat.
  Lemma pattern_app a l : length a = m -> (n <= zeros a)%nat -> pattern l -> pattern (a ++ l).
  Proof.
    intros L Z P [|k] H.
    - cbn [Nat.mul skipn]. rewrite firstn_app, L, Nat.sub_diag. cbn [firstn]. rewrite app_nil_r, <- L, firstn_all. exact Z.
    - rewrite app_length in H. cbn [Nat.mul] in *. rewrite skipn_app, L, (skipn_all2 (n := m + k * m) a) by lia.
      replace (m + k * m - m)%nat with (k * m)%nat by lia. cbn [app]. apply P. lia.
  Qed.
  Lemma row_nm_spec : forall g i pend hs w, (i mod m = 0)%nat -> tri (g * m) hs -> length w = (g * m)%nat ->
    exists qs es, row_nm topk n m i pend hs w = Ok (qs, es) /\ length qs = (g * m)%nat /\ length es = (g * m)%nat /\ pattern qs.
  Proof.
    induction g as [|g IH]; intros i pend hs w Hi Tr L.
    - destruct hs; cbn in Tr; [|contradiction]. destruct w; [|discriminate]. exists [], []. repeat split. intros k Hk. cbn in Hk. lia.
    - cbn [Nat.mul] in Tr, L. destruct m as [|m'] eqn:Em; [lia|]. rewrite <- Em in *.
      destruct hs as [|r hs]; [rewrite Em in Tr; contradiction|].
      assert (Tr' : length r = (m + g * m)%nat /\ tri (m' + g * m) hs) by (rewrite Em in Tr |- *; exact Tr). destruct Tr' as [Lr Tr'].
      destruct r as [|d h]; [rewrite Em in Lr; discriminate|]. destruct w as [|x w]; [rewrite Em in L; discriminate|].
      assert (Lh : length h = (m' + g * m)%nat) by (cbn in Lr; lia). assert (Lw : length w = (m' + g * m)%nat) by (cbn in L; lia).
      set (hs0 := (d :: h) :: hs) in *. set (w0 := x :: w) in *.
      set (tmp := scores (firstn m hs0) (firstn m w0)).
      assert (Lt : length tmp = m).
      { unfold tmp. apply scores_length; rewrite firstn_length; [rewrite (tri_length _ _ Tr)|rewrite L]; lia. }
      assert (GM : exists pm, group_mask topk n m hs0 w0 = Ok pm /\ length pm = m /\ count_true pm = n).
      { unfold group_mask. fold tmp. rewrite Lt. destruct (Nat.ltb_spec m n); [lia|]. eexists. split; [reflexivity|].
        rewrite map_length, seq_length. split; [reflexivity|]. destruct (T tmp n ltac:(lia)) as (T1 & T2 & T3 & _).
        rewrite mask_count; [exact T1|exact T2|]. rewrite Lt in T3. exact T3. }
      destruct GM as (pm & GM & Lp & Cp). destruct pm as [|b pm]; [cbn in Lp; lia|].
      assert (STEP : row_nm topk n m i pend hs0 w0 =
        do r <- row_nm topk n m (1 + i) pm hs (axpy ((x - (if b then 0 else x)) / d) h w);
        Ok ((if b then 0%Q else x) :: fst r, ((x - (if b then 0 else x)) / d)%Q :: snd r)).
      { unfold hs0, w0. cbn [row_nm]. destruct (Nat.eqb_spec m 0); [lia|]. rewrite Hi. cbn [Nat.eqb].
        fold hs0. fold w0. rewrite GM. reflexivity. }
      rewrite STEP. set (q := if b then 0%Q else x) in *. set (e := ((x - q) / d)%Q).
      assert (Lpm : length pm = m') by (cbn in Lp; lia).
      destruct (row_nm_inside pm (1 + i) hs (axpy e h w) (g * m)) as (qs & es & w' & L1 & L2 & L3 & Z & E).
      { rewrite Lpm. exact Tr'. }
      { rewrite axpy_length by congruence. rewrite Lpm. exact Lw. }
      { intros j Hj. rewrite Lpm in Hj. replace (1 + i + j)%nat with (i + (1 + j))%nat by lia.
        rewrite Nat.add_mod, Hi, Nat.add_0_l, Nat.mod_mod, Nat.mod_small by lia. lia. }
      rewrite E. rewrite Lpm. destruct (IH (1 + i + m')%nat [] (skipn m' hs) w') as (qs2 & es2 & E2 & L4 & L5 & P).
      { replace (1 + i + m')%nat with (i + m)%nat by lia. rewrite Nat.add_mod, Nat.mod_same, Hi by lia. apply Nat.mod_0_l. lia. }
      { apply tri_skipn. exact Tr'. }
      { exact L3. }
      rewrite E2. cbn [bind fst snd]. exists ((q :: qs) ++ qs2), ((e :: es) ++ es2). split; [reflexivity|].
      rewrite !app_length. cbn [length]. split; [lia|]. split; [lia|]. apply pattern_app; [cbn; lia| |exact P].
      change (b :: pm) with ([b] ++ pm) in Cp. rewrite count_true_app in Cp. change (q :: qs) with ([q] ++ qs). rewrite zeros_app.
      assert (X : (count_true [b] <= zeros [q])%nat) by (unfold q; destruct b; cbn; [lia|destruct (Qeq_bool x 0); cbn; lia]). lia.
  Qed.
End NM.
