(** C249: SparseGPT's blocks compute the column-by-column algorithm. *)
From Coq Require Import QArith Lia.
From Verif Require Import Prelude SparseGpt_Model SparseGpt_Lemmas SparseGpt_Props.
Open Scope list_scope.
Open Scope Z_scope.

(** The published algorithm on one row, one column at a time, for given masks: a masked weight
    becomes zero, and every later weight is corrected at once by the error over the diagonal entry
    times its own entry of the factor. *)
Fixpoint corrected (e : Q) (h w : list Q) : list Q :=
  match h, w with hj :: h, x :: w => (x - e * hj)%Q :: corrected e h w | _, _ => [] end.
Fixpoint one_by_one (hinv : list (list Q)) (ms : list bool) (w : list Q) : list Q :=
  match hinv, ms, w with
  | (d :: h) :: hinv, m :: ms, x :: w =>
      let q := if m then 0%Q else x in
      q :: one_by_one hinv ms (corrected ((x - q) / d) h w)
  | _, _, _ => []
  end.

Lemma axpy_corrected : forall e h w, axpy e h w = corrected e h w.
Proof. intros e h. induction h as [|hj h IH]; intros [|x w]; try reflexivity. cbn [corrected]. rewrite <- IH. reflexivity. Qed.
Lemma corrected_length : forall e h w, length h = length w -> length (corrected e h w) = length w.
Proof. intros e h. induction h as [|hj h IH]; intros [|x w] H; cbn in *; try lia. rewrite IH; lia. Qed.
Lemma corrected_app : forall e h w t, (length w <= length h)%nat ->
  corrected e h (w ++ t) = corrected e (firstn (length w) h) w ++ corrected e (skipn (length w) h) t.
Proof.
  intros e h w. revert h. induction w as [|x w IH]; intros h t H; [reflexivity|].
  destruct h as [|y h]; [cbn in H; lia|]. cbn [length firstn skipn app corrected]. f_equal. apply IH. cbn in H. lia.
Qed.
Fixpoint rows_from (n : nat) (hs : list (list Q)) : Prop :=
  match hs with [] => True | h :: r => length h = n /\ rows_from (n - 1) r end.
Lemma tri_rows : forall k hv, tri k hv -> length hv = k /\ rows_from k hv.
Proof.
  intros k hv. revert k. induction hv as [|h hv IH]; intros [|k] H; cbn in *; try tauto; try discriminate.
  all: try (destruct H as [H1 H2]; destruct (IH _ H2) as [A B]; replace (k - 0)%nat with k by lia; auto).
Qed.

Definition inner (k c : nat) (hs : list (list Q)) : list (list Q) := map (fun p : nat * list Q => firstn (k + c - fst p) (snd p)) (combine (seq k c) hs).
Definition outer (k c : nat) (hs : list (list Q)) : list (list Q) := map (fun p : nat * list Q => skipn (k + c - fst p) (snd p)) (combine (seq k c) hs).
Definition pass_on (os : list (list Q)) (es t : list Q) : list Q := fold_left (fun w he => axpy (snd he) (fst he) w) (combine os es) t.

Lemma row_spec : forall hs k w t ms ms2 more,
  length hs = length w -> length ms = length w -> rows_from (length w + length t) hs ->
  let '(qs, es) := row_prune (inner k (length w) hs) ms w in
  length qs = length w /\ length (pass_on (outer k (length w) hs) es t) = length t /\
  one_by_one (hs ++ more) (ms ++ ms2) (w ++ t) = qs ++ one_by_one more ms2 (pass_on (outer k (length w) hs) es t).
Proof.
  induction hs as [|h hs IH]; intros k w t ms ms2 more L1 L2 R; destruct w as [|x w]; try discriminate L1.
  - destruct ms; [|discriminate L2]. cbn. auto.
  - destruct ms as [|m ms]; [discriminate L2|]. injection L1 as L1. injection L2 as L2.
    destruct R as [Lh R]. cbn [length Nat.add] in Lh, R. destruct h as [|d h]; [cbn in Lh; lia|]. cbn [length] in Lh. injection Lh as Lh.
    unfold inner, outer. cbn [length seq combine map fst snd].
    replace (k + S (length w) - k)%nat with (S (length w)) by lia. cbn [firstn skipn row_prune].
    set (q := if m then 0%Q else x). set (e := ((x - q) / d)%Q).
    assert (LA : length (axpy e (firstn (length w) h) w) = length w).
    { rewrite axpy_corrected. apply corrected_length. rewrite firstn_length. lia. }
    assert (LT : length (axpy e (skipn (length w) h) t) = length t).
    { rewrite axpy_corrected. apply corrected_length. rewrite skipn_length. lia. }
    specialize (IH (S k) (axpy e (firstn (length w) h) w) (axpy e (skipn (length w) h) t) ms ms2 more).
    rewrite LA, LT in IH. replace (S (length w + length t) - 1)%nat with (length w + length t)%nat in R by lia.
    specialize (IH L1 L2 R). unfold inner, outer in IH. replace (S k + length w)%nat with (k + S (length w))%nat in IH by lia.
    destruct (row_prune _ ms (axpy e (firstn (length w) h) w)) as [qs es].
    destruct IH as (A & B & C). unfold pass_on in *. cbn [combine fold_left fst snd length].
    split; [lia|]. split; [exact B|].
    cbn [app one_by_one]. fold q. fold e. f_equal.
    rewrite corrected_app by lia. rewrite <- !axpy_corrected. exact C.
Qed.

Lemma inner_rows : forall hs k c r, length hs = c -> rows_from (c + r) hs -> rows_from c (inner k c hs).
Proof.
  induction hs as [|h hs IH]; intros k c r L R; destruct c as [|c]; try discriminate L; [exact I|].
  injection L as L. destruct R as [R1 R2]. unfold inner. cbn [seq combine map rows_from fst snd]. split.
  - rewrite firstn_length. lia.
  - replace (S c + r - 1)%nat with (c + r)%nat in R2 by lia. specialize (IH (S k) c r L R2). unfold inner in IH.
    replace (S k + c)%nat with (k + S c)%nat in IH by lia. replace (S c - 1)%nat with c by lia. exact IH.
Qed.
Lemma rows_firstn : forall k m hs, rows_from m hs -> rows_from m (firstn k hs).
Proof. induction k as [|k IH]; intros m [|x hs] R; cbn in *; auto. destruct R. auto. Qed.
Lemma rows_skipn : forall k m hs, rows_from m hs -> rows_from (m - k) (skipn k hs).
Proof.
  induction k as [|k IHk]; intros m hs R; cbn [skipn]; [replace (m - 0)%nat with m by lia; exact R|].
  destruct hs as [|x hs]; [exact I|]. destruct R as [_ R]. specialize (IHk _ _ R). replace (m - S k)%nat with (m - 1 - k)%nat by lia. exact IHk.
Qed.
Lemma mapM_forall2 : forall {A B} (f : A -> outcome B) l l', mapM f l = Ok l' -> Forall2 (fun a b => f a = Ok b) l l'.
Proof.
  intros A B f l. induction l as [|a l IH]; intros l' H; cbn [mapM] in H.
  - apply Ok_inj in H. subst. constructor.
  - destruct (f a) as [b|] eqn:E; cbn [bind] in H; [|discriminate H]. destruct (mapM f l) as [r|]; cbn [bind] in H; [|discriminate H].
    apply Ok_inj in H. subst. constructor; auto.
Qed.

Section NM.
  Variable topk : list Q -> nat -> list nat.
  (** Choosing the masks on the way comes to the same as having them from the start. *)
  Lemma row_nm_masks : forall n m hs i pend w qs es, length hs = length w -> rows_from (length w) hs ->
    row_nm topk n m i pend hs w = Ok (qs, es) -> exists ms, length ms = length w /\ row_prune hs ms w = (qs, es).
  Proof.
    induction hs as [|h hs IH]; intros i pend w qs es L F H; destruct w as [|x w]; try discriminate L.
    - apply Ok_inj in H. injection H as H1 H2. subst. exists []. split; reflexivity.
    - destruct F as [F1 F2]. cbn [length] in F1, F2, L. injection L as L. destruct h as [|d h]; [discriminate F1|].
      injection F1 as F1. replace (S (length w) - 1)%nat with (length w) in F2 by lia. cbn [row_nm] in H.
      destruct (if Nat.eqb m 0 then _ else _) as [pd|e0]; cbn [bind] in H; [|discriminate H].
      set (q := if hd false pd then 0%Q else x) in *. set (e := ((x - q) / d)%Q) in *.
      destruct (row_nm topk n m (1 + i) (tl pd) hs (axpy e h w)) as [[qs' es']|e0] eqn:E; cbn [bind fst snd] in H; [|discriminate H].
      apply Ok_inj in H. injection H as H1 H2. subst qs es.
      assert (LA : length (axpy e h w) = length w) by (rewrite axpy_corrected; apply corrected_length; exact F1).
      destruct (IH (1 + i)%nat (tl pd) (axpy e h w) qs' es') as (ms & M1 & M2); [lia|rewrite LA; exact F2|exact E|].
      exists (hd false pd :: ms). split; [cbn [length]; lia|]. cbn [row_prune]. fold q. fold e. rewrite M2. reflexivity.
  Qed.
  Lemma block_masked : forall s n m hs W qe c, length hs = c -> rows_from c hs -> Forall (fun w => length w = c) W ->
    block topk s n m hs W = Ok qe ->
    Forall2 (fun w p => exists ms, length ms = c /\ row_prune hs ms w = p) W qe.
  Proof.
    intros s n m hs W qe c L R Wd H. unfold block in H. destruct (Nat.eqb n 0).
    - destruct (block_masks s hs W) as [ms|] eqn:E; cbn [bind] in H; [|discriminate H]. apply Ok_inj in H. subst qe.
      unfold block_masks in E. destruct (threshold s _) as [t|]; cbn [bind] in E; [|discriminate E]. apply Ok_inj in E. subst ms.
      induction Wd as [|w W Lw Wd IH]; cbn [map combine]; constructor; [|exact IH].
      exists (map (fun x => Qle_bool x t) (scores hs w)). split; [|reflexivity]. unfold scores. rewrite !map_length, combine_length. lia.
    - apply mapM_forall2 in H. induction H as [|w [qs es] W qe E H IH]; [constructor|].
      inversion Wd as [|? ? W1 W2]; subst. constructor; [|apply IH; exact W2].
      rewrite <- W1 in *. apply (row_nm_masks n m hs 0 [] w qs es); auto.
  Qed.

  Lemma blocks_direct : forall sizes s n m hinv W W' N, N = fold_right Nat.add 0%nat sizes ->
    length hinv = N -> rows_from N hinv -> Forall (fun w => length w = N) W ->
    blocks topk s n m sizes hinv W = (W', None) ->
    Forall2 (fun w w' => exists ms, length ms = N /\ w' = one_by_one hinv ms w) W W'.
  Proof.
    induction sizes as [|c sizes IH]; intros s n m hinv W W' N HN HL HR Wd H; cbn [fold_right] in HN.
    - cbn [blocks] in H. injection H as H. subst W' N. destruct hinv; [|discriminate HL].
      induction Wd as [|w W Lw Wd IHw]; constructor; [|exact IHw]. destruct w; [|discriminate Lw].
      exists []. split; reflexivity.
    - cbn [blocks] in H.
      change (map (fun p => firstn (c - fst p) (snd p)) (combine (seq 0 c) (firstn c hinv))) with (inner 0 c (firstn c hinv)) in H.
      change (map (fun p => skipn (c - fst p) (snd p)) (combine (seq 0 c) (firstn c hinv))) with (outer 0 c (firstn c hinv)) in H.
      set (r := fold_right Nat.add 0%nat sizes) in *.
      destruct (block topk s n m (inner 0 c (firstn c hinv)) (map (firstn c) W)) as [qe|e0] eqn:B; [|discriminate H].
      assert (L1 : length (firstn c hinv) = c) by (rewrite firstn_length; lia).
      assert (R1 : rows_from (c + r) (firstn c hinv)) by (apply rows_firstn; rewrite <- HN; exact HR).
      apply (block_masked s n m _ _ _ c) in B.
      2: { unfold inner. rewrite map_length, combine_length, seq_length. lia. }
      2: { apply (inner_rows _ 0 c r L1 R1). }
      2: { apply Forall_map. apply Forall_impl with (2 := Wd). intros w Lw. cbn beta in Lw. rewrite firstn_length. lia. }
      set (rest := map _ (combine qe W)) in H.
      destruct (blocks topk s n m sizes (skipn c hinv) rest) as [Rm e] eqn:E. injection H as H1 H2. subst e.
      (* row by row *)
      assert (G : Forall2 (fun w p => length (pass_on (outer 0 c (firstn c hinv)) (snd p) (skipn c w)) = r /\
                 exists ms, length ms = c /\ forall ms2, one_by_one hinv (ms ++ ms2) w
                   = fst p ++ one_by_one (skipn c hinv) ms2 (pass_on (outer 0 c (firstn c hinv)) (snd p) (skipn c w))) W qe).
      { clear -B Wd L1 R1 HN. remember (map (firstn c) W) as W1 eqn:EW. revert W EW Wd.
        induction B as [|w1 [qs es] W1 qe M B IHB]; intros W EW Wd; destruct W as [|w W]; try discriminate EW; constructor.
        - cbn [map] in EW. injection EW as E1 E2. subst w1. inversion Wd as [|? ? Lw Wd']; subst.
          destruct M as (ms & M1 & M2).
          assert (Lf : length (firstn c w) = c) by (rewrite firstn_length; lia).
          assert (Ls : length (skipn c w) = r) by (rewrite skipn_length; lia).
          assert (X : forall ms2, length (pass_on (outer 0 c (firstn c hinv)) es (skipn c w)) = r /\
             one_by_one hinv (ms ++ ms2) w = qs ++ one_by_one (skipn c hinv) ms2 (pass_on (outer 0 c (firstn c hinv)) es (skipn c w))).
          { intros ms2. pose proof (row_spec (firstn c hinv) 0 (firstn c w) (skipn c w) ms ms2 (skipn c hinv)) as RS.
            rewrite Lf, Ls in RS. specialize (RS L1 M1 R1). rewrite M2 in RS. rewrite !firstn_skipn in RS. tauto. }
          cbn [fst snd]. split; [apply (X [])|]. exists ms. split; [exact M1|]. intros ms2. apply X.
        - cbn [map] in EW. injection EW as E1 E2. inversion Wd; subst. apply IHB; auto. }
      assert (Wr : Forall (fun w => length w = r) rest).
      { unfold rest. clear -G. induction G as [|w p W qe M G IHG]; cbn [combine map]; constructor; [|exact IHG].
        destruct M as [M _]. exact M. }
      assert (HR' : rows_from r (skipn c hinv)).
      { pose proof (rows_skipn c _ _ HR) as Z. replace (N - c)%nat with r in Z by lia. exact Z. }
      specialize (IH s n m (skipn c hinv) rest Rm r eq_refl ltac:(rewrite skipn_length; lia) HR' Wr E).
      subst W'. clear -G IH HN. unfold rest in IH. clear rest. revert Rm IH.
      induction G as [|w p W qe M G IHG]; intros Rm IH; cbn [combine map] in IH |- *.
      + inversion IH; subst. constructor.
      + inversion IH as [|? w' ? Rm' Q1 Q2]; subst. cbn [combine map fst snd] in *. constructor; [|apply IHG; exact Q2].
        destruct M as (_ & ms & M1 & M2). destruct Q1 as (ms2 & N1 & N2). exists (ms ++ ms2).
        split; [rewrite app_length; lia|]. rewrite M2. f_equal. exact N2.
  Qed.
End NM.

(** After pruning every row is what the one-by-one algorithm gives for some masks, from the row
    with dead columns set to zero; for any sparsity, n:m pattern and block size. *)
Theorem C249_blocks_are_one_by_one : forall topk factor alias_w alias_h s n m bs percdamp l l' hinv,
  (0 < bs)%nat -> wide (length (hess l)) (weight l) ->
  factor (damped percdamp (revive (hess l))) = Some hinv -> tri (length (hess l)) hinv ->
  prune topk factor alias_w alias_h s n m bs percdamp l = (l', None) ->
  Forall2 (fun w w' => exists ms, length ms = length (hess l) /\ w' = one_by_one hinv ms (kill (dead (hess l)) w)) (weight l) (weight l').
Proof.
  intros topk factor aw ah s n m bs pd l l' hinv Hb Wd Ef T H. unfold prune in H. rewrite Ef in H.
  destruct (tri_rows _ _ T) as [T1 T2].
  assert (Wd0 : wide (length (hess l)) (map (kill (dead (hess l))) (weight l))) by (apply kill_wide; [reflexivity|exact Wd]).
  destruct (blocks topk s n m (block_sizes (length (hess l)) bs) hinv (map (kill (dead (hess l))) (weight l))) as [W [e|]] eqn:B; [discriminate H|].
  apply (blocks_direct topk _ s n m hinv _ W (length (hess l)) (eq_sym (sizes_sum _ _ Hb)) T1 T2 Wd0) in B.
  assert (EW : weight l' = W).
  { destruct (Nat.eqb n 2 && Nat.eqb m 4).
    - destruct (is_weight_sparse_24 W) as [[|]|]; [|discriminate H|discriminate H]. injection H as H. subst l'. cbn. destruct aw; reflexivity.
    - injection H as H. subst l'. cbn. destruct aw; reflexivity. }
  rewrite EW. clear -B. remember (map (kill (dead (hess l))) (weight l)) as V eqn:E. revert E. generalize (weight l). intros X E. revert X E.
  induction B as [|v w' V W M B IH]; intros X E; destruct X as [|x X]; try discriminate E; constructor.
  - cbn [map] in E. injection E as E1 E2. subst v. exact M.
  - cbn [map] in E. injection E as E1 E2. apply IH. exact E2.
Qed.
Example C249_ex :
  let l := {| weight := [[4; 3; 2; 9]; [8; 7; 6; 5]]%Q; hess := eye 4 |} in
  let hinv := [[1; 1#2; 1#2; 1#2]; [1; 1#2; 1#2]; [1; 1#2]; [1]]%Q in
  let r := prune ex_topk (fun _ => Some hinv) true true (1#4) 0 0 3 0 l in
  tri 4 hinv /\ wide 4 (weight l) /\ snd r = None /\
  map (map Qred) (weight (fst r)) = map (map Qred) [one_by_one hinv [false; true; true; false] [4; 3; 2; 9]%Q; one_by_one hinv [false; false; false; true] [8; 7; 6; 5]%Q]
  /\ map (map Qred) (weight (fst r)) = [[4; 0; 0; 29 # 4]; [8; 7; 6; 0]]%Q.
Proof. cbn zeta. split; [cbn; repeat split|]. split; [repeat constructor|]. split; [vm_compute; reflexivity|]. split; vm_compute; reflexivity. Qed.
Print Assumptions C249_blocks_are_one_by_one.
