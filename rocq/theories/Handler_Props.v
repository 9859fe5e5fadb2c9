(** C182: the network that MLPHandler keeps.  C183: what the trees of CartsHandler are fitted on and what they predict.
    C184 and C185: when EstimateResourcesHook estimates, and what. *)
From Coq Require Import List ZArith QArith Bool Lia Permutation.
From Verif Require Import Prelude Handler_Model.
Import ListNotations.
Local Open Scope Z_scope.

(* ------------------------------------------------------------------ *)
(** ** C182 *)
Section C182.
Variables Net St Smp : Type.
Variable start : Net -> St.
Variable epoch : St -> list Smp -> St.
Variable net : St -> Net.
Variable vloss : Net -> list Smp -> option Q.
Variable huge : Q.
(** The network after [i] epochs on [train]. *)
Fixpoint after (i : nat) (train : list Smp) (s : St) : St := match i with O => s | S i' => after i' train (epoch s train) end.
Definition loss_at (i : nat) (train valid : list Smp) (s : St) : option Q := vloss (net (after i train s)) valid.
(** Epoch [i] (counted from one) has the smallest loss below [top], and is the first to have it. *)
Definition first_best (n i : nat) (train valid : list Smp) (s : St) (top : Q) : Prop :=
  (1 <= i <= n)%nat /\ exists q, loss_at i train valid s = Some q /\ (q < top)%Q /\
  forall j q', (1 <= j <= n)%nat -> loss_at j train valid s = Some q' -> (q <= q')%Q /\ ((j < i)%nat -> (q < q')%Q).

Lemma loop_spec train valid : forall n s best bn,
  (exists i, first_best n i train valid s best /\ epochs_loop Net St Smp epoch net vloss n train valid s best bn = Some (net (after i train s))) \/
  ((forall j q, (1 <= j <= n)%nat -> loss_at j train valid s = Some q -> (best <= q)%Q) /\
   epochs_loop Net St Smp epoch net vloss n train valid s best bn = bn).
Proof.
  induction n as [|n IH]; intros s best bn; cbn [epochs_loop].
  - right. split; [intros j q hj; lia|reflexivity].
  - unfold below. destruct (vloss (net (epoch s train)) valid) as [l|] eqn:el.
    + destruct (Qlt_le_dec l best) as [hlt|hge].
      * left. destruct (IH (epoch s train) l (Some (net (epoch s train)))) as [(i & (hi & q & hq & hlq & hmin) & he)|[hall he]].
        -- exists (S i). rewrite he. split; [|reflexivity]. split; [lia|]. exists q. split; [exact hq|]. split; [eapply Qlt_trans; eauto|].
           intros [|[|j]] q' hj hq'; [lia| |].
           ++ unfold loss_at in hq'. cbn [after] in hq'. rewrite el in hq'. injection hq' as <-. split; [apply Qlt_le_weak; exact hlq|intros; exact hlq].
           ++ destruct (hmin (S j) q' ltac:(lia) hq') as [h1 h2]. split; [exact h1|]. intros h. apply h2. lia.
        -- exists 1%nat. rewrite he. split; [|reflexivity]. split; [lia|]. exists l. split; [unfold loss_at; cbn [after]; exact el|]. split; [exact hlt|].
           intros [|[|j]] q' hj hq'; [lia| |].
           ++ unfold loss_at in hq'. cbn [after] in hq'. rewrite el in hq'. injection hq' as <-. split; [apply Qle_refl|lia].
           ++ split; [apply (hall (S j)); [lia|exact hq']|lia].
      * destruct (IH (epoch s train) best bn) as [(i & (hi & q & hq & hlq & hmin) & he)|[hall he]].
        -- left. exists (S i). rewrite he. split; [|reflexivity]. split; [lia|]. exists q. split; [exact hq|]. split; [exact hlq|].
           intros [|[|j]] q' hj hq'; [lia| |].
           ++ unfold loss_at in hq'. cbn [after] in hq'. rewrite el in hq'. injection hq' as <-.
              assert (q < l)%Q as h by (eapply Qlt_le_trans; eauto). split; [apply Qlt_le_weak; exact h|intros; exact h].
           ++ destruct (hmin (S j) q' ltac:(lia) hq') as [h1 h2]. split; [exact h1|]. intros h. apply h2. lia.
        -- right. split; [|exact he]. intros [|[|j]] q' hj hq'; [lia| |apply (hall (S j)); [lia|exact hq']].
           unfold loss_at in hq'. cbn [after] in hq'. rewrite el in hq'. injection hq' as <-. exact hge.
    + destruct (IH (epoch s train) best bn) as [(i & (hi & q & hq & hlq & hmin) & he)|[hall he]].
      * left. exists (S i). rewrite he. split; [|reflexivity]. split; [lia|]. exists q. split; [exact hq|]. split; [exact hlq|].
        intros [|[|j]] q' hj hq'; [lia| |].
        -- unfold loss_at in hq'. cbn [after] in hq'. rewrite el in hq'. discriminate.
        -- destruct (hmin (S j) q' ltac:(lia) hq') as [h1 h2]. split; [exact h1|]. intros h. apply h2. lia.
      * right. split; [|exact he]. intros [|[|j]] q' hj hq'; [lia| |apply (hall (S j)); [lia|exact hq']].
        unfold loss_at in hq'. cbn [after] in hq'. rewrite el in hq'. discriminate.
Qed.

(** The network kept is the one after the first epoch with the smallest validation loss. *)
Theorem C182_best : forall n k perm samples d m b,
  train_mlp Net St Smp start epoch net vloss huge n k perm samples d m = Ok b ->
  exists i, first_best n i (pick Smp samples d (train_index perm k)) (pick Smp samples d (valid_index perm k)) (start m) huge /\
            b = net (after i (pick Smp samples d (train_index perm k)) (start m)).
Proof.
  intros n k perm samples d m b. unfold train_mlp.
  destruct (loop_spec (pick Smp samples d (train_index perm k)) (pick Smp samples d (valid_index perm k)) n (start m) huge None) as [(i & hi & he)|[_ he]]; rewrite he.
  - intros h. apply Ok_inj in h. subst b. exists i. auto.
  - discriminate.
Qed.
(** Training fails exactly if no epoch has a validation loss below 1e33, which includes that there is no epoch. *)
Theorem C182_raises : forall n k perm samples d m,
  (exists e, train_mlp Net St Smp start epoch net vloss huge n k perm samples d m = Raise e) <->
  forall j q, (1 <= j <= n)%nat ->
    loss_at j (pick Smp samples d (train_index perm k)) (pick Smp samples d (valid_index perm k)) (start m) = Some q -> (huge <= q)%Q.
Proof.
  intros n k perm samples d m. unfold train_mlp.
  destruct (loop_spec (pick Smp samples d (train_index perm k)) (pick Smp samples d (valid_index perm k)) n (start m) huge None) as [(i & (hi & q & hq & hl & _) & he)|[hall he]]; rewrite he.
  - split; [intros [e h]; discriminate|]. intros h. exfalso. specialize (h i q hi hq). apply (Qlt_not_le _ _ hl h).
  - split; [intros _; exact hall|]. intros _. eexists. reflexivity.
Qed.
End C182.

(** Training and validation share no sample and together use every sample once. *)
Theorem C182_split : forall n k perm,
  Permutation perm (seq 0 n) ->
  Permutation (train_index perm k ++ valid_index perm k) (seq 0 n) /\
  (forall i, In i (train_index perm k) -> In i (valid_index perm k) -> False) /\
  length (train_index perm k) = Z.to_nat (if k <? 0 then Z.of_nat n + k else Z.min (Z.of_nat n) k).
Proof.
  intros n k perm hp. unfold train_index, valid_index. rewrite firstn_skipn. split; [exact hp|].
  assert (length perm = n) as hl by (rewrite (Permutation_length hp), seq_length; reflexivity). split.
  - assert (NoDup perm) as hd by (apply (Permutation_NoDup (Permutation_sym hp)), seq_NoDup). intros i h1 h2.
    rewrite <- (firstn_skipn (slice_stop (length perm) k) perm) in hd.
    remember (firstn (slice_stop (length perm) k) perm) as a. remember (skipn (slice_stop (length perm) k) perm) as b. clear - hd h1 h2.
    induction a as [|x a IH]; [destruct h1|]. cbn in hd. inversion hd as [|? ? h3 h4]; subst. destruct h1 as [->|h1]; [|auto].
    apply h3, in_or_app. right. exact h2.
  - rewrite firstn_length, hl. unfold slice_stop. destruct (Z.ltb_spec k 0); lia.
Qed.
Example C182_split_example : train_index [3; 0; 2; 1]%nat 3 = [3; 0; 2]%nat /\ valid_index [3; 0; 2; 1]%nat 3 = [1]%nat.
Proof. split; reflexivity. Qed.

(** A network that counts its epochs and has loss 5, 2, 3, 2, 7, ... on validation. *)
Definition toy_loss (i : nat) (valid : list Q) : option Q := match valid with [] => None | _ => nth_error [9; 5; 2; 3; 2; 7]%Q i end.
Definition toy (n : nat) (k : Z) : outcome nat :=
  train_mlp nat nat Q (fun m => m) (fun s _ => S s) (fun s => s) toy_loss 1000 n k [1; 0]%nat [4; 6]%Q 0%Q 0%nat.
Example C182_best_example : toy 5 1 = Ok 2%nat.
Proof. reflexivity. Qed.
Example C182_raises_example : toy 0 1 = Raise GenericException /\ toy 5 2 = Raise GenericException.
Proof. split; reflexivity. Qed.

(** Claim: whenever some epochs are asked for and the split lies between none and all of the samples, training succeeds,
    provided that losses of some samples are finite and the mean over no samples is a NaN. *)
Definition C182_split_claim : Prop := forall (Net St Smp : Type) (start : Net -> St) epoch net vloss huge n k perm samples d m,
  (forall m v, v <> [] -> exists q, vloss m v = Some q /\ (q < huge)%Q) -> (forall m, vloss m [] = None) ->
  (0 < n)%nat -> Permutation perm (seq 0 (length samples)) -> 0 <= k <= Z.of_nat (length samples) ->
  exists b, train_mlp Net St Smp start epoch net vloss huge n k perm samples d m = Ok b.
(** It does if at least one sample is left for validation, *)
Theorem C182_split_partial : forall (Net St Smp : Type) (start : Net -> St) epoch net vloss huge n k perm samples d m,
  (forall m v, v <> [] -> exists q, vloss m v = Some q /\ (q < huge)%Q) ->
  (0 < n)%nat -> Permutation perm (seq 0 (length samples)) -> 0 <= k < Z.of_nat (length samples) ->
  exists b, train_mlp Net St Smp start epoch net vloss huge n k perm samples d m = Ok b.
Proof.
  intros Net St Smp start epoch net vloss huge n k perm samples d m hv hn hp hk.
  destruct (train_mlp Net St Smp start epoch net vloss huge n k perm samples d m) eqn:e; [eauto|]. exfalso.
  pose proof (proj1 (C182_raises Net St Smp start epoch net vloss huge n k perm samples d m) (ex_intro _ _ e)) as h.
  assert (pick Smp samples d (valid_index perm k) <> []) as hne.
  { intros h0. apply (f_equal (@length _)) in h0. unfold pick, valid_index in h0. rewrite map_length, skipn_length in h0.
    rewrite (Permutation_length hp), seq_length in h0. unfold slice_stop in h0. destruct (Z.ltb_spec k 0); cbn in h0; lia. }
  destruct (hv (net (after St Smp epoch 1 (pick Smp samples d (train_index perm k)) (start m))) _ hne) as (q & hq & hl).
  apply (Qlt_not_le _ _ hl). apply (h 1%nat q); [lia|exact hq].
Qed.
Example C182_split_partial_example : toy 1 1 = Ok 1%nat /\ toy 3 0 = Ok 2%nat.
Proof. split; reflexivity. Qed.
(** and it never does if none is left. *)
Theorem C182_split_refuted : ~ C182_split_claim.
Proof.
  intros h. destruct (h nat nat Q (fun m => m) (fun s _ => S s) (fun s => s) (fun _ v => match v with [] => None | _ => Some 0%Q end) 1%Q
                        5%nat 2 [1; 0]%nat [4; 6]%Q 0%Q 0%nat) as [b hb].
  - intros m v hv. destruct v; [contradiction|]. exists 0%Q. split; [reflexivity|reflexivity].
  - reflexivity.
  - lia.
  - apply perm_swap.
  - cbn. lia.
  - discriminate hb.
Qed.
Example C182_split_refuted_example : toy 5 2 = Raise GenericException.
Proof. reflexivity. Qed.
(** A handler that was fitted predicts for rows of the width that it was fitted on, and refuses all others, provided that
    training does not change the width of the first layer. *)
Theorem C182_width : forall (Net St Smp : Type) (start : Net -> St) epoch net vloss huge (in_features : Net -> nat) new_fc1 run n k perm width samples d m b rows,
  (forall m, in_features (net (start m)) = in_features m) ->
  (forall s train, in_features (net (epoch s train)) = in_features (net s)) ->
  (forall m w, in_features (new_fc1 m w) = w) ->
  fit Net St Smp start epoch net vloss huge in_features new_fc1 n k perm width samples d m = Ok b ->
  (predict_mlp Net in_features run b rows = Ok (map (run b) rows) /\ Forall (fun r => length r = width) rows) \/
  (predict_mlp Net in_features run b rows = Raise RuntimeError /\ ~ Forall (fun r => length r = width) rows).
Proof.
  intros Net St Smp start epoch net vloss huge inf new_fc1 run n k perm width samples d m b rows h1 h2 h3 hf.
  unfold fit in hf. apply C182_best in hf as (i & _ & ->).
  set (m' := if Nat.eqb width (inf m) then m else new_fc1 m width) in *.
  assert (inf m' = width) as hw by (unfold m'; destruct (Nat.eqb_spec width (inf m)); auto).
  set (train := pick Smp samples d (train_index perm k)).
  assert (forall i s, inf (net (after St Smp epoch i train s)) = inf (net s)) as ha.
  { induction i0 as [|i0 IH]; intros s; cbn [after]; [reflexivity|]. rewrite IH. apply h2. }
  specialize (ha i (start m')). rewrite h1, hw in ha. clearbody train. set (b := net (after St Smp epoch i train (start m'))) in *.
  unfold predict_mlp. rewrite ha. clear. induction rows as [|r rows IH]; cbn [mapM map].
  - left. split; [reflexivity|constructor].
  - destruct (Nat.eqb_spec (length r) width) as [e|e].
    + cbn [bind]. destruct IH as [[IH hf]|[IH hf]]; rewrite IH; cbn [bind]; [left|right]; (split; [reflexivity|]).
      * constructor; assumption.
      * intros h. inversion h; subst. contradiction.
    + right. split; [reflexivity|]. intros h. inversion h; subst. contradiction.
Qed.
Example C182_width_example :
  predict_mlp nat (fun _ => 2%nat) (fun m r => (inject_Z (Z.of_nat m) + fold_right Qplus 0 r)%Q) 3%nat [[1; 2]]%Q = Ok [6%Q] /\
  predict_mlp nat (fun _ => 2%nat) (fun m r => 0%Q) 3%nat [[1; 2]; [1]]%Q = Raise RuntimeError.
Proof. split; reflexivity. Qed.
Print Assumptions C182_best.
Print Assumptions C182_raises.
Print Assumptions C182_split.
Print Assumptions C182_split_partial.
Print Assumptions C182_split_refuted.
Print Assumptions C182_width.

(* ------------------------------------------------------------------ *)
(** ** C183 *)
Definition valid_draw (n width : nat) (d : draw) : Prop :=
  Permutation (d_samples d) (seq 0 n) /\ Permutation (d_features d) (seq 0 width) /\ (1 <= d_count d <= width)%nat.

Lemma nodup_left {A} (a b : list A) : NoDup (a ++ b) -> NoDup a.
Proof.
  induction a as [|x a IH]; intros h; [constructor|]. cbn in h. inversion h as [|? ? h1 h2]; subst. constructor; [|auto].
  intros hx. apply h1, in_or_app. left. exact hx.
Qed.
Lemma seq_nth_id {A} (d : A) l : map (fun i => nth i l d) (seq 0 (length l)) = l.
Proof. induction l as [|a l IH]; [reflexivity|]. cbn [length seq map nth]. f_equal. rewrite <- seq_shift, map_map. exact IH. Qed.
Lemma nth_combine {A B} (da : A) (db : B) : forall a b i, length a = length b -> nth i (combine a b) (da, db) = (nth i a da, nth i b db).
Proof. induction a as [|x a IH]; intros [|y b] [|i] h; try discriminate; try reflexivity. cbn. apply IH. cbn in h. lia. Qed.
Lemma shuffled_pairs data labels idx : length data = length labels -> Permutation idx (seq 0 (length data)) ->
  Permutation (combine (rows_at data idx) (labels_at labels idx)) (combine data labels) /\
  length (rows_at data idx) = length data /\ length (labels_at labels idx) = length data.
Proof.
  intros hl hp. assert (length idx = length data) as hi by (rewrite (Permutation_length hp), seq_length; reflexivity).
  split; [|unfold rows_at, labels_at; rewrite !map_length; auto].
  assert (combine (rows_at data idx) (labels_at labels idx) = map (fun i => nth i (combine data labels) ([], 0%Q)) idx) as ->.
  { unfold rows_at, labels_at. clear hp hi. induction idx as [|i idx IH]; [reflexivity|]. cbn [map combine]. rewrite IH, nth_combine by exact hl. reflexivity. }
  apply Permutation_trans with (map (fun i => nth i (combine data labels) ([], 0%Q)) (seq 0 (length (combine data labels)))).
  - apply Permutation_map. rewrite combine_length, hl, Nat.min_id, <- hl. exact hp.
  - rewrite seq_nth_id. apply Permutation_refl.
Qed.

(** Every tree is fitted on all samples, each with its own label, and on a nonempty set of features without repetitions. *)
Theorem C183_trees : forall Tree fit_tree draws width data labels model,
  length data = length labels -> Forall (valid_draw (length data) width) draws ->
  make_trees Tree fit_tree draws width data labels = Ok model ->
  length model = length draws /\
  Forall (fun tf => exists data' labels',
            fst tf = fit_tree (map (features_at (snd tf)) data') labels' /\
            Permutation (combine data' labels') (combine data labels) /\ length data' = length data /\ length labels' = length labels /\
            snd tf <> [] /\ NoDup (snd tf) /\ Forall (fun j => (j < width)%nat) (snd tf)) model.
Proof.
  intros Tree fit_tree draws width. induction draws as [|d r IH]; intros data labels model hl hv h; cbn [make_trees] in h.
  - apply Ok_inj in h. subst. split; [reflexivity|constructor].
  - destruct (Nat.eqb width 0); [discriminate|]. inversion hv as [|? ? (hs & hf & hc) hv']; subst.
    destruct (shuffled_pairs data labels (d_samples d) hl hs) as (hp & l1 & l2).
    destruct (make_trees Tree fit_tree r width (rows_at data (d_samples d)) (labels_at labels (d_samples d))) as [rest|] eqn:e; cbn [bind] in h; [|discriminate].
    apply Ok_inj in h. subst model. rewrite <- l1 in hv'. destruct (IH _ _ rest (eq_trans l1 (eq_sym l2)) hv' e) as [IH1 IH2].
    split; [cbn; rewrite IH1; reflexivity|]. constructor.
    + exists (rows_at data (d_samples d)), (labels_at labels (d_samples d)). cbn [fst snd]. split; [reflexivity|]. split; [exact hp|]. split; [exact l1|]. split; [congruence|].
      assert (length (d_features d) = width) as lf by (rewrite (Permutation_length hf), seq_length; reflexivity). split; [|split].
      * intros h0. apply (f_equal (@length _)) in h0. rewrite firstn_length, lf in h0. cbn in h0. lia.
      * assert (NoDup (d_features d)) as hn by (apply (Permutation_NoDup (Permutation_sym hf)), seq_NoDup).
        rewrite <- (firstn_skipn (d_count d) (d_features d)) in hn. apply nodup_left in hn. exact hn.
      * apply Forall_forall. intros j hj. assert (In j (d_features d)) as hj' by (rewrite <- (firstn_skipn (d_count d) (d_features d)); apply in_or_app; auto).
        apply (Permutation_in _ hf) in hj'. apply in_seq in hj'. lia.
    + apply Forall_forall. intros tf htf. rewrite Forall_forall in IH2. destruct (IH2 tf htf) as (da & la & h1 & h2 & h3 & h4 & h5). exists da, la.
      split; [exact h1|]. split; [eapply Permutation_trans; eauto|]. split; [congruence|]. split; [congruence|exact h5].
Qed.
(** If the order of the samples does not matter to a tree, the shuffles do not matter: each tree is the one of the data as given. *)
Theorem C183_order : forall Tree fit_tree draws width data labels,
  (forall data labels data' labels', length data = length labels -> length data' = length labels' ->
     Permutation (combine data labels) (combine data' labels') -> fit_tree data labels = fit_tree data' labels' :> Tree) ->
  length data = length labels -> (0 < width)%nat -> Forall (valid_draw (length data) width) draws ->
  make_trees Tree fit_tree draws width data labels =
  Ok (map (fun d => let feats := firstn (d_count d) (d_features d) in (fit_tree (map (features_at feats) data) labels, feats)) draws).
Proof.
  intros Tree fit_tree draws width data labels hinv hl hw hv.
  assert (forall da la, length da = length la -> length da = length data -> Permutation (combine da la) (combine data labels) ->
            make_trees Tree fit_tree draws width da la =
            Ok (map (fun d => let feats := firstn (d_count d) (d_features d) in (fit_tree (map (features_at feats) data) labels, feats)) draws)) as h.
  { induction draws as [|d r IH]; intros da la h1 h2 h3; cbn [make_trees map]; [reflexivity|]. destruct (Nat.eqb_spec width 0); [lia|].
    inversion hv as [|? ? (hs & hf & hc) hv']; subst. rewrite <- h2 in hs. destruct (shuffled_pairs da la (d_samples d) h1 hs) as (hp & l1 & l2).
    rewrite IH; auto; [|congruence|congruence|eapply Permutation_trans; eauto]. cbn [bind]. cbv zeta. f_equal. f_equal. f_equal.
    apply hinv; rewrite ?map_length; [congruence|exact hl|].
    assert (forall (f : list Q -> list Q) (a : list (list Q)) (b : list Q), combine (map f a) b = map (fun p => (f (fst p), snd p)) (combine a b)) as hc'.
    { intros f. induction a as [|x a IHa]; intros [|y b]; cbn; try reflexivity. f_equal. apply IHa. }
    rewrite !hc'. apply Permutation_map. eapply Permutation_trans; eauto. }
  apply h; auto.
Qed.
Definition ones := {| d_samples := [1; 0]; d_features := [1; 0]; d_count := 1 |}%nat.
(** A tree that remembers what it was fitted on. *)
Example C183_trees_example :
  make_trees (list (list Q) * list Q) (fun a b => (a, b)) [ones; ones]%nat 2 [[1; 2]; [3; 4]]%Q [5; 6]%Q =
  Ok [(([[4]; [2]]%Q, [6; 5]%Q), [1%nat]); (([[2]; [4]]%Q, [5; 6]%Q), [1%nat])].
Proof. reflexivity. Qed.
Example C183_order_example :
  Forall (valid_draw 2 2) [ones; ones] /\
  make_trees Q (fun _ l => fold_right Qplus 0%Q l) [ones] 2 [[1; 2]; [3; 4]]%Q [5; 6]%Q = Ok [(11%Q, [1%nat])].
Proof.
  split; [|reflexivity]. assert (valid_draw 2 2 ones) as h by (repeat split; cbn; try apply perm_swap; lia). repeat constructor; apply h.
Qed.
(** The prediction for a row is the mean over the trees of what each says about the features that it was fitted on. *)
Theorem C183_predict : forall Tree tree_predict sort (model : list (Tree * list nat)) row,
  (forall l, Permutation (sort l) l) -> model <> [] ->
  exists q, carts_predict1 Tree tree_predict sort model row = Some q /\
    (q * inject_Z (Z.of_nat (length model)) ==
     fold_right Qplus 0 (map (fun tf => tree_predict (fst tf) (map (fun j => nth j row 0) (snd tf))) model))%Q.
Proof.
  intros Tree tree_predict sort model row hs hm. unfold carts_predict1.
  set (l := map (fun tf => tree_predict (fst tf) (features_at (snd tf) row)) model).
  assert (Permutation (rev (sort l)) l) as hp by (eapply Permutation_trans; [apply Permutation_sym, Permutation_rev|apply hs]).
  assert (length (rev (sort l)) = length model) as hl by (rewrite (Permutation_length hp); unfold l; apply map_length).
  assert (forall a b, Permutation a b -> fold_right Qplus 0%Q a == fold_right Qplus 0%Q b)%Q as hsum.
  { induction 1; cbn; [reflexivity|rewrite IHPermutation; reflexivity|ring|rewrite IHPermutation1; exact IHPermutation2]. }
  unfold mean. destruct (rev (sort l)) as [|x r] eqn:e; [destruct model; [contradiction|discriminate]|]. rewrite hl. eexists. split; [reflexivity|].
  rewrite (hsum _ _ hp). unfold l, features_at. rewrite Qmult_comm, Qmult_div_r; [reflexivity|].
  destruct model; [contradiction|]. intros h. unfold Qeq in h. cbn in h. lia.
Qed.
Example C183_predict_example :
  carts_predict1 Q (fun t fs => t + fold_right Qplus 0 fs)%Q (fun l => l) [(1, [0%nat]); (2, [1%nat; 0%nat])]%Q [10; 20]%Q = Some (43 # 2)%Q.
Proof. reflexivity. Qed.
Print Assumptions C183_trees.
Print Assumptions C183_order.
Print Assumptions C183_predict.

(* ------------------------------------------------------------------ *)
(** ** C184 *)
(** Claim: with interval [n], validating after every epoch, the resources are estimated once after the epochs that are
    multiples of [n] and not after others. *)
Definition C184_interval_claim : Prop := forall n iters batches total e c,
  (0 < n)%nat -> In (e, c) (estimates true (Z.of_nat n) iters batches total 1 1) -> c = if Nat.eqb (e mod n) 0 then 1%nat else 0%nat.

Lemma sum_same k l : fold_right (fun b a => b + a)%nat 0%nat (map (fun _ : nat => k) l) = (length l * k)%nat.
Proof. induction l as [|x l IH]; cbn; [reflexivity|]. rewrite IH. lia. Qed.
Lemma every_n_spec e n : (0 < n)%nat -> every_n e (Z.of_nat n) = Nat.eqb ((e + 1) mod n) 0.
Proof.
  intros hn. unfold every_n. replace (0 <? Z.of_nat n) with true by (symmetry; apply Z.ltb_lt; lia). cbn [andb].
  replace (Z.of_nat e + 1) with (Z.of_nat (e + 1)) by lia. rewrite <- Nat2Z.inj_mod. destruct (Nat.eqb_spec ((e + 1) mod n) 0) as [h|h].
  - rewrite h. reflexivity.
  - apply Z.eqb_neq. lia.
Qed.
Lemma validated_spec total vb vi e : (0 < vi)%nat -> (In e (validated total vb vi) <-> (1 <= e <= total /\ vb <= e)%nat /\ exists q, e = (q * vi)%nat).
Proof.
  intros hv. unfold validated. rewrite filter_In, in_seq, andb_true_iff, Nat.leb_le, Nat.eqb_eq. split.
  - intros [h1 [h2 h3]]. split; [lia|]. exists (e / vi)%nat. pose proof (Nat.div_mod e vi ltac:(lia)). lia.
  - intros [[h1 h2] [q ->]]. split; [lia|]. split; [exact h2|]. apply Nat.mod_mul. lia.
Qed.
(** What happens: one estimate after the epochs whose successor is a multiple of the interval, for every validation interval;
    none for an interval that is not positive. *)
Theorem C184_interval_partial : forall interval iters batches total val_begin val_interval e c,
  (0 < val_interval)%nat ->
  (In (e, c) (estimates true interval iters batches total val_begin val_interval) <->
   ((1 <= e <= total /\ val_begin <= e)%nat /\ exists q, e = (q * val_interval)%nat) /\
   c = if (0 <? interval) && ((Z.of_nat e + 1) mod interval =? 0) then 1%nat else 0%nat).
Proof.
  intros interval iters batches total vb vi e c hv. unfold estimates. rewrite in_map_iff. rewrite <- validated_spec by exact hv.
  assert (forall x, estimates_val true interval iters batches x = if (0 <? interval) && ((Z.of_nat x + 1) mod interval =? 0) then 1%nat else 0%nat) as h.
  { intros x. unfold estimates_val, estimates_iter, estimates_epoch. rewrite sum_same, Nat.mul_0_r. reflexivity. }
  split.
  - intros (x & hx & hin). injection hx as <- <-. rewrite h. auto.
  - intros [hin ->]. exists e. rewrite h. auto.
Qed.
Example C184_interval_partial_example : estimates true 2 10 3 5 1 1 = [(1, 1); (2, 0); (3, 1); (4, 0); (5, 1)]%nat.
Proof. reflexivity. Qed.
Theorem C184_interval_refuted : ~ C184_interval_claim.
Proof. intros h. specialize (h 2%nat 10%nat 3%nat 5%nat 1%nat 1%nat ltac:(lia) ltac:(cbn; auto)). discriminate. Qed.
Example C184_interval_refuted_example : In (2, 0)%nat (estimates true 2 10 3 5 1 1).
Proof. cbn. auto. Qed.
(** With [by_epoch=False] a validation estimates after each of its batches or after none, and always the same training iteration. *)
Theorem C184_iterations : forall interval iters batches total val_begin val_interval e c,
  (0 < val_interval)%nat ->
  (In (e, c) (estimates false interval iters batches total val_begin val_interval) <->
   ((1 <= e <= total /\ val_begin <= e)%nat /\ exists q, e = (q * val_interval)%nat) /\
   c = if (0 <? interval) && ((Z.of_nat (e * iters) + 1) mod interval =? 0) then batches else 0%nat).
Proof.
  intros interval iters batches total vb vi e c hv. unfold estimates. rewrite in_map_iff. rewrite <- validated_spec by exact hv.
  assert (forall x, estimates_val false interval iters batches x = if (0 <? interval) && ((Z.of_nat (x * iters) + 1) mod interval =? 0) then batches else 0%nat) as h.
  { intros x. unfold estimates_val, estimates_iter, estimates_epoch. rewrite sum_same, seq_length, Nat.add_0_r. unfold every_n.
    destruct ((0 <? interval) && ((Z.of_nat (x * iters) + 1) mod interval =? 0)); lia. }
  split.
  - intros (x & hx & hin). injection hx as <- <-. rewrite h. auto.
  - intros [hin ->]. exists e. rewrite h. auto.
Qed.
Example C184_iterations_example : estimates false 7 10 3 3 1 1 = [(1, 0); (2, 3); (3, 0)]%nat.
Proof. reflexivity. Qed.
Print Assumptions C184_interval_partial.
Print Assumptions C184_interval_refuted.
Print Assumptions C184_iterations.

(* ------------------------------------------------------------------ *)
(** ** C185 *)
Definition mutables (l : list mmod) : nat := length (filter is_mutable l).
(** Claim: what is reported for a supernet are the resources of its current choices. *)
Definition C185_current_claim : Prop := forall X (resources : list nat -> X) sampled model,
  length sampled = mutables model -> snd (estimate_resources resources true sampled model) = resources (map choice (filter is_mutable model)).

Lemma set_all_choices : forall l cs, length cs = mutables l -> current_choices (set_all cs l) = cs.
Proof.
  unfold current_choices, mutables. induction l as [|m l IH]; intros cs h; cbn in *; [destruct cs; [reflexivity|discriminate]|].
  destruct (is_mutable m) eqn:e; cbn [length] in h.
  - destruct cs as [|c cs]; [discriminate|]. cbn. f_equal. apply IH. cbn in h. lia.
  - cbn [filter]. rewrite e. apply IH. exact h.
Qed.
Lemma mutables_del l : mutables (map del_weights l) = mutables l.
Proof.
  unfold mutables. induction l as [|m l IH]; [reflexivity|]. cbn [map filter]. unfold del_weights at 1. destruct (is_mutable m) eqn:e; cbn [is_mutable]; rewrite ?e; cbn [length]; auto.
Qed.
(** The report for a supernet is that of the choices that are sampled for it, whatever its current choices; the model keeps its
    choices and loses the architecture weights of its mutables. *)
Theorem C185_current_partial : forall X (resources : list nat -> X) sampled model,
  length sampled = mutables model ->
  snd (estimate_resources resources true sampled model) = resources sampled /\
  map choice (fst (estimate_resources resources true sampled model)) = map choice model /\
  Forall2 (fun a b => is_mutable b = is_mutable a /\ arch_weights b = if is_mutable a then false else arch_weights a)
    model (fst (estimate_resources resources true sampled model)).
Proof.
  intros X resources sampled model h. unfold estimate_resources, export_subnet. cbn [fst snd]. rewrite set_all_choices by (rewrite mutables_del; exact h).
  split; [reflexivity|]. split.
  - rewrite map_map. apply map_ext. intros m. unfold del_weights. destruct (is_mutable m); reflexivity.
  - clear. induction model as [|m l IH]; cbn [map]; constructor; [|exact IH]. unfold del_weights. destruct (is_mutable m) eqn:e; cbn; auto.
Qed.
Definition small_model : list mmod :=
  [{| is_mutable := true; arch_weights := true; choice := 3 |}; {| is_mutable := false; arch_weights := true; choice := 9 |};
   {| is_mutable := true; arch_weights := false; choice := 5 |}]%nat.
Example C185_current_partial_example :
  estimate_resources (fun c => c) true [7; 8]%nat small_model =
  ([{| is_mutable := true; arch_weights := false; choice := 3 |}; {| is_mutable := false; arch_weights := true; choice := 9 |};
    {| is_mutable := true; arch_weights := false; choice := 5 |}]%nat, [7; 8]%nat).
Proof. reflexivity. Qed.
Theorem C185_current_refuted : ~ C185_current_claim.
Proof. intros h. specialize (h _ (fun c => c) [7; 8]%nat small_model eq_refl). discriminate. Qed.
Example C185_current_refuted_example : snd (estimate_resources (fun c => c) true [7; 8]%nat small_model) <> [3; 5]%nat.
Proof. discriminate. Qed.
(** A model that is no supernet is estimated as it is and is not changed. *)
Theorem C185_fixed : forall X (resources : list nat -> X) sampled model,
  estimate_resources resources false sampled model = (model, resources (map choice (filter is_mutable model))).
Proof. reflexivity. Qed.
Example C185_fixed_example : snd (estimate_resources (fun c => c) false [7; 8]%nat small_model) = [3; 5]%nat.
Proof. reflexivity. Qed.
Print Assumptions C185_current_partial.
Print Assumptions C185_current_refuted.
Print Assumptions C185_fixed.
