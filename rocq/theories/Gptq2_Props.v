(** C248: GPTQ's blocks compute the column-by-column algorithm. *)
From Coq Require Import QArith Lia Permutation.
From Verif Require Import Prelude SparseGpt_Lemmas Gptq_Model Gptq_Lemmas Gptq_Props.
Open Scope list_scope.
Open Scope Z_scope.

(** The published algorithm, one column at a time: a column is rounded, its error divided by the
    diagonal entry, and every later column corrected at once by the error times its entry. *)
Definition correct (e : list Q) (hj : Q) (wj : list Q) : list Q := map (fun p : Q * Q => snd p - fst p * hj)%Q (combine e wj).
Fixpoint correct_all (e : list Q) (h : list Q) (W : list (list Q)) : list (list Q) :=
  match h, W with hj :: h, wj :: W => correct e hj wj :: correct_all e h W | _, _ => [] end.
Fixpoint one_by_one (rnd_col : list Q -> list Q) (hinv : list (list Q)) (W : list (list Q)) : list (list Q) :=
  match hinv, W with
  | (d :: h) :: hinv, w :: W =>
      let q := rnd_col w in
      q :: one_by_one rnd_col hinv (correct_all (map (fun p : Q * Q => (fst p - snd p) / d)%Q (combine w q)) h W)
  | _, _ => []
  end.

Lemma axpy_correct : forall e h W, axpy e h W = correct_all e h W.
Proof. intros e h. induction h as [|hj h IH]; intros [|wj W]; try reflexivity. cbn [correct_all]. rewrite <- IH. reflexivity. Qed.
Lemma correct_all_length : forall e h W, length h = length W -> length (correct_all e h W) = length W.
Proof. intros e h. induction h as [|hj h IH]; intros [|wj W] H; cbn in *; try lia. rewrite IH; lia. Qed.
Lemma correct_all_app : forall e h W T, (length W <= length h)%nat ->
  correct_all e h (W ++ T) = correct_all e (firstn (length W) h) W ++ correct_all e (skipn (length W) h) T.
Proof.
  intros e h W. revert h. induction W as [|w W IH]; intros h T H; [reflexivity|].
  destruct h as [|x h]; [cbn in H; lia|]. cbn [length firstn skipn app correct_all]. f_equal. apply IH. cbn in H. lia.
Qed.

(** Rows [k], [k+1], ... of an upper triangle over [n] columns. *)
Fixpoint rows_from (n : nat) (hs : list (list Q)) : Prop :=
  match hs with [] => True | h :: r => length h = n /\ rows_from (n - 1) r end.

Section Blocks.
  Variable pow : Q -> Q.
  Variable cf : qconfig.
  Variable n : nat.
  Let rc (s : gstate) := quantize_col (q_maxq cf) (cur s).

  Lemma block_spec : forall hs W W1 T c s more k,
    length hs = length W1 -> rows_from (length W1 + length T) hs ->
    let '(qs, es, s') := quant_block pow cf n None W c
        (map (fun p : nat * list Q => firstn (k + length W1 - fst p) (snd p)) (combine (seq k (length W1)) hs)) W1 s in
    s' = s /\ length qs = length W1 /\
    one_by_one (rc s) (hs ++ more) (W1 ++ T)
    = qs ++ one_by_one (rc s) more (fold_left (fun T (p : list Q * (nat * list Q)) => axpy (fst p) (skipn (k + length W1 - fst (snd p)) (snd (snd p))) T)
                       (combine es (combine (seq k (length W1)) hs)) T)
    /\ length (fold_left (fun T (p : list Q * (nat * list Q)) => axpy (fst p) (skipn (k + length W1 - fst (snd p)) (snd (snd p))) T)
                       (combine es (combine (seq k (length W1)) hs)) T) = length T.
  Proof.
    induction hs as [|h hs IH]; intros W W1 T c s more k L Tr; destruct W1 as [|w W1]; try discriminate L.
    - cbn. auto.
    - cbn [length seq combine map fst snd]. cbn [quant_block regroup].
      injection L as L. destruct Tr as [Lh Tr]. cbn [length Nat.add] in Lh, Tr.
      destruct h as [|d h]; [cbn in Lh; lia|]. cbn [length] in Lh. injection Lh as Lh.
      replace (k + S (length W1) - k)%nat with (S (length W1)) by lia. cbn [firstn hd tl].
      set (e := map (fun p : Q * Q => ((fst p - snd p) / d)%Q) (combine w (quantize_col (q_maxq cf) (cur s) w))).
      assert (LA : length (axpy e (firstn (length W1) h) W1) = length W1).
      { rewrite axpy_correct. apply correct_all_length. rewrite firstn_length. lia. }
      assert (LT : length (axpy e (skipn (length W1) h) T) = length T).
      { rewrite axpy_correct. apply correct_all_length. rewrite skipn_length. lia. }
      specialize (IH W (axpy e (firstn (length W1) h) W1) (axpy e (skipn (length W1) h) T) (S c) s more (S k)).
      rewrite LA, LT in IH. replace (S (length W1 + length T) - 1)%nat with (length W1 + length T)%nat in Tr by lia.
      specialize (IH L Tr). replace (S k + length W1)%nat with (k + S (length W1))%nat in IH by lia.
      destruct (quant_block pow cf n None W (S c) _ (axpy e (firstn (length W1) h) W1) s) as [[qs es] s'].
      destruct IH as (A & B & C & D). cbn [combine fold_left fst snd].
      replace (k + S (length W1) - k)%nat with (S (length W1)) by lia. cbn [skipn].
      split; [exact A|]. split; [cbn [length]; lia|]. split; [|exact D].
      cbn [app one_by_one]. f_equal. change (rc s w) with (quantize_col (q_maxq cf) (cur s) w). fold e.
      rewrite correct_all_app by lia. rewrite <- !axpy_correct. exact C.
  Qed.

  Lemma blocks_one_by_one : forall sizes done hinv W s,
    fold_right Nat.add 0%nat sizes = length W -> length hinv = length W -> rows_from (length W) hinv ->
    fst (fst (quant_blocks pow cf n None sizes done hinv W s)) = one_by_one (rc s) hinv W
    /\ cur (snd (quant_blocks pow cf n None sizes done hinv W s)) = cur s
    /\ groups (snd (quant_blocks pow cf n None sizes done hinv W s)) = groups s.
  Proof.
    induction sizes as [|b sizes IH]; intros done hinv W s HS HL HT; cbn [fold_right] in HS.
    - destruct W; [|cbn in HS; lia]. destruct hinv; [|discriminate HL]. cbn. auto.
    - cbn [quant_blocks].
      assert (Lb : length (firstn b W) = b) by (rewrite firstn_length; lia).
      assert (Ls : length (skipn b W) = (length W - b)%nat) by apply skipn_length.
      assert (RF : forall m k hs, rows_from m hs -> rows_from m (firstn k hs)).
      { intros m k hs. revert m k. induction hs as [|x hs IHh]; intros m [|k] R; cbn; auto. destruct R as [R1 R2]. auto. }
      assert (RS : forall k m hs, rows_from m hs -> rows_from (m - k) (skipn k hs)).
      { induction k as [|k IHk]; intros m hs R; cbn [skipn]; [replace (m - 0)%nat with m by lia; exact R|].
        destruct hs as [|x hs]; [exact I|]. destruct R as [_ R]. specialize (IHk _ _ R). replace (m - S k)%nat with (m - 1 - k)%nat by lia. exact IHk. }
      pose proof (block_spec (firstn b hinv) (done ++ W) (firstn b W) (skipn b W) (length done) s (skipn b hinv) 0) as BS.
      rewrite Lb, Ls in BS. cbn [Nat.add] in BS.
      assert (X1 : length (firstn b hinv) = b) by (rewrite firstn_length; lia).
      assert (X2 : rows_from (b + (length W - b)) (firstn b hinv)).
      { apply RF. replace (b + (length W - b))%nat with (length W) by lia. exact HT. }
      specialize (BS X1 X2).
      destruct (quant_block pow cf n None (done ++ W) (length done) _ (firstn b W) s) as [[qs es] s1].
      destruct BS as (A & B & C & D). subst s1. rewrite !firstn_skipn in C.
      set (trail := fold_left _ _ _) in *.
      specialize (IH (done ++ firstn b W) (skipn b hinv) trail s).
      rewrite D in IH. rewrite skipn_length in IH.
      specialize (IH ltac:(lia) ltac:(lia) (RS b _ _ HT)).
      destruct (quant_blocks pow cf n None sizes (done ++ firstn b W) (skipn b hinv) trail s) as [[qs' W'] s2].
      cbn [fst snd] in IH |- *. destruct IH as (I1 & I2 & I3). rewrite C, I1. auto.
  Qed.
End Blocks.

Lemma tri_rows : forall k hv, tri k hv -> length hv = k /\ rows_from k hv.
Proof.
  intros k hv. revert k. induction hv as [|h hv IH]; intros [|k] H; cbn in *; try tauto; try discriminate.
  all: try (destruct H as [H1 H2]; destruct (IH _ H2) as [A B]; replace (k - 0)%nat with k by lia; auto).
Qed.

(** Without groups, whatever the block size, the weight is that of the one-by-one algorithm run on
    the columns in the order chosen, dead columns set to zero first. *)
Theorem C248_blocks_do_not_matter : forall pow cf n bs dead hv alias W,
  (0 < bs)%nat -> length dead = length W -> tri (length W) hv ->
  let round_col := quantize_col (q_maxq cf) (find_params pow cf (rows_of n W)) in
  fst (quant pow cf n None bs dead None (Some hv) alias true W) = one_by_one round_col hv (kill dead W).
Proof.
  intros pow cf n bs dead hv alias W Hb LD T. cbn zeta. unfold quant. cbn [negb].
  assert (LK : length (kill dead W) = length W) by (unfold kill; rewrite map_length, combine_length; lia).
  destruct (tri_rows _ _ T) as [T1 T2].
  pose proof (blocks_one_by_one pow cf n (block_sizes (length W) bs) [] hv (kill dead W)
    {| cur := find_params pow cf (rows_of n W); now_idx := 1; groups := [] |}) as B.
  rewrite LK in B. specialize (B (sizes_sum (length W) bs Hb) T1 T2).
  destruct (quant_blocks pow cf n None _ [] hv (kill dead W) _) as [[Qs W2] s]. cbn [fst snd cur] in B |- *.
  exact (proj1 B).
Qed.
(** With an order (actorder): column [perm[k]] of the result is column [k] of the one-by-one
    algorithm on the permuted columns. *)
Theorem C248_in_the_order_chosen : forall pow cf n bs dead p hv alias W k,
  (0 < bs)%nat -> length dead = length W -> tri (length W) hv -> Permutation p (seq 0 (length W)) -> (k < length W)%nat ->
  let round_col := quantize_col (q_maxq cf) (find_params pow cf (rows_of n W)) in
  nth (nth k p 0%nat) (fst (quant pow cf n None bs dead (Some p) (Some hv) alias true W)) []
  = nth k (one_by_one round_col hv (map (fun i => nth i (kill dead W) []) p)) [].
Proof.
  intros pow cf n bs dead p hv alias W k Hb LD T P Hk. cbn zeta. unfold quant. cbn [negb].
  assert (LK : length (kill dead W) = length W) by (unfold kill; rewrite map_length, combine_length; lia).
  assert (LP : length p = length W) by (rewrite (Permutation_length P), seq_length; reflexivity).
  assert (LC : length (take_cols [] p (kill dead W)) = length W) by (unfold take_cols; rewrite map_length; exact LP).
  destruct (tri_rows _ _ T) as [T1 T2].
  pose proof (blocks_one_by_one pow cf n (block_sizes (length W) bs) [] hv (take_cols [] p (kill dead W))
    {| cur := find_params pow cf (rows_of n W); now_idx := 1; groups := [] |}) as B.
  rewrite LC in B. specialize (B (sizes_sum (length W) bs Hb) T1 T2).
  destruct (quant_blocks pow cf n None _ [] hv (take_cols [] p (kill dead W)) _) as [[Qs W2] s]. cbn [fst snd cur] in B |- *.
  destruct B as [B _]. fold (take_cols (@nil Q) p (kill dead W)). rewrite <- B. unfold take_cols, inverse.
  assert (ND : NoDup p) by (apply (Permutation_NoDup (Permutation_sym P)), seq_NoDup).
  assert (PK : (nth k p 0 < length p)%nat).
  { rewrite LP. assert (I : In (nth k p 0%nat) p) by (apply nth_In; lia). apply (Permutation_in _ P) in I. apply in_seq in I. lia. }
  rewrite map_map. rewrite nth_map_seq by exact PK. rewrite (index_of_nth p k ND) by lia. reflexivity.
Qed.
Example C248_ex :
  let W := [[5; 1]; [2; -3]; [7; 7]; [-4; 0]; [1; 6]]%Q in
  tri 5 (upper 5) /\ Permutation [2; 0; 4; 3; 1]%nat (seq 0 5) /\
  fst (quant (fun q => q) ex_conf 2 None 2 [false; false; true; false; false] None (Some (upper 5)) true true W)
  = fst (quant (fun q => q) ex_conf 2 None 3 [false; false; true; false; false] None (Some (upper 5)) true true W)
  /\ map (map Qred) (fst (quant (fun q => q) ex_conf 2 None 2 [false; false; true; false; false] None (Some (upper 5)) true true W))
     <> map (map Qred) (one_by_one (quantize_col 3 (find_params (fun q => q) ex_conf (rows_of 2 W))) (map (fun k => 1%Q :: repeat 0%Q (4 - k)) (seq 0 5)) (kill [false; false; true; false; false] W)).
Proof.
  split; [cbn; repeat split|]. split.
  { apply NoDup_Permutation; [repeat constructor; cbn; intuition discriminate|apply seq_NoDup|].
    intros x. cbn. intuition. }
  split; [vm_compute; reflexivity|vm_compute; discriminate].
Qed.

(** With groups too the block size should not matter. *)
Definition same_weights (A B : list (list Q)) : Prop := Forall2 (Forall2 Qeq) A B.
Definition C248_claim : Prop := forall pow cf n gs b1 b2 dead hv alias W,
  (0 < b1)%nat -> (0 < b2)%nat -> (forall g, gs = Some g -> (0 < g)%nat) -> length dead = length W -> tri (length W) hv ->
  same_weights (fst (quant pow cf n gs b1 dead None (Some hv) alias true W)) (fst (quant pow cf n gs b2 dead None (Some hv) alias true W)).
(** A group's scale is taken from the weights as they were when its block began. *)
Theorem C248_groups_refuted : ~ C248_claim.
Proof.
  intros H. specialize (H (fun q => q) ex_conf 1%nat (Some 2%nat) 1%nat 4%nat [false; false; false; false] (upper 4) true [[5]; [-2]; [7]; [1]]%Q).
  specialize (H ltac:(lia) ltac:(lia) ltac:(intros g E; injection E as <-; lia) eq_refl ltac:(cbn; repeat split)).
  assert (X : forall A B, same_weights A B -> map (map Qred) A = map (map Qred) B).
  { clear. intros A B F. induction F as [|a b A B E F IH]; [reflexivity|]. cbn [map]. rewrite IH. f_equal.
    clear -E. induction E as [|x y a b E F IH]; [reflexivity|]. cbn [map]. rewrite IH. f_equal. apply Qred_complete. exact E. }
  apply X in H. vm_compute in H. discriminate H.
Qed.
Theorem C248_groups_partial : forall pow cf n b1 b2 dead hv alias W,
  (0 < b1)%nat -> (0 < b2)%nat -> length dead = length W -> tri (length W) hv ->
  fst (quant pow cf n None b1 dead None (Some hv) alias true W) = fst (quant pow cf n None b2 dead None (Some hv) alias true W).
Proof.
  intros. rewrite !C248_blocks_do_not_matter by assumption. reflexivity.
Qed.

(** * C49: the axis *)
(** Only a per-channel scheme sets the axis; otherwise it is what the caller gave. *)
Theorem C49_axis : forall dtype bit sym kwargs h, new_handler dtype bit sym false kwargs = Ok h ->
  get "ch_axis" (to_observer_params h) = get "ch_axis" kwargs.
Proof.
  intros dtype bit sym kwargs h E. unfold new_handler in E.
  assert (F : forall l, get "ch_axis" (filter (fun p : string * pval => negb (String.eqb (fst p) "is_symmetric_range")) l) = get "ch_axis" l).
  { intros l. induction l as [|[k' v] l IH]; [reflexivity|]. cbn [filter fst]. destruct (String.eqb_spec k' "is_symmetric_range") as [->|N']; cbn [negb get].
    - exact IH.
    - rewrite IH. reflexivity. }
  destruct (String.eqb dtype "quint8"); [|destruct (String.eqb dtype "qint8")]; cbn [bind] in E; try discriminate E;
    apply Ok_inj in E; subst h; rewrite params_get; cbn [naive_para h_per_channel app get String.eqb Ascii.eqb Bool.eqb h_kwargs]; apply F.
Qed.
Example C49_axis_ex : exists h, new_handler "qint8" 8 true false [("eps"%string, POther "0.1")] = Ok h /\ get "ch_axis" (to_observer_params h) = None.
Proof. eexists. split; vm_compute; reflexivity. Qed.
Print Assumptions C248_blocks_do_not_matter.
Print Assumptions C248_in_the_order_chosen.
Print Assumptions C248_groups_refuted.
Print Assumptions C248_groups_partial.
Print Assumptions C49_axis.
