(** C40: negatives of the CRD data set. *)
From Coq Require Import Permutation.
From Verif Require Import Prelude Crd_Model.
Open Scope Z_scope.

(** Another class's sample. *)
Definition other (labels : list nat) (c i : nat) : bool := Nat.ltb i (length labels) && negb (Nat.eqb (nth i labels 0%nat) c).
Definition others (labels : list nat) (c : nat) : nat := length (filter (other labels c) (seq 0 (length labels))).
(** What np.random.permutation guarantees. *)
Definition shuffles (shuffle : nat -> list nat -> list nat) : Prop := forall c l, Permutation l (shuffle c l).

(** The full claim about the percentage. *)
Definition C40_claim : Prop :=
  forall ragged mode num percent shuffle labels d, shuffles shuffle -> (0 < percent < 1)%Q ->
    parse ragged mode num percent shuffle labels = Ok d ->
    forall c, (c < length (c_neg d))%nat -> Z.of_nat (length (nth c (c_neg d) [])) = Qtrunc (inject_Z (Z.of_nat (others labels c)) * percent).
(** All classes use the number of class 0. *)
Theorem C40_percent_refuted : ~ C40_claim.
Proof.
  intros H. specialize (H true Exact None (1 # 2)%Q (fun _ l => l) [0; 0; 0; 0; 1; 1]%nat _ (fun _ l => Permutation_refl l) ltac:(split; reflexivity) eq_refl 1%nat).
  vm_compute in H. specialize (H ltac:(repeat constructor)). discriminate.
Qed.

Lemma positions_in labels c i : In i (positions labels c) <-> (i < length labels)%nat /\ nth i labels 0%nat = c.
Proof. unfold positions. rewrite filter_In, in_seq, Nat.eqb_eq. split; [intros [[_ A] B]; auto|intros [A B]; split; [lia|exact B]]. Qed.
Lemma negatives_in labels k c i : In i (negatives labels k c) <-> (i < length labels)%nat /\ nth i labels 0%nat <> c /\ (nth i labels 0%nat < k)%nat.
Proof.
  unfold negatives. rewrite in_flat_map. split.
  - intros (j & Hj & I). apply in_seq in Hj. destruct (Nat.eqb_spec j c) as [->|N]; [destruct I|]. apply positions_in in I. destruct I as [L E]. subst j. split; [exact L|]. split; [exact N|lia].
  - intros (L & N & K). exists (nth i labels 0%nat). split; [apply in_seq; lia|]. destruct (Nat.eqb_spec (nth i labels 0%nat) c); [contradiction|]. apply positions_in. auto.
Qed.
Lemma positions_nodup labels c : NoDup (positions labels c).
Proof. apply NoDup_filter, seq_NoDup. Qed.
Lemma nodup_app {A} (a b : list A) : NoDup a -> NoDup b -> (forall x, In x a -> ~ In x b) -> NoDup (a ++ b).
Proof.
  induction a as [|x a IH]; intros Ha Hb D; [exact Hb|]. inversion Ha; subst. cbn. constructor.
  - rewrite in_app_iff. intros [I|I]; [contradiction|]. apply (D x); [left; reflexivity|exact I].
  - apply IH; [assumption|exact Hb|]. intros y I. apply D. right. exact I.
Qed.
Lemma negatives_nodup labels k c : NoDup (negatives labels k c).
Proof.
  unfold negatives. generalize (seq_NoDup k 0). induction (seq 0 k) as [|j l IH]; intros N; [constructor|]. inversion N; subst. cbn [flat_map].
  apply nodup_app; [destruct (Nat.eqb j c); [constructor|apply positions_nodup]|apply IH; assumption|].
  intros x I J. destruct (Nat.eqb j c); [destruct I|]. apply positions_in in I. apply in_flat_map in J. destruct J as (j' & Hj' & J). destruct (Nat.eqb j' c); [destruct J|]. apply positions_in in J.
  destruct I as [_ I]. destruct J as [_ J]. congruence.
Qed.
Lemma negatives_others labels k c : Forall (fun l => (l < k)%nat) labels -> length (negatives labels k c) = others labels c.
Proof.
  intros F. apply Permutation_length. apply NoDup_Permutation; [apply negatives_nodup|apply NoDup_filter, seq_NoDup|].
  intros i. rewrite negatives_in, filter_In, in_seq. unfold other. rewrite Bool.andb_true_iff, Nat.ltb_lt, Bool.negb_true_iff, Nat.eqb_neq. split.
  - intros (A & B & _). repeat split; try lia; assumption.
  - intros ((_ & A) & _ & B). split; [exact A|]. split; [exact B|]. rewrite Forall_forall in F. apply F. apply nth_In. exact A.
Qed.
(** What parse returns. *)
Lemma parse_spec ragged mode num percent shuffle labels d : parse ragged mode num percent shuffle labels = Ok d ->
  exists k, classes_of num labels = Ok k /\ Forall (fun l => (l < k)%nat) labels /\ c_labels d = labels /\ mode <> OtherMode /\
    c_pos d = map (positions labels) (seq 0 k) /\ length (c_neg d) = k /\
    forall c, (c < k)%nat -> nth c (c_neg d) [] =
      if negb (Qle_bool percent 0) && negb (Qle_bool 1 percent)
      then firstn (Z.to_nat (Qtrunc (inject_Z (Z.of_nat (others labels 0)) * percent))) (shuffle c (negatives labels k c)) else negatives labels k c.
Proof.
  unfold parse. intros E. assert (Md : mode <> OtherMode) by (intros ->; discriminate E).
  assert (A1 : assert_ (match mode with OtherMode => false | _ => true end) = Ok tt) by (destruct mode; [reflexivity|reflexivity|contradiction]). rewrite A1 in E. cbn [bind] in E.
  destruct (classes_of num labels) as [k|] eqn:K; [|discriminate E]. cbn [bind] in E. exists k. split; [reflexivity|].
  destruct (forallb (fun l => Nat.ltb l k) labels) eqn:B; [|discriminate E]. cbn [negb] in E.
  assert (F : Forall (fun l => (l < k)%nat) labels) by (apply Forall_forall; intros l I; rewrite forallb_forall in B; apply Nat.ltb_lt, B, I).
  split; [exact F|].
  assert (NM : forall g c, (c < k)%nat -> nth c (map g (seq 0 k)) [] = g c :> list nat).
  { intros g c Hc. rewrite (nth_indep _ [] (g 0%nat)) by (rewrite map_length, seq_length; exact Hc). rewrite map_nth, seq_nth by exact Hc. reflexivity. }
  set (neg := map (negatives labels k) (seq 0 k)) in *.
  assert (G : forall neg', (do pos <- asarray ragged (map (positions labels) (seq 0 k)); do neg <- asarray ragged neg'; Ok {| c_labels := labels; c_pos := pos; c_neg := neg |}) = Ok d ->
     c_labels d = labels /\ c_pos d = map (positions labels) (seq 0 k) /\ c_neg d = neg').
  { intros neg' E'. unfold asarray in E'. destruct (ragged || _); [|discriminate E']. cbn [bind] in E'. destruct (ragged || _); [|discriminate E']. cbn [bind] in E'. apply Ok_inj in E'. subst d. auto. }
  destruct (negb (Qle_bool percent 0) && negb (Qle_bool 1 percent)) eqn:P.
  - assert (H0 : exists tl, (0 < k)%nat /\ neg = negatives labels k 0 :: tl).
    { unfold neg. destruct k as [|k']; [cbn in E; discriminate E|]. eexists. split; [lia|reflexivity]. }
    destruct H0 as (tl & Hk & H0). rewrite H0 in E at 1. cbv beta iota zeta in E. cbn [bind] in E. rewrite (negatives_others labels k 0 F) in E. apply G in E. destruct E as (E1 & E2 & E3). rewrite E3.
    split; [exact E1|]. split; [exact Md|]. split; [exact E2|]. split; [rewrite map_length, seq_length; reflexivity|]. intros c Hc. rewrite NM by exact Hc. unfold neg. rewrite NM by exact Hc. reflexivity.
  - cbn [bind] in E. apply G in E. destruct E as (E1 & E2 & E3). rewrite E3. split; [exact E1|]. split; [exact Md|]. split; [exact E2|]. unfold neg. split; [rewrite map_length, seq_length; reflexivity|]. intros c Hc. apply NM. exact Hc.
Qed.
(** Each class keeps the percentage of its own negatives if all classes have equally many, as in a
    balanced data set. *)
Theorem C40_percent_partial :
  forall ragged mode num percent shuffle labels d, shuffles shuffle -> (0 < percent < 1)%Q ->
    parse ragged mode num percent shuffle labels = Ok d ->
    forall c, (c < length (c_neg d))%nat -> others labels c = others labels 0 ->
      Z.of_nat (length (nth c (c_neg d) [])) = Qtrunc (inject_Z (Z.of_nat (others labels c)) * percent).
Proof.
  intros ragged mode num percent shuffle labels d Sh [P0 P1] E c Hc Eq. destruct (parse_spec _ _ _ _ _ _ _ E) as (k & _ & F & _ & _ & _ & L & N). rewrite L in Hc. rewrite (N c Hc).
  assert (B0 : Qle_bool percent 0 = false) by (apply Bool.not_true_iff_false; rewrite Qle_bool_iff; apply Qlt_not_le; exact P0).
  assert (B1 : Qle_bool 1 percent = false) by (apply Bool.not_true_iff_false; rewrite Qle_bool_iff; apply Qlt_not_le; exact P1).
  rewrite B0, B1. cbn [negb andb]. rewrite firstn_length, <- (Permutation_length (Sh c _)), (negatives_others _ _ _ F), Eq.
  set (m := others labels 0). set (t := Qtrunc _). assert (T : 0 <= t <= Z.of_nat m).
  { unfold t, Qtrunc. destruct percent as [p q]. unfold Qlt in P0, P1. cbn in P0, P1. cbn [Qmult inject_Z Qnum Qden]. rewrite Pos.mul_1_l. rewrite Z.quot_div_nonneg by nia. split.
    - apply Z.div_pos; nia.
    - apply Z.div_le_upper_bound; nia. }
  rewrite Nat.min_l; lia.
Qed.
Example C40_percent_ex :
  shuffles (fun _ l => rev l) /\ parse false Exact (Some 3%nat) (1 # 2)%Q (fun _ l => rev l) [0; 1; 2; 0; 1; 2]%nat =
    Ok {| c_labels := [0; 1; 2; 0; 1; 2]%nat; c_pos := [[0; 3]; [1; 4]; [2; 5]]%nat; c_neg := [[5; 2]; [5; 2]; [4; 1]]%nat |}.
Proof. split; [intros c l; apply Permutation_rev|reflexivity]. Qed.

(** A generator whose draws are valid: positions inside, the right number, distinct without
    replacement. It draws from something non-empty, and no more than there is without replacement. *)
Definition draws (pick : nat -> nat -> bool -> list nat) : Prop :=
  forall len size replace, (0 < len \/ size = 0)%nat -> (replace = true \/ size <= len)%nat ->
    length (pick len size replace) = size /\ Forall (fun i => (i < len)%nat) (pick len size replace) /\
    (replace = false -> NoDup (pick len size replace)).
Lemma nodup_map_nth (a : list nat) : NoDup a -> forall picks, NoDup picks -> Forall (fun i => (i < length a)%nat) picks -> NoDup (map (fun i => nth i a 0%nat) picks).
Proof.
  intros Na. induction picks as [|p picks IH]; intros Np F; [constructor|]. inversion Np; subst. inversion F; subst. cbn. constructor; [|apply IH; assumption].
  intros I. apply in_map_iff in I. destruct I as (q & E & I). assert (q = p); [|congruence]. apply (proj1 (NoDup_nth a 0%nat) Na); [rewrite Forall_forall in H4; apply H4; exact I|assumption|exact E].
Qed.
(** Soundness: the positive sample has the class of the sample, all others have another class;
    the requested number; no repetitions while there are enough. *)
Theorem C40_contrast :
  forall ragged mode num percent shuffle labels d neg_num ppick npick idx r, shuffles shuffle -> draws ppick -> draws npick ->
    parse ragged mode num percent shuffle labels = Ok d -> (idx < length labels)%nat ->
    let c := nth idx labels 0%nat in
    let a := nth c (c_neg d) [] in
    contrast mode neg_num d ppick npick idx = Ok r ->
    exists pos neg, r = pos :: neg /\ length neg = neg_num /\
      (pos < length labels)%nat /\ nth pos labels 0%nat = c /\ (mode = Exact -> pos = idx) /\
      (forall i, In i neg -> (i < length labels)%nat /\ nth i labels 0%nat <> c) /\
      ((neg_num <= length a)%nat -> NoDup neg).
Proof.
  intros ragged mode num percent shuffle labels d neg_num pp np idx r Sh Dp Dn E Hi c a R. destruct (parse_spec _ _ _ _ _ _ _ E) as (k & _ & F & Lb & Md & Ps & L & N).
  assert (Hc : (c < k)%nat) by (rewrite Forall_forall in F; apply F; apply nth_In; exact Hi). specialize (N c Hc). fold a in N.
  assert (Sub : forall i, In i a -> In i (negatives labels k c)).
  { intros i I. rewrite N in I. destruct (_ && _); [|exact I]. apply (Permutation_in _ (Permutation_sym (Sh c _))). rewrite <- (firstn_skipn (Z.to_nat (Qtrunc (inject_Z (Z.of_nat (others labels 0)) * percent)))). apply in_or_app. left. exact I. }
  assert (Nd : NoDup a).
  { rewrite N. destruct (_ && _); [|apply negatives_nodup]. assert (NP : NoDup (shuffle c (negatives labels k c))) by (apply (Permutation_NoDup (Sh c _)), negatives_nodup).
    revert NP. generalize (shuffle c (negatives labels k c)) as l. generalize (Z.to_nat (Qtrunc (inject_Z (Z.of_nat (others labels 0)) * percent))) as m.
    intros m l NP. rewrite <- (firstn_skipn m l) in NP. revert NP. generalize (skipn m l) as b. generalize (firstn m l) as a'. clear. induction a' as [|x a' IH]; intros b NP; [constructor|]. inversion NP; subst. constructor; [intros I; apply H1, in_or_app; left; exact I|apply (IH b); assumption]. }
  assert (PP : nth c (c_pos d) [] = positions labels c).
  { rewrite Ps. rewrite (nth_indep _ [] (positions labels 0)) by (rewrite map_length, seq_length; exact Hc). rewrite map_nth, seq_nth by exact Hc. reflexivity. }
  unfold contrast in R. rewrite Lb in R. fold c in R. fold a in R.
  assert (POS : exists pos, match mode with Exact => Ok idx | Random => do q <- choice (nth c (c_pos d) []) 1 true pp; Ok (hd 0%nat q) | OtherMode => Raise NotImplementedError end = Ok pos /\
      (pos < length labels)%nat /\ nth pos labels 0%nat = c /\ (mode = Exact -> pos = idx)).
  { destruct mode.
    - exists idx. auto.
    - rewrite PP. assert (Ln : (0 < length (positions labels c))%nat).
      { assert (I : In idx (positions labels c)) by (apply positions_in; auto). destruct (positions labels c); [destruct I|cbn; lia]. }
      destruct (Dp (length (positions labels c)) 1%nat true) as (L1 & F1 & _); [lia|auto|].
      unfold choice. set (pk := pp _ _ _) in *. clearbody pk. destruct pk as [|p [|]]; try discriminate L1. pose proof (Forall_inv F1) as Hp. cbv beta in Hp.
      destruct (Nat.eqb_spec (length (positions labels c)) 0); [lia|]. cbn [andb negb bind map hd]. exists (nth p (positions labels c) 0%nat). split; [reflexivity|].
      assert (I : In (nth p (positions labels c) 0%nat) (positions labels c)) by (apply nth_In; assumption). apply positions_in in I. destruct I. split; [assumption|]. split; [assumption|discriminate].
    - contradiction. }
  destruct POS as (pos & EP & P1 & P2 & P3). rewrite EP in R. cbn [bind] in R. unfold choice in R. destruct (Nat.eqb (length a) 0 && negb (Nat.eqb neg_num 0)) eqn:C1; [discriminate R|].
  destruct (negb _ && _) eqn:C2; [discriminate R|]. cbn [bind] in R. apply Ok_inj in R. subst r.
  destruct (Dn (length a) neg_num (Nat.ltb (length a) neg_num)) as (L2 & F2 & N2).
  { destruct (Nat.eqb_spec (length a) 0), (Nat.eqb_spec neg_num 0); try discriminate C1; lia. }
  { destruct (Nat.ltb_spec (length a) neg_num); [left; reflexivity|right; assumption]. }
  exists pos, (map (fun i => nth i a 0%nat) (np (length a) neg_num (Nat.ltb (length a) neg_num))).
  split; [reflexivity|]. split; [rewrite map_length; exact L2|]. split; [exact P1|]. split; [exact P2|]. split; [exact P3|]. split.
  - intros i I. apply in_map_iff in I. destruct I as (q & <- & I). rewrite Forall_forall in F2. specialize (F2 q I). assert (J : In (nth q a 0%nat) a) by (apply nth_In; exact F2). apply Sub, negatives_in in J. destruct J as (J1 & J2 & _). auto.
  - intros Le. apply nodup_map_nth; [exact Nd| |exact F2]. apply N2. apply Nat.ltb_ge. exact Le.
Qed.
Example C40_contrast_ex :
  exists d, parse false Random (Some 3%nat) 1%Q (fun _ l => l) [0; 1; 2; 0; 1; 2]%nat = Ok d /\ contrast Random 3 d (fun len size _ => rev (map (fun i => i mod len) (seq 0 size))%nat) (fun len size _ => rev (map (fun i => i mod len) (seq 0 size))%nat) 0 = Ok [0; 2; 4; 1]%nat /\
    draws (fun len size _ => rev (map (fun i => i mod len) (seq 0 size))%nat).
Proof. eexists. split; [reflexivity|]. split; [reflexivity|]. intros len size r A B. split; [rewrite rev_length, map_length, seq_length; reflexivity|]. split.
  - apply Forall_forall. intros i I. apply in_rev in I. apply in_map_iff in I. destruct I as (j & <- & J). apply in_seq in J. apply Nat.mod_upper_bound. lia.
  - intros ->. destruct B as [B|B]; [discriminate|]. apply NoDup_rev. rewrite (map_ext_in _ (fun i => i)); [rewrite map_id; apply seq_NoDup|].
    intros i I. apply in_seq in I. apply Nat.mod_small. lia. Qed.
(** Completeness: outside 0 < percent < 1 every sample of every other class is a candidate, once. *)
Theorem C40_eligible :
  forall ragged mode num percent shuffle labels d, ~ (0 < percent < 1)%Q -> parse ragged mode num percent shuffle labels = Ok d ->
    forall c, (c < length (c_neg d))%nat ->
      NoDup (nth c (c_neg d) []) /\ forall i, In i (nth c (c_neg d) []) <-> (i < length labels)%nat /\ nth i labels 0%nat <> c.
Proof.
  intros ragged mode num percent shuffle labels d Np E c Hc. destruct (parse_spec _ _ _ _ _ _ _ E) as (k & _ & F & _ & _ & _ & L & N). rewrite L in Hc. rewrite (N c Hc).
  assert (B : negb (Qle_bool percent 0) && negb (Qle_bool 1 percent) = false).
  { destruct (Qle_bool percent 0) eqn:A; [reflexivity|]. destruct (Qle_bool 1 percent) eqn:C; [reflexivity|]. exfalso. apply Np. split; apply Qnot_le_lt; intros H; apply Qle_bool_iff in H; congruence. }
  rewrite B. split; [apply negatives_nodup|]. intros i. rewrite negatives_in. split; [tauto|]. intros [A C]. split; [exact A|]. split; [exact C|]. rewrite Forall_forall in F. apply F, nth_In, A.
Qed.
Example C40_eligible_ex : exists d, parse true Exact None 1%Q (fun _ l => l) [2; 0; 2; 5]%nat = Ok d /\ c_neg d = [[0; 2; 3]; [1; 0; 2; 3]; [1; 3]; [1; 0; 2; 3]; [1; 0; 2; 3]; [1; 0; 2]]%nat.
Proof. eexists. split; reflexivity. Qed.
(** With numpy from 1.24 on, only data sets whose classes are equally large can be used at all. *)
Theorem C40_ragged :
  forall mode num percent shuffle labels d, parse false mode num percent shuffle labels = Ok d ->
    forall c c', (c < length (c_neg d))%nat -> (c' < length (c_neg d))%nat -> length (positions labels c) = length (positions labels c').
Proof.
  intros mode num percent shuffle labels d E c c' Hc Hc'. destruct (parse_spec _ _ _ _ _ _ _ E) as (k & K & _ & _ & _ & _ & L & _). rewrite L in Hc, Hc'.
  unfold parse in E. destruct (assert_ _); [|discriminate]. cbn [bind] in E. rewrite K in E. cbn [bind] in E. destruct (negb (forallb _ _)); [discriminate|].
  match type of E with bind ?x _ = _ => destruct x as [neg|]; [|discriminate] end. cbn [bind] in E. unfold asarray at 1 in E. cbn [orb] in E.
  destruct (forallb _ _) eqn:B in E; [|discriminate]. rewrite forallb_forall in B.
  assert (G : forall c, (c < k)%nat -> length (positions labels c) = length (hd [] (map (positions labels) (seq 0 k)))).
  { intros x Hx. apply Nat.eqb_eq, B. apply in_map_iff. exists x. split; [reflexivity|apply in_seq; lia]. }
  rewrite (G c Hc), (G c' Hc'). reflexivity.
Qed.
Example C40_ragged_ex : parse false Exact None 1%Q (fun _ l => l) [0; 0; 1]%nat = Raise ValueError /\ exists d, parse true Exact None 1%Q (fun _ l => l) [0; 0; 1]%nat = Ok d.
Proof. split; [reflexivity|eexists; reflexivity]. Qed.
(** Fetching: the data returned belong to the sample whose contrast information they carry; at most
    max_refetch + 1 attempts; an error only if all of them were broken. *)
Theorem C40_fetch :
  forall (A : Type) (prepare : nat -> nat -> outcome (option A)) another max_refetch idx,
    let sample t := match t with O => idx | S t => another t end in
    (forall t i a, getitem prepare another false max_refetch idx = Ok (t, i, a) ->
       (t <= max_refetch)%nat /\ i = sample t /\ prepare t i = Ok (Some a) /\ forall u, (u < t)%nat -> prepare u (sample u) = Ok None) /\
    ((forall t i, (t <= max_refetch)%nat -> exists o, prepare t i = Ok o) ->
     (exists e, getitem prepare another false max_refetch idx = Raise e) -> forall t, (t <= max_refetch)%nat -> prepare t (sample t) = Ok None).
Proof.
  intros A prepare another mx idx sample. unfold getitem.
  assert (G : forall rest t, let r := fetch prepare another rest t (sample t) in
    (forall t' i a, r = Ok (t', i, a) -> (t <= t' < t + rest)%nat /\ i = sample t' /\ prepare t' i = Ok (Some a) /\ forall u, (t <= u < t')%nat -> prepare u (sample u) = Ok None) /\
    ((forall t' i, (t <= t' < t + rest)%nat -> exists o, prepare t' i = Ok o) -> (exists e, r = Raise e) -> forall u, (t <= u < t + rest)%nat -> prepare u (sample u) = Ok None)).
  { induction rest as [|rest IH]; intros t; cbn [fetch]; cbv zeta.
    - split; [intros; discriminate|]. intros _ _ u Hu. lia.
    - destruct (IH (S t)) as [I1 I2]. change (sample (S t)) with (another t) in I1, I2. destruct (prepare t (sample t)) as [[a|]|e] eqn:P; cbn [bind].
      + split; [|intros _ [e H]; discriminate]. intros t' i a' H. inversion H; subst. split; [lia|]. split; [reflexivity|]. split; [exact P|]. intros u Hu. lia.
      + split.
        * intros t' i a' H. destruct (I1 t' i a' H) as (B & C & D & U). split; [lia|]. split; [exact C|]. split; [exact D|]. intros u Hu. destruct (Nat.eq_dec u t) as [->|]; [exact P|]. apply U. lia.
        * intros T H u Hu. destruct (Nat.eq_dec u t) as [->|]; [exact P|]. apply I2; [intros; apply T; lia|exact H|lia].
      + split; [intros; discriminate|]. intros T _. destruct (T t (sample t) ltac:(lia)) as [o O]. congruence. }
  destruct (G (S mx) 0%nat) as [G1 G2]. change (sample 0%nat) with idx in G1, G2. split.
  - intros t i a H. destruct (G1 t i a H) as (B & C & D & U). split; [lia|]. split; [exact C|]. split; [exact D|]. intros u Hu. apply U. lia.
  - intros T H t Ht. apply G2; [intros; apply T; lia|exact H|lia].
Qed.
Example C40_fetch_ex :
  getitem (fun _ i => Ok (if Nat.eqb i 5 then Some i else None)) (fun t => t + 4)%nat false 3 7 = Ok (2, 5, 5)%nat /\
  getitem (fun _ i => Ok (if Nat.eqb i 5 then Some i else None)) (fun t => t + 4)%nat false 1 7 = Raise GenericException.
Proof. split; reflexivity. Qed.
(** In test mode the sample asked for is the one returned, and a broken one is an error. *)
Theorem C40_test_mode :
  forall (A : Type) (prepare : nat -> nat -> outcome (option A)) another max_refetch idx,
    (forall r, getitem prepare another true max_refetch idx = Ok r <-> exists a, prepare 0%nat idx = Ok (Some a) /\ r = (0%nat, idx, a)) /\
    (prepare 0%nat idx = Ok None -> exists e, getitem prepare another true max_refetch idx = Raise e).
Proof.
  intros A prepare another mx idx. unfold getitem. destruct (prepare 0%nat idx) as [[a|]|e]; cbn [bind]; split.
  - intros r. split; [intros H; apply Ok_inj in H; eauto|intros (b & E & ->); congruence].
  - discriminate.
  - intros r. split; [discriminate|intros (b & E & _); discriminate].
  - eauto.
  - intros r. split; [discriminate|intros (b & E & _); discriminate].
  - discriminate.
Qed.
Example C40_test_mode_ex :
  let prepare := fun _ i => Ok (if Nat.eqb i 5 then Some i else None) in
  getitem prepare (fun _ => 5%nat) true 3 5 = Ok (0, 5, 5)%nat /\ getitem prepare (fun _ => 5%nat) true 3 7 = Raise GenericException /\
  getitem prepare (fun _ => 5%nat) false 3 7 = Ok (1, 5, 5)%nat.
Proof. repeat split. Qed.
Print Assumptions C40_test_mode.

Print Assumptions C40_percent_refuted.
Print Assumptions C40_percent_partial.
Print Assumptions C40_contrast.
Print Assumptions C40_eligible.
Print Assumptions C40_ragged.
Print Assumptions C40_fetch.
