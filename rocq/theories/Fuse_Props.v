(** * C163: DCFF mixes every kept filter with its neighbours, itself first *)
From Coq Require Import Reals Lra.
From Verif Require Import Prelude Dynamic_Model Fuse_Model.
Local Open Scope R_scope.

(** ** Specification *)
Fixpoint Sum (n : nat) (f : nat -> R) : R := match n with O => 0 | S m => Sum m f + f m end.
(** Entry [q] of filter [i]. *)
Definition entry (rows : list (list R)) (i q : nat) : R := nth q (nth i rows []) 0.
(** [c] has [f_out] filters of [f_cin * f_kh * f_kw] weights. *)
Definition numel (c : fconv) : nat := (f_cin c * f_kh c * f_kw c)%nat.
Definition shaped (c : fconv) : Prop :=
  length (f_rows c) = f_out c /\ (forall r, In r (f_rows c) -> length r = numel c) /\
  (forall b, f_bias c = Some b -> length b = f_out c).
(** Euclidean distance of two filters. *)
Definition euclid (c : fconv) (i j : nat) : R := sqrt (Sum (numel c) (fun q => (entry (f_rows c) i q - entry (f_rows c) j q) ^ 2)).
(** The share of filter [j] in the mixture for filter [i]. *)
Definition share (c : fconv) (tau : R) (i j : nat) : R :=
  exp (- euclid c i j / tau) / Sum (f_out c) (fun l => exp (- euclid c i l / tau)).
(** The score of filter [i]. *)
Definition score (c : fconv) (tau : R) (i : nat) : R :=
  Sum (f_out c) (fun k => share c tau i k *
    (ln (share c tau i k + / 10000000) - Sum (f_out c) (fun l => ln (share c tau k l + / 10000000)) / INR (f_out c))).
Definition is_topk (topk : list R -> nat -> list nat) : Prop :=
  forall v k, (k <= length v)%nat ->
    NoDup (topk v k) /\ length (topk v k) = k /\ (forall i, In i (topk v k) -> (i < length v)%nat) /\
    forall i j, In i (topk v k) -> ~ In j (topk v k) -> (j < length v)%nat -> nth j v 0 <= nth i v 0.
(** [ids] are [k] of the filters with the highest scores. *)
Definition best (c : fconv) (tau : R) (k : nat) (ids : list nat) : Prop :=
  NoDup ids /\ length ids = k /\ (forall i, In i ids -> (i < f_out c)%nat) /\
  forall i j, In i ids -> ~ In j ids -> (j < f_out c)%nat -> score c tau j <= score c tau i.

(** ** Sums *)
Lemma Sum_front n f : Sum (S n) f = f 0%nat + Sum n (fun i => f (S i)).
Proof. induction n as [|n IH]; cbn in *; [lra|]. rewrite IH. lra. Qed.
Lemma Sum_ext n f g : (forall i, (i < n)%nat -> f i = g i) -> Sum n f = Sum n g.
Proof. induction n as [|n IH]; intros H; cbn; [reflexivity|]. rewrite IH, (H n) by (intros; try apply H; lia). reflexivity. Qed.
Lemma Sum_scal n f a : Sum n (fun i => a * f i) = a * Sum n f.
Proof. induction n as [|n IH]; cbn; [lra|]. rewrite IH. lra. Qed.
Lemma Sum_plus n f g : Sum n (fun i => f i + g i) = Sum n f + Sum n g.
Proof. induction n as [|n IH]; cbn; [lra|]. rewrite IH. lra. Qed.
Lemma Sum_le n f g : (forall i, (i < n)%nat -> f i <= g i) -> Sum n f <= Sum n g.
Proof. induction n as [|n IH]; intros H; cbn; [lra|]. pose proof (H n ltac:(lia)). assert (Sum n f <= Sum n g) by (apply IH; intros; apply H; lia). lra. Qed.
Lemma Sum_pos n f : (0 < n)%nat -> (forall i, (i < n)%nat -> 0 < f i) -> 0 < Sum n f.
Proof.
  induction n as [|n IH]; intros Hn H; [lia|]. cbn. pose proof (H n ltac:(lia)). destruct n as [|n]; [cbn; lra|].
  assert (0 < Sum (S n) f) by (apply IH; [lia|intros; apply H; lia]). lra.
Qed.
Lemma Sum_ge n f i : (i < n)%nat -> (forall j, (j < n)%nat -> 0 <= f j) -> f i <= Sum n f.
Proof.
  induction n as [|n IH]; intros Hi H; [lia|]. cbn. pose proof (H n ltac:(lia)).
  assert (0 <= Sum n f). { clear -H. induction n as [|n IH]; cbn; [lra|]. pose proof (H n ltac:(lia)). assert (0 <= Sum n f) by (apply IH; intros; apply H; lia). lra. }
  destruct (Nat.eq_dec i n) as [->|]; [lra|]. assert (f i <= Sum n f) by (apply IH; [lia|intros; apply H; lia]). lra.
Qed.
Lemma Sum_abs n f : Rabs (Sum n f) <= Sum n (fun i => Rabs (f i)).
Proof. induction n as [|n IH]; cbn; [rewrite Rabs_R0; lra|]. pose proof (Rabs_triang (Sum n f) (f n)). lra. Qed.
Lemma Sum_const n a : Sum n (fun _ => a) = INR n * a.
Proof. induction n as [|n IH]; [cbn; lra|]. rewrite S_INR. cbn [Sum]. rewrite IH. lra. Qed.
Lemma rsum_Sum l : rsum l = Sum (length l) (fun i => nth i l 0).
Proof. induction l as [|x l IH]; [reflexivity|]. cbn [length]. rewrite Sum_front. cbn. rewrite <- IH. reflexivity. Qed.
Lemma nth_map {A B} (f : A -> B) (d : A) (e : B) l i : (i < length l)%nat -> nth i (map f l) e = f (nth i l d).
Proof. intros H. rewrite (nth_indep _ e (f d)) by (rewrite map_length; exact H). apply map_nth. Qed.
Lemma rsum_map {A} (f : A -> R) (d : A) l : rsum (map f l) = Sum (length l) (fun i => f (nth i l d)).
Proof. rewrite rsum_Sum, map_length. apply Sum_ext. intros i Hi. apply nth_map. exact Hi. Qed.
Lemma nth_combine {A B} (d : A) (e : B) : forall a b i, length a = length b -> nth i (combine a b) (d, e) = (nth i a d, nth i b e).
Proof. intros a b i H. apply combine_nth. exact H. Qed.

(** ** Shares *)
Lemma cdist_spec c i j : shaped c -> (i < f_out c)%nat -> (j < f_out c)%nat ->
  cdist (nth i (f_rows c) []) (nth j (f_rows c) []) = euclid c i j.
Proof.
  intros (L & Hr & _) Hi Hj. unfold cdist, euclid. f_equal.
  assert (Li : length (nth i (f_rows c) []) = numel c) by (apply Hr, nth_In; lia).
  assert (Lj : length (nth j (f_rows c) []) = numel c) by (apply Hr, nth_In; lia).
  rewrite (rsum_map _ (0, 0)), combine_length, Li, Lj, Nat.min_id. apply Sum_ext. intros q Hq.
  rewrite nth_combine by lia. reflexivity.
Qed.
Lemma softmax_spec l i : (i < length l)%nat -> nth i (softmax l) 0 = exp (nth i l 0) / Sum (length l) (fun j => exp (nth j l 0)).
Proof. intros H. unfold softmax. rewrite (nth_map _ 0) by exact H. rewrite (rsum_map _ 0). reflexivity. Qed.
Lemma softmaxp_row c tau i : shaped c -> (i < f_out c)%nat ->
  nth i (softmaxp (f_rows c) tau) [] = map (share c tau i) (seq 0 (f_out c)).
Proof.
  intros Hs Hi. pose proof Hs as (L & _). unfold softmaxp. rewrite (nth_map _ []) by lia.
  apply (nth_ext _ _ 0 0).
  - unfold softmax. rewrite !map_length, seq_length. exact L.
  - unfold softmax at 1. rewrite !map_length, L. intros j Hj.
    rewrite softmax_spec by (rewrite map_length; lia). rewrite (nth_map _ 0%nat) by (rewrite seq_length; exact Hj).
    rewrite seq_nth by exact Hj. cbn [plus]. unfold share. rewrite map_length, L. f_equal.
    + rewrite (nth_map _ []) by lia. rewrite cdist_spec by assumption. reflexivity.
    + apply Sum_ext. intros k Hk. rewrite (nth_map _ []) by lia. rewrite cdist_spec by assumption. reflexivity.
Qed.
Lemma softmaxp_length rows tau : length (softmaxp rows tau) = length rows.
Proof. apply map_length. Qed.
Lemma nth_shares c tau i j : (j < f_out c)%nat -> nth j (map (share c tau i) (seq 0 (f_out c))) 0 = share c tau i j.
Proof. intros H. rewrite (nth_map _ 0%nat) by (rewrite seq_length; exact H). rewrite seq_nth by exact H. reflexivity. Qed.

Lemma row_means_spec c tau k : shaped c -> (k < f_out c)%nat ->
  nth k (row_means (softmaxp (f_rows c) tau)) 0 = Sum (f_out c) (fun l => ln (share c tau k l + / 10000000)) / INR (f_out c).
Proof.
  intros Hs Hk. pose proof Hs as (L & _). unfold row_means. rewrite (nth_map _ []) by (rewrite softmaxp_length; lia).
  rewrite softmaxp_row by assumption. unfold mean. rewrite !map_length, seq_length. f_equal.
  rewrite (rsum_map _ 0), map_length, seq_length. apply Sum_ext. intros l Hl. rewrite nth_shares by exact Hl. reflexivity.
Qed.
Lemma iscore_spec c tau i : shaped c -> (i < f_out c)%nat ->
  nth i (iscore (softmaxp (f_rows c) tau)) 0 = score c tau i / INR (f_out c).
Proof.
  intros Hs Hi. pose proof Hs as (L & _). unfold iscore. rewrite (nth_map _ []) by (rewrite softmaxp_length; lia).
  cbv zeta. rewrite softmaxp_row by assumption. unfold mean.
  assert (Lm : length (row_means (softmaxp (f_rows c) tau)) = f_out c) by (unfold row_means; rewrite map_length, softmaxp_length; exact L).
  set (row := map (share c tau i) (seq 0 (f_out c))). assert (Lr : length row = f_out c) by (unfold row; rewrite map_length, seq_length; reflexivity).
  set (lp := map (fun x => x * ln (x + eps)) row). set (lq := map _ (combine row _)).
  assert (Lp : length lp = f_out c) by (unfold lp; rewrite map_length; exact Lr).
  assert (Lq : length lq = f_out c) by (unfold lq; rewrite map_length, combine_length, Lr, Lm; apply Nat.min_id).
  rewrite map_length, combine_length, Lp, Lq, Nat.min_id. f_equal. unfold score.
  rewrite (rsum_map _ (0, 0)), combine_length, Lp, Lq, Nat.min_id. apply Sum_ext. intros k Hk.
  rewrite nth_combine by lia. cbn [fst snd]. unfold lp, lq. rewrite (nth_map _ 0) by lia.
  rewrite (nth_map _ (0, 0)) by (rewrite combine_length; lia). rewrite nth_combine by lia. cbn [fst snd].
  rewrite row_means_spec by assumption. unfold row. rewrite nth_shares by exact Hk. unfold eps. ring.
Qed.

Lemma count_le (m : list bool) : (count_true m <= length m)%nat.
Proof. unfold count_true. induction m as [|[|] m IH]; cbn; lia. Qed.
(** What [get_pooled_channel] returns: the shares of the [k] best scored filters, [k] the number
    of channels kept. *)
Theorem C163_pooled : forall topk c tau m,
  is_topk topk -> shaped c -> f_out_mut c = Some m -> length m = f_out c ->
  exists ids, best c tau (count_true m) ids /\
    get_pooled topk c tau = Ok (map (fun i => map (share c tau i) (seq 0 (f_out c))) ids).
Proof.
  intros topk c tau m Ht Hs Hm Lm. pose proof Hs as (L & _). unfold get_pooled. rewrite Hm. cbv zeta. rewrite softmaxp_length.
  assert (K : (count_true m <= f_out c)%nat) by (rewrite <- Lm; apply count_le).
  replace (Nat.ltb (length (f_rows c)) (count_true m)) with false by (symmetry; apply Nat.ltb_ge; lia).
  assert (Li : length (iscore (softmaxp (f_rows c) tau)) = f_out c) by (unfold iscore; rewrite map_length, softmaxp_length; exact L).
  destruct (Ht (iscore (softmaxp (f_rows c) tau)) (count_true m) ltac:(lia)) as (Nd & Ln & Hr & Hb). rewrite Li in Hr.
  exists (topk (iscore (softmaxp (f_rows c) tau)) (count_true m)). split.
  - split; [exact Nd|]. split; [exact Ln|]. split; [exact Hr|]. intros i j Hi Hj Lj.
    pose proof (Hb i j Hi Hj ltac:(lia)) as H. rewrite !iscore_spec in H by (auto; lia).
    assert (0 < INR (f_out c)) by (apply lt_0_INR; lia).
    apply (Rmult_le_compat_r (INR (f_out c))) in H; [|lra]. unfold Rdiv in H. rewrite !Rmult_assoc, Rinv_l, !Rmult_1_r in H by lra. exact H.
  - f_equal. apply map_ext_in. intros i Hi. apply softmaxp_row; [exact Hs|apply Hr; exact Hi].
Qed.
Print Assumptions C163_pooled.

Lemma euclid_self c i : euclid c i i = 0.
Proof. unfold euclid. rewrite (Sum_ext _ _ (fun _ => 0)) by (intros; ring). rewrite Sum_const, Rmult_0_r. apply sqrt_0. Qed.
Lemma euclid_nonneg c i j : 0 <= euclid c i j.
Proof. apply sqrt_pos. Qed.
Lemma denom_pos c tau i : (0 < f_out c)%nat -> 0 < Sum (f_out c) (fun l => exp (- euclid c i l / tau)).
Proof. intros H. apply Sum_pos; [exact H|]. intros. apply exp_pos. Qed.

(** The shares of a mixture are positive and add up to 1; the filter itself has the largest
    share and nearer filters have larger shares than farther ones. *)
Theorem C163_shares : forall c tau i, 0 < tau -> (i < f_out c)%nat ->
  (forall j, 0 < share c tau i j) /\ Sum (f_out c) (share c tau i) = 1 /\
  (forall j, share c tau i j <= share c tau i i) /\
  (forall j k, euclid c i j <= euclid c i k <-> share c tau i k <= share c tau i j).
Proof.
  intros c tau i Ht Hi. pose proof (denom_pos c tau i ltac:(lia)) as D. set (d := Sum _ _) in D.
  assert (Mono : forall j k, euclid c i j <= euclid c i k <-> share c tau i k <= share c tau i j).
  { intros j k. unfold share. fold d. split; intros H.
    - apply Rmult_le_compat_r; [left; apply Rinv_0_lt_compat; exact D|].
      destruct H as [H|H]; [left; apply exp_increasing|right; rewrite H; reflexivity].
      apply Rmult_lt_compat_r; [apply Rinv_0_lt_compat; exact Ht|lra].
    - apply (Rmult_le_compat_r d) in H; [|lra]. unfold Rdiv in H. rewrite !Rmult_assoc, Rinv_l, !Rmult_1_r in H by lra.
      apply Rnot_lt_le. intros X. apply Rle_not_lt in H. apply H. apply exp_increasing.
      apply Rmult_lt_compat_r; [apply Rinv_0_lt_compat; exact Ht|lra]. }
  split; [|split; [|split]].
  - intros j. apply Rdiv_lt_0_compat; [apply exp_pos|exact D].
  - unfold share. fold d. rewrite (Sum_ext _ _ (fun j => / d * exp (- euclid c i j / tau))) by (intros; unfold Rdiv; ring).
    rewrite Sum_scal. fold d. apply Rinv_l. lra.
  - intros j. apply Mono. rewrite euclid_self. apply euclid_nonneg.
  - exact Mono.
Qed.
Print Assumptions C163_shares.

(** ** What mixing gives *)
(** Value [q] of the mixture for filter [i], for numbers [v j] of the filters [j]. *)
Definition mixed (c : fconv) (tau : R) (i : nat) (v : nat -> R) : R := Sum (f_out c) (fun j => share c tau i j * v j).
Theorem C163_convex : forall c tau i v lo hi, 0 < tau -> (i < f_out c)%nat ->
  (forall j, (j < f_out c)%nat -> lo <= v j <= hi) -> lo <= mixed c tau i v <= hi.
Proof.
  intros c tau i v lo hi Ht Hi Hv. destruct (C163_shares c tau i Ht Hi) as (P & S1 & _). unfold mixed.
  assert (E : forall a, a = Sum (f_out c) (fun j => share c tau i j * a)).
  { intros a. rewrite (Sum_ext _ _ (fun j => a * share c tau i j)) by (intros; ring). rewrite Sum_scal, S1. ring. }
  split; [rewrite (E lo)|rewrite (E hi)]; apply Sum_le; intros j Hj; specialize (P j); specialize (Hv j Hj); apply Rmult_le_compat_l; lra.
Qed.
Print Assumptions C163_convex.

(** At low temperatures mixing changes little: if every filter with another value is at least
    [delta] away, a value changes by at most the spread of the values times the number of
    filters times [exp (- delta / tau)]. *)
Theorem C163_sharp : forall c tau i v delta spread, 0 < tau -> (i < f_out c)%nat -> 0 <= spread ->
  (forall j, (j < f_out c)%nat -> v j <> v i -> delta <= euclid c i j) ->
  (forall j, (j < f_out c)%nat -> Rabs (v j - v i) <= spread) ->
  Rabs (mixed c tau i v - v i) <= INR (f_out c) * (exp (- delta / tau) * spread).
Proof.
  intros c tau i v delta spread Ht Hi H0 Hd Hs. destruct (C163_shares c tau i Ht Hi) as (P & S1 & _). unfold mixed.
  replace (Sum (f_out c) (fun j => share c tau i j * v j) - v i) with (Sum (f_out c) (fun j => share c tau i j * (v j - v i))).
  2: { rewrite (Sum_ext _ _ (fun j => share c tau i j * v j + - v i * share c tau i j)) by (intros; ring). rewrite Sum_plus, Sum_scal, S1. ring. }
  eapply Rle_trans; [apply Sum_abs|]. rewrite <- Sum_const. apply Sum_le. intros j Hj. rewrite Rabs_mult.
  rewrite (Rabs_right (share c tau i j)) by (specialize (P j); lra).
  destruct (Req_dec (v j) (v i)) as [E|N].
  - rewrite E, Rminus_diag_eq, Rabs_R0, Rmult_0_r by reflexivity. apply Rmult_le_pos; [left; apply exp_pos|exact H0].
  - apply Rmult_le_compat; [specialize (P j); lra|apply Rabs_pos| |apply Hs; exact Hj]. unfold share.
    pose proof (denom_pos c tau i ltac:(lia)) as D. set (d := Sum _ (fun l => exp _)) in *.
    assert (D1 : 1 <= d).
    { unfold d. pose proof (Sum_ge (f_out c) (fun l => exp (- euclid c i l / tau)) i Hi ltac:(intros; left; apply exp_pos)) as X. cbn beta in X.
      rewrite euclid_self in X. replace (- 0 / tau) with 0 in X by (unfold Rdiv; ring). rewrite exp_0 in X. exact X. }
    assert (E1 : exp (- euclid c i j / tau) <= exp (- delta / tau)).
    { specialize (Hd j Hj N). destruct Hd as [Hd|Hd]; [left; apply exp_increasing|right; rewrite Hd; reflexivity].
      apply Rmult_lt_compat_r; [apply Rinv_0_lt_compat; exact Ht|lra]. }
    apply Rle_trans with (exp (- euclid c i j / tau)); [|exact E1]. unfold Rdiv at 1.
    rewrite <- (Rmult_1_r (exp (- euclid c i j / tau))) at 2. apply Rmult_le_compat_l; [left; apply exp_pos|].
    rewrite <- Rinv_1. apply Rinv_le_contravar; lra.
Qed.
Print Assumptions C163_sharp.

(** Three filters with two weights, the first two equal; one channel kept. *)
Definition ex_conv : fconv :=
  {| f_in := 2; f_out := 3; f_groups := 1; f_cin := 2; f_kh := 1; f_kw := 1;
     f_rows := [[0; 0]; [0; 0]; [3; 4]]; f_bias := Some [1; 2; 3];
     f_in_mut := None; f_out_mut := Some [true; false; false] |}.
Example C163_example_shaped : shaped ex_conv.
Proof. split; [reflexivity|]. split; [intros r [<-|[<-|[<-|[]]]]; reflexivity|]. intros b H. injection H as <-. reflexivity. Qed.
Example C163_example : euclid ex_conv 0 2 = 5 /\ share ex_conv 1 0 0 = 1 / (2 + exp (-5)) /\ share ex_conv 1 2 2 = 1 / (1 + 2 * exp (-5)) /\
  mixed ex_conv 1 0 (fun j => entry (f_rows ex_conv) j 1) = 4 * exp (-5) / (2 + exp (-5)).
Proof.
  assert (D02 : euclid ex_conv 0 2 = 5).
  { unfold euclid, entry. cbn. match goal with |- sqrt ?x = _ => replace x with (5 * 5) by ring end. apply sqrt_square. lra. }
  assert (D12 : euclid ex_conv 1 2 = 5).
  { unfold euclid, entry. cbn. match goal with |- sqrt ?x = _ => replace x with (5 * 5) by ring end. apply sqrt_square. lra. }
  assert (D20 : euclid ex_conv 2 0 = 5).
  { unfold euclid, entry. cbn. match goal with |- sqrt ?x = _ => replace x with (5 * 5) by ring end. apply sqrt_square. lra. }
  assert (D21 : euclid ex_conv 2 1 = 5).
  { unfold euclid, entry. cbn. match goal with |- sqrt ?x = _ => replace x with (5 * 5) by ring end. apply sqrt_square. lra. }
  assert (D01 : euclid ex_conv 0 1 = 0).
  { unfold euclid, entry. cbn. match goal with |- sqrt ?x = _ => replace x with 0 by ring end. apply sqrt_0. }
  assert (Z0 : exp (- 0 / 1) = 1) by (replace (-0 / 1) with 0 by field; apply exp_0).
  assert (Z5 : exp (- (5) / 1) = exp (-5)) by (f_equal; field).
  pose proof (exp_pos (-5)) as P.
  split; [exact D02|]. unfold mixed, share. cbn [Sum f_out ex_conv]. rewrite D02, D01, D20, D21, !euclid_self, Z0, Z5.
  split; [f_equal; ring|]. split; [f_equal; ring|].
  unfold entry. cbn. field. lra.
Qed.

(** A convolution without a mutable for its output channels has no choice to give. *)
Theorem C163_unpruned : forall topk c tau, f_out_mut c = None -> get_pooled topk c tau = Raise KeyError.
Proof. intros topk c tau H. unfold get_pooled. rewrite H. reflexivity. Qed.
Print Assumptions C163_unpruned.
Example C163_unpruned_example : get_pooled (fun _ _ => [0%nat])
  {| f_in := 1; f_out := 1; f_groups := 1; f_cin := 1; f_kh := 1; f_kw := 1; f_rows := [[2]]; f_bias := None; f_in_mut := Some [true]; f_out_mut := None |} 1
  = Raise KeyError.
Proof. reflexivity. Qed.
