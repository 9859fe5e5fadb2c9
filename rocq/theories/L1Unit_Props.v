(** * C162: L1 units keep the filters with the largest mean absolute weights *)
From Coq Require Import Qabs Permutation Sorted.
From Verif Require Import Prelude PyNum Channel_Model Divisible_Model L1Unit_Model.

(** What PyTorch promises about topk: [k] different positions, and nothing larger is left out. *)
Definition is_topk (topk : list Q -> nat -> list nat) : Prop :=
  forall v k, (k <= length v)%nat ->
    NoDup (topk v k) /\ length (topk v k) = k /\ (forall i, In i (topk v k) -> (i < length v)%nat) /\
    forall i j, In i (topk v k) -> ~ In j (topk v k) -> (j < length v)%nat -> (nth j v 0 <= nth i v 0)%Q.

(** ** Specification *)
Fixpoint total (l : list Q) : Q := match l with [] => 0%Q | x :: r => (Qabs x + total r)%Q end.
(** The mean absolute weight of a filter. *)
Definition size (filter : list Q) : Q := (total filter / inject_Z (Z.of_nat (length filter)))%Q.
(** The layers with weights and their filters, one per output channel. *)
Definition filters (m : lmodule) : option (list (list Q)) :=
  match m with
  | LConv r | LLinear r => Some r
  | LTransposed w => Some (map (fun o => concat (map (fun i => nth o i []) w)) (seq 0 (length (hd [] w))))
  | LOther => None
  end.
Definition weighted (c : lchannel) : Prop := filters (c_module c) <> None.
(** The importance of channel [i] of a unit: the sizes of its filters, added up. *)
Fixpoint importance (cs : list lchannel) (i : nat) : Q :=
  match cs with
  | [] => 0%Q
  | c :: r => ((match filters (c_module c) with Some f => size (nth (c_start c + i) f []) | None => 0 end) + importance r i)%Q
  end.
(** Every layer with weights has [n] filters in the unit. *)
Definition whole (n : nat) (cs : list lchannel) : Prop :=
  forall c, In c cs -> match filters (c_module c) with
                       | Some f => c_end c = (c_start c + n)%nat /\ (c_end c <= length f)%nat
                       | None => True
                       end.
Definition untransposed (cs : list lchannel) : Prop :=
  forall c, In c cs -> match c_module c with LTransposed _ => False | _ => True end.
(** [mask] keeps [k] of [n] channels and none of those it drops is more important. *)
Definition keeps_top (mask : list bool) (n : nat) (k : Z) (imp : nat -> Q) : Prop :=
  length mask = n /\ Z.of_nat (count_true mask) = k /\
  forall i j, nth_error mask i = Some true -> nth_error mask j = Some false -> (imp j <= imp i)%Q.

(** ** Norms *)
Lemma qsum_total l : qsum (map Qabs l) = total l.
Proof. induction l as [|x l IH]; cbn; [reflexivity|]. rewrite <- IH. reflexivity. Qed.
Lemma abs_mean_size l : abs_mean l = size l.
Proof. unfold abs_mean, size. rewrite qsum_total. reflexivity. Qed.

Lemma nth_firstn_lt {A} (d : A) : forall n i l, (i < n)%nat -> nth i (firstn n l) d = nth i l d.
Proof. induction n as [|n IH]; intros i [|x l] H; cbn; try lia; try reflexivity; destruct i; cbn; try reflexivity. apply IH. lia. Qed.
Lemma nth_skipn {A} (d : A) : forall s i l, nth i (skipn s l) d = nth (s + i) l d.
Proof. induction s as [|s IH]; intros i l; [reflexivity|]. destruct l as [|x l]; cbn; [destruct i; reflexivity|apply IH]. Qed.

Lemma l1_norm_spec rows s n : (s + n <= length rows)%nat ->
  length (l1_norm rows s (s + n)) = n /\ forall i, (i < n)%nat -> nth i (l1_norm rows s (s + n)) 0%Q = size (nth (s + i) rows []).
Proof.
  intros H. unfold l1_norm. replace (s + n - s)%nat with n by lia.
  assert (L : length (firstn n (skipn s rows)) = n) by (rewrite firstn_length, skipn_length; lia).
  split; [rewrite map_length; exact L|]. intros i Hi.
  rewrite (nth_indep _ 0%Q (abs_mean [])) by (rewrite map_length; lia). rewrite map_nth, abs_mean_size, nth_firstn_lt, nth_skipn by lia. reflexivity.
Qed.

Definition weightedb (c : lchannel) : bool := match filters (c_module c) with Some _ => true | None => false end.
Lemma rows_filters c : match c_module c with LTransposed _ => False | _ => True end -> rows_of (c_module c) = filters (c_module c).
Proof. destruct (c_module c); cbn; tauto. Qed.

Lemma add_nth (a b : list Q) : length a = length b -> forall i,
  nth i (map (fun p => (fst p + snd p)%Q) (combine a b)) 0%Q == nth i a 0%Q + nth i b 0%Q.
Proof.
  revert b. induction a as [|x a IH]; intros [|y b] H i; cbn in *; try lia.
  - destruct i; reflexivity.
  - destruct i; [reflexivity|]. apply IH. lia.
Qed.
Lemma norm_some n : forall cs a m, whole n cs -> untransposed cs -> length a = n ->
  exists a', norm_loop cs (Some a) m = Ok (Some a', m + length (filter weightedb cs))%nat /\ length a' = n /\
    forall i, (i < n)%nat -> nth i a' 0%Q == nth i a 0%Q + importance cs i.
Proof.
  induction cs as [|c cs IH]; intros a m Hw Hu La; cbn [norm_loop importance filter].
  - exists a. cbn. rewrite Nat.add_0_r. split; [reflexivity|]. split; [exact La|]. intros i _. rewrite Qplus_0_r. reflexivity.
  - assert (Hw' : whole n cs) by (intros x Hx; apply Hw; right; exact Hx).
    assert (Hu' : untransposed cs) by (intros x Hx; apply Hu; right; exact Hx).
    pose proof (Hw c (or_introl eq_refl)) as Hc. rewrite rows_filters by (apply Hu; left; reflexivity).
    unfold weightedb at 1. destruct (filters (c_module c)) as [f|] eqn:F.
    + destruct Hc as [He Hl]. rewrite He. destruct (l1_norm_spec f (c_start c) n ltac:(lia)) as [L N].
      unfold add_norm. rewrite L, La, Nat.eqb_refl. cbn [bind].
      destruct (IH (map (fun p => (fst p + snd p)%Q) (combine a (l1_norm f (c_start c) (c_start c + n)))) (S m) Hw' Hu') as (a' & E & La' & Ha').
      { rewrite map_length, combine_length, La, L. lia. }
      exists a'. rewrite E. split; [do 2 f_equal; cbn; lia|]. split; [exact La'|].
      intros i Hi. rewrite (Ha' i Hi), add_nth by lia. rewrite N by exact Hi. rewrite Qplus_assoc. reflexivity.
    + destruct (IH a m Hw' Hu' La) as (a' & E & La' & Ha'). exists a'. split; [exact E|]. split; [exact La'|].
      intros i Hi. rewrite (Ha' i Hi). rewrite Qplus_0_l. reflexivity.
Qed.
Lemma norm_none n : forall cs, whole n cs -> untransposed cs -> (exists c, In c cs /\ weighted c) ->
  exists a m, norm_loop cs None 0 = Ok (Some a, S m) /\ length a = n /\ forall i, (i < n)%nat -> nth i a 0%Q == importance cs i.
Proof.
  induction cs as [|c cs IH]; intros Hw Hu [c0 [Hin Hc0]]; [destruct Hin|]. cbn [norm_loop importance].
  assert (Hw' : whole n cs) by (intros x Hx; apply Hw; right; exact Hx).
  assert (Hu' : untransposed cs) by (intros x Hx; apply Hu; right; exact Hx).
  pose proof (Hw c (or_introl eq_refl)) as Hc. rewrite rows_filters by (apply Hu; left; reflexivity).
  destruct (filters (c_module c)) as [f|] eqn:F.
  - destruct Hc as [He Hl]. rewrite He. destruct (l1_norm_spec f (c_start c) n ltac:(lia)) as [L N]. cbn [add_norm bind].
    destruct (norm_some n cs _ 1 Hw' Hu' L) as (a' & E & La' & Ha'). exists a', (length (filter weightedb cs)).
    rewrite E. split; [reflexivity|]. split; [exact La'|]. intros i Hi. rewrite (Ha' i Hi), N by exact Hi. reflexivity.
  - destruct Hin as [->|Hin]; [exfalso; apply Hc0; exact F|].
    destruct (IH Hw' Hu' (ex_intro _ c0 (conj Hin Hc0))) as (a & m & E & La & Ha). exists a, m.
    split; [exact E|]. split; [exact La|]. intros i Hi. rewrite (Ha i Hi), Qplus_0_l. reflexivity.
Qed.
Lemma norm_zero : forall cs, (forall c, In c cs -> ~ weighted c) -> norm_loop cs None 0 = Ok (None, 0%nat).
Proof.
  induction cs as [|c cs IH]; intros H; [reflexivity|]. cbn [norm_loop].
  pose proof (H c (or_introl eq_refl)) as Hc. unfold weighted in Hc.
  destruct (c_module c) as [r|r|w|] eqn:Em; cbn in Hc; try (exfalso; apply Hc; discriminate).
  cbn. apply IH. intros x Hx. apply H. right. exact Hx.
Qed.

(** ** Masks *)
Lemma count_mask (idx : list nat) n : NoDup idx -> (forall i, In i idx -> (i < n)%nat) ->
  count_true (map (fun i => existsb (Nat.eqb i) idx) (seq 0 n)) = length idx.
Proof.
  intros Hd Hr.
  assert (E : forall l, count_true (map (fun i => existsb (Nat.eqb i) idx) l) = length (filter (fun i => existsb (Nat.eqb i) idx) l)).
  { unfold count_true. induction l as [|x l IH]; [reflexivity|]. cbn. destruct (existsb (Nat.eqb x) idx); cbn; rewrite IH; reflexivity. }
  rewrite E. apply Nat.le_antisymm; apply NoDup_incl_length.
  - apply NoDup_filter, seq_NoDup.
  - intros x Hx. apply filter_In in Hx as [_ Hx]. apply existsb_exists in Hx as (y & Hy & Ey). apply Nat.eqb_eq in Ey. subst. exact Hy.
  - exact Hd.
  - intros x Hx. apply filter_In. split; [apply in_seq; specialize (Hr x Hx); lia|]. apply existsb_exists. exists x. split; [exact Hx|apply Nat.eqb_refl].
Qed.
Lemma mask_nth idx n i b : nth_error (map (fun i => existsb (Nat.eqb i) idx) (seq 0 n)) i = Some b ->
  (i < n)%nat /\ (b = true <-> In i idx).
Proof.
  intros H. assert (Hi : (i < n)%nat).
  { assert (i < length (map (fun i => existsb (Nat.eqb i) idx) (seq 0 n)))%nat by (apply nth_error_Some; rewrite H; discriminate).
    rewrite map_length, seq_length in *. assumption. }
  split; [exact Hi|]. rewrite nth_error_map in H. rewrite (nth_error_nth' _ 0%nat) in H by (rewrite seq_length; exact Hi).
  rewrite seq_nth in H by exact Hi. cbn in H. injection H as <-. rewrite existsb_exists. split.
  - intros (y & Hy & Ey). apply Nat.eqb_eq in Ey. subst. exact Hy.
  - intros Hy. exists i. split; [exact Hy|apply Nat.eqb_refl].
Qed.

(** ** Theorems *)
Lemma div_pos_le x y n : (0 < n)%nat -> (x / inject_Z (Z.of_nat n) <= y / inject_Z (Z.of_nat n) -> x <= y)%Q.
Proof.
  intros Hn H. assert (P : (0 < inject_Z (Z.of_nat n))%Q) by (change 0%Q with (inject_Z 0); rewrite <- Zlt_Qlt; lia).
  apply (Qmult_le_compat_r _ _ (inject_Z (Z.of_nat n))) in H; [|apply Qlt_le_weak; exact P].
  unfold Qdiv in H. rewrite <- !Qmult_assoc in H. rewrite (Qmult_comm (/ _)%Q), Qmult_inv_r in H.
  - rewrite !Qmult_1_r in H. exact H.
  - intros E. rewrite E in P. apply Qlt_irrefl in P. exact P.
Qed.

(** Full claim: every choice between 1 and the number of channels can be set. *)
Definition C162_range_claim : Prop := forall topk u cs ch k,
  is_topk topk -> (0 < u_div u) -> (0 <= u_ratio u <= 1)%Q ->
  whole (u_n u) cs -> untransposed cs -> (exists c, In c cs /\ weighted c) ->
  1 <= k <= Z.of_nat (u_n u) -> exists ch', l1_set topk u cs ch (NInt k) = Ok ch'.

(** What does hold: a choice is rounded to [k] channels; up to the number of channels the unit
    keeps [k] of the most important ones, otherwise setting raises. *)
Theorem C162_keeps_partial : forall topk u cs ch choice k,
  is_topk topk -> whole (u_n u) cs -> untransposed cs -> (exists c, In c cs /\ weighted c) ->
  valid_int_choice u choice = Ok k ->
  (0 <= k <= Z.of_nat (u_n u) -> exists ch', l1_set topk u cs ch choice = Ok ch' /\ s_fixed ch' = s_fixed ch /\
     keeps_top (s_mask ch') (u_n u) k (importance cs)) /\
  (k < 0 \/ Z.of_nat (u_n u) < k -> l1_set topk u cs ch choice = Raise RuntimeError).
Proof.
  intros topk u cs ch choice k Ht Hw Hu Hx Hk. unfold l1_set. rewrite Hk. cbn [bind]. unfold generate_mask, unit_norm.
  destruct (norm_none (u_n u) cs Hw Hu Hx) as (a & m & E & La & Ha). rewrite E. cbn [bind].
  set (v := map (fun x => (x / inject_Z (Z.of_nat (S m)))%Q) a).
  assert (Lv : length v = u_n u) by (unfold v; rewrite map_length; exact La). rewrite Lv. split.
  - intros [K0 K1]. replace ((k <? 0) || (Z.of_nat (u_n u) <? k)) with false by (symmetry; apply orb_false_iff; split; apply Z.ltb_ge; lia).
    destruct (Ht v (Z.to_nat k) ltac:(rewrite Lv; lia)) as (Nd & Ln & Hr & Hb).
    assert (F : forallb (fun i => Nat.ltb i (u_n u)) (topk v (Z.to_nat k)) = true).
    { apply forallb_forall. intros i Hi. apply Nat.ltb_lt. rewrite <- Lv. apply Hr. exact Hi. }
    rewrite F. eexists. split; [reflexivity|]. split; [reflexivity|]. cbn [s_mask simple_set]. split; [|split].
    + rewrite map_length, seq_length. reflexivity.
    + rewrite count_mask; [rewrite Ln; lia|exact Nd|]. intros i Hi. rewrite <- Lv. apply Hr. exact Hi.
    + intros i j Hi Hj. apply mask_nth in Hi as [Li Hi]. apply mask_nth in Hj as [Lj Hj].
      assert (Ii : In i (topk v (Z.to_nat k))) by (apply Hi; reflexivity).
      assert (Nj : ~ In j (topk v (Z.to_nat k))) by (intros X; apply Hj in X; discriminate).
      pose proof (Hb i j Ii Nj ltac:(rewrite Lv; exact Lj)) as H.
      rewrite <- (Ha i Li), <- (Ha j Lj). apply (div_pos_le _ _ (S m)); [lia|].
      assert (G : forall x, (x < u_n u)%nat -> nth x v 0%Q = (nth x a 0 / inject_Z (Z.of_nat (S m)))%Q).
      { intros x X. unfold v. rewrite (nth_indep _ 0%Q (0 / inject_Z (Z.of_nat (S m)))%Q) by (rewrite map_length; lia). rewrite (map_nth (fun x => (x / inject_Z (Z.of_nat (S m)))%Q)). reflexivity. }
      rewrite <- (G i Li), <- (G j Lj). exact H.
  - intros H. replace ((k <? 0) || (Z.of_nat (u_n u) <? k)) with true; [reflexivity|]. symmetry. apply orb_true_iff. rewrite !Z.ltb_lt. tauto.
Qed.
Print Assumptions C162_keeps_partial.

(** A topk. *)
Fixpoint insert_top (v : list Q) (i : nat) (l : list nat) : list nat :=
  match l with
  | [] => [i]
  | j :: r => if Qle_bool (nth j v 0%Q) (nth i v 0%Q) then i :: l else j :: insert_top v i r
  end.
Definition some_topk (v : list Q) (k : nat) : list nat := firstn k (fold_right (insert_top v) [] (seq 0 (length v))).
Lemma insert_perm v i l : Permutation.Permutation (insert_top v i l) (i :: l).
Proof.
  induction l as [|j l IH]; cbn; [reflexivity|]. destruct (Qle_bool _ _); [reflexivity|].
  rewrite IH. apply Permutation.perm_swap.
Qed.
Lemma sort_perm v l : Permutation.Permutation (fold_right (insert_top v) [] l) l.
Proof. induction l as [|i l IH]; cbn; [reflexivity|]. rewrite insert_perm, IH. reflexivity. Qed.
Definition desc (v : list Q) := Sorted.StronglySorted (fun i j => (nth j v 0 <= nth i v 0)%Q).
Lemma insert_desc v i l : desc v l -> desc v (insert_top v i l).
Proof.
  induction 1 as [|j l Hl IH Hj]; cbn; [repeat constructor|]. destruct (Qle_bool (nth j v 0%Q) (nth i v 0%Q)) eqn:E.
  - apply Qle_bool_iff in E. constructor; [constructor; assumption|]. constructor; [exact E|].
    eapply Forall_impl; [|exact Hj]. cbn. intros x Hx. eapply Qle_trans; eassumption.
  - constructor; [exact IH|]. apply (Permutation.Permutation_Forall (Permutation.Permutation_sym (insert_perm v i l))).
    constructor; [|exact Hj]. apply Qlt_le_weak. apply Qnot_le_lt. intros X. apply Qle_bool_iff in X. congruence.
Qed.
Lemma sort_desc v l : desc v (fold_right (insert_top v) [] l).
Proof. induction l as [|i l IH]; cbn; [constructor|]. apply insert_desc. exact IH. Qed.
Lemma desc_split v l1 l2 i j : desc v (l1 ++ l2) -> In i l1 -> In j l2 -> (nth j v 0 <= nth i v 0)%Q.
Proof.
  induction l1 as [|x l1 IH]; intros H Hi Hj; [destruct Hi|]. inversion H as [|? ? H1 H2]; subst.
  destruct Hi as [->|Hi]; [|apply IH; assumption]. rewrite Forall_forall in H2. apply H2. apply in_or_app. right. exact Hj.
Qed.
Lemma some_topk_is : is_topk some_topk.
Proof.
  intros v k Hk. unfold some_topk. set (s := fold_right (insert_top v) [] (seq 0 (length v))).
  pose proof (sort_perm v (seq 0 (length v))) as P. fold s in P.
  assert (Nd : NoDup s) by (apply (Permutation.Permutation_NoDup (Permutation.Permutation_sym P)), seq_NoDup).
  assert (Ls : length s = length v) by (rewrite (Permutation.Permutation_length P); apply seq_length).
  pose proof (firstn_skipn k s) as FS. split; [|split; [|split]].
  - rewrite <- FS in Nd. clear -Nd. induction (firstn k s) as [|x l IH]; [constructor|]. inversion Nd; subst. constructor; [|apply IH; assumption].
    intros X. apply H1. apply in_or_app. left. exact X.
  - rewrite firstn_length. lia.
  - intros i Hi. assert (X : In i s) by (rewrite <- FS; apply in_or_app; left; exact Hi). apply (Permutation.Permutation_in _ P) in X. apply in_seq in X. lia.
  - intros i j Hi Hj Lj. apply (desc_split v (firstn k s) (skipn k s)); [rewrite FS; apply sort_desc|exact Hi|].
    assert (X : In j s) by (apply (Permutation.Permutation_in _ (Permutation.Permutation_sym P)), in_seq; lia).
    rewrite <- FS in X. apply in_app_or in X as [X|X]; [contradiction|exact X].
Qed.

(** Two layers of three filters: the filters of both count. *)
Example C162_keeps_example :
  let cs := [ {| c_module := LConv [[1%Q; (-1)%Q]; [5%Q; 0%Q]; [(-2)%Q; 2%Q]]; c_start := 0; c_end := 3 |};
              {| c_module := LOther; c_start := 0; c_end := 3 |};
              {| c_module := LLinear [[7%Q]; [(-9)%Q]; [0%Q]; [1%Q]]; c_start := 1; c_end := 4 |} ] in
  let u := {| u_n := 3; u_num := true; u_div := 1; u_min := 1; u_ratio := 9 # 10 |} in
  whole 3 cs /\ untransposed cs /\
  l1_set some_topk u cs (new_simple_channel 3) (NInt 1) = Ok {| s_mask := [true; false; false]; s_fixed := false |} /\
  l1_set some_topk u cs (new_simple_channel 3) (NInt 2) = Ok {| s_mask := [true; false; true]; s_fixed := false |}.
Proof.
  cbv zeta. split; [intros c [<-|[<-|[<-|[]]]]; cbn; auto; lia|]. split; [intros c [<-|[<-|[<-|[]]]]; exact I|]. vm_compute. auto.
Qed.

(** 10 channels with divisor 8: choosing all 10 becomes 16. *)
Theorem C162_range_refuted : ~ C162_range_claim.
Proof.
  intros H. set (cs := [{| c_module := LLinear (repeat [1%Q] 10); c_start := 0; c_end := 10 |}]).
  destruct (H some_topk {| u_n := 10; u_num := true; u_div := 8; u_min := 1; u_ratio := 9 # 10 |} cs (new_simple_channel 10) 10 some_topk_is) as [ch' E].
  - cbn. lia.
  - cbn. split; vm_compute; discriminate.
  - intros c [<-|[]]. cbn. lia.
  - intros c [<-|[]]. exact I.
  - eexists. split; [left; reflexivity|discriminate].
  - cbn. lia.
  - vm_compute in E. discriminate.
Qed.
Print Assumptions C162_range_refuted.

(** Full claim: the same with transposed convolutions in the unit. *)
Definition C162_transposed_claim : Prop := forall topk u cs ch k ch',
  is_topk topk -> whole (u_n u) cs -> (exists c, In c cs /\ weighted c) ->
  valid_int_choice u (NInt k) = Ok k -> 0 <= k <= Z.of_nat (u_n u) ->
  l1_set topk u cs ch (NInt k) = Ok ch' -> keeps_top (s_mask ch') (u_n u) k (importance cs).
(** Two inputs and two outputs; the first output has the larger weights, but the unit looks at
    the weights of the second input and keeps the second output. *)
Theorem C162_transposed_refuted : ~ C162_transposed_claim.
Proof.
  intros H. set (cs := [{| c_module := LTransposed [[[3%Q]; [1%Q]]; [[5%Q]; [1%Q]]]; c_start := 0; c_end := 2 |}]).
  specialize (H some_topk {| u_n := 2; u_num := true; u_div := 1; u_min := 1; u_ratio := 9 # 10 |} cs (new_simple_channel 2) 1 {| s_mask := [false; true]; s_fixed := false |} some_topk_is).
  destruct H as (_ & _ & H).
  - intros c [<-|[]]. cbn. lia.
  - eexists. split; [left; reflexivity|discriminate].
  - vm_compute. reflexivity.
  - cbn. lia.
  - vm_compute. reflexivity.
  - specialize (H 1%nat 0%nat eq_refl eq_refl). vm_compute in H. apply H. reflexivity.
Qed.
Print Assumptions C162_transposed_refuted.

(** Reading the choice gives the number of channels kept, or its ratio. *)
Theorem C162_read : forall topk u cs ch choice k ch',
  is_topk topk -> whole (u_n u) cs -> untransposed cs -> (exists c, In c cs /\ weighted c) ->
  valid_int_choice u choice = Ok k -> l1_set topk u cs ch choice = Ok ch' ->
  l1_get u ch' = if u_num u then Ok (NInt k) else num2ratio (u_n u) k.
Proof.
  intros topk u cs ch choice k ch' Ht Hw Hu Hx Hk Hs.
  destruct (C162_keeps_partial topk u cs ch choice k Ht Hw Hu Hx Hk) as [A B].
  destruct (Z.lt_ge_cases k 0) as [K|K]; [rewrite B in Hs by (left; exact K); discriminate|].
  destruct (Z.lt_ge_cases (Z.of_nat (u_n u)) k) as [K'|K']; [rewrite B in Hs by (right; exact K'); discriminate|].
  destruct A as (c & E & _ & _ & C & _); [lia|]. rewrite E in Hs. apply Ok_inj in Hs. subst c.
  unfold l1_get. rewrite C. reflexivity.
Qed.
Print Assumptions C162_read.
Example C162_read_example :
  let cs := [ {| c_module := LConv [[1%Q; (-1)%Q]; [5%Q; 0%Q]; [(-2)%Q; 2%Q]; [0%Q; 0%Q]]; c_start := 0; c_end := 4 |} ] in
  let u := {| u_n := 4; u_num := true; u_div := 2; u_min := 1; u_ratio := 9 # 10 |} in
  exists ch, l1_set some_topk u cs (new_simple_channel 4) (NInt 1) = Ok ch /\ l1_get u ch = Ok (NInt 2).
Proof. cbv zeta. eexists. split; vm_compute; reflexivity. Qed.

(** If no two channels are equally important, a smaller choice keeps a part of what a larger
    one keeps, whatever was chosen before. *)
Theorem C162_nested : forall topk u cs ch1 ch2 choice1 choice2 k1 k2 ch1' ch2',
  is_topk topk -> whole (u_n u) cs -> untransposed cs -> (exists c, In c cs /\ weighted c) ->
  (forall i j, (i < u_n u)%nat -> (j < u_n u)%nat -> i <> j -> ~ importance cs i == importance cs j) ->
  valid_int_choice u choice1 = Ok k1 -> valid_int_choice u choice2 = Ok k2 -> k1 <= k2 ->
  l1_set topk u cs ch1 choice1 = Ok ch1' -> l1_set topk u cs ch2 choice2 = Ok ch2' ->
  forall i, nth_error (s_mask ch1') i = Some true -> nth_error (s_mask ch2') i = Some true.
Proof.
  intros topk u cs ch1 ch2 c1 c2 k1 k2 ch1' ch2' Ht Hw Hu Hx Hdist Hk1 Hk2 Hle Hs1 Hs2 i Hi.
  assert (X : forall ch c k ch', valid_int_choice u c = Ok k -> l1_set topk u cs ch c = Ok ch' -> keeps_top (s_mask ch') (u_n u) k (importance cs)).
  { intros ch c k ch' Hk Hs. destruct (C162_keeps_partial topk u cs ch c k Ht Hw Hu Hx Hk) as [A B].
    destruct (Z.lt_ge_cases k 0) as [K|K]; [rewrite B in Hs by (left; exact K); discriminate|].
    destruct (Z.lt_ge_cases (Z.of_nat (u_n u)) k) as [K'|K']; [rewrite B in Hs by (right; exact K'); discriminate|].
    destruct A as (c' & E & _ & A); [lia|]. rewrite E in Hs. apply Ok_inj in Hs. subst c'. exact A. }
  destruct (X _ _ _ _ Hk1 Hs1) as (L1 & C1 & B1). destruct (X _ _ _ _ Hk2 Hs2) as (L2 & C2 & B2). clear X.
  assert (Li : (i < u_n u)%nat) by (rewrite <- L1; apply nth_error_Some; rewrite Hi; discriminate).
  destruct (nth_error (s_mask ch2') i) as [[|]|] eqn:E; [reflexivity| |apply nth_error_None in E; lia]. exfalso.
  (* everything kept by the second choice is kept by the first, and [i] besides *)
  assert (Sub : forall j, nth_error (s_mask ch2') j = Some true -> nth_error (s_mask ch1') j = Some true).
  { intros j Hj. assert (Lj : (j < u_n u)%nat) by (rewrite <- L2; apply nth_error_Some; rewrite Hj; discriminate).
    destruct (nth_error (s_mask ch1') j) as [[|]|] eqn:F; [reflexivity| |apply nth_error_None in F; lia]. exfalso.
    assert (i <> j) by (intros ->; congruence). apply (Hdist i j Li Lj H).
    apply Qle_antisym; [apply (B2 j i Hj E)|apply (B1 i j Hi F)]. }
  assert (P : forall a b : list bool, length a = length b -> (forall j, nth_error b j = Some true -> nth_error a j = Some true) ->
     nth_error a i = Some true -> nth_error b i = Some false -> (count_true b < count_true a)%nat).
  { assert (Q0 : forall a b : list bool, length a = length b -> (forall j, nth_error b j = Some true -> nth_error a j = Some true) -> (count_true b <= count_true a)%nat).
    { induction a as [|x a IH]; intros [|y b] Hl Hs; cbn in Hl; try lia.
      assert (Hs' : forall j, nth_error b j = Some true -> nth_error a j = Some true) by (intros j; apply (Hs (S j))).
      specialize (IH b ltac:(lia) Hs'). pose proof (Hs 0%nat) as H0. cbn in H0. unfold count_true in *. cbn.
      destruct y; [assert (Some x = Some true) as Y by auto; injection Y as ->; cbn; lia|]. destruct x; cbn; lia. }
    clear - Q0. revert i. intros i a. revert i. induction a as [|x a IH]; intros i [|y b] Hl Hs Ha Hb; cbn in Hl; try lia; [destruct i; discriminate|].
    assert (Hs' : forall j, nth_error b j = Some true -> nth_error a j = Some true) by (intros j; apply (Hs (S j))).
    pose proof (Hs 0%nat) as H0. cbn in H0. destruct i as [|i]; cbn in Ha, Hb.
    - injection Ha as ->. injection Hb as ->. specialize (Q0 a b ltac:(lia) Hs'). unfold count_true in *. cbn. lia.
    - specialize (IH i b ltac:(lia) Hs' Ha Hb). unfold count_true in *. cbn.
      destruct y; [assert (Some x = Some true) as Y by auto; injection Y as ->; cbn; lia|]. destruct x; cbn; lia. }
  specialize (P (s_mask ch1') (s_mask ch2') ltac:(lia) Sub Hi E). lia.
Qed.
Print Assumptions C162_nested.
Example C162_nested_example :
  let cs := [ {| c_module := LConv [[1%Q; (-1)%Q]; [5%Q; 0%Q]; [(-2)%Q; 2%Q]; [0%Q; 0%Q]]; c_start := 0; c_end := 4 |} ] in
  let u := {| u_n := 4; u_num := true; u_div := 1; u_min := 1; u_ratio := 9 # 10 |} in
  (forall i j, (i < 4)%nat -> (j < 4)%nat -> i <> j -> ~ importance cs i == importance cs j) /\
  l1_set some_topk u cs (new_simple_channel 4) (NInt 1) = Ok {| s_mask := [false; true; false; false]; s_fixed := false |} /\
  l1_set some_topk u cs (new_simple_channel 4) (NInt 3) = Ok {| s_mask := [true; true; true; false]; s_fixed := false |}.
Proof.
  cbv zeta. split; [|vm_compute; auto]. intros [|[|[|[|i]]]] [|[|[|[|j]]]] Hi Hj D; try lia; vm_compute; discriminate.
Qed.

(** A unit whose outputs come from no convolution or linear layer cannot be set at all. *)
Theorem C162_none : forall topk u cs ch choice k,
  (forall c, In c cs -> ~ weighted c) -> valid_int_choice u choice = Ok k ->
  l1_set topk u cs ch choice = Raise ZeroDivisionError.
Proof. intros topk u cs ch choice k H Hk. unfold l1_set, generate_mask, unit_norm. rewrite Hk, norm_zero by exact H. reflexivity. Qed.
Print Assumptions C162_none.
Example C162_none_example :
  l1_set some_topk {| u_n := 4; u_num := true; u_div := 1; u_min := 1; u_ratio := 9 # 10 |}
    [{| c_module := LOther; c_start := 0; c_end := 4 |}] (new_simple_channel 4) (NInt 4) = Raise ZeroDivisionError.
Proof. vm_compute. reflexivity. Qed.
