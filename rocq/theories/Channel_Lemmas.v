(** Lemmas about the channel and value mutables. *)
From Verif Require Import Prelude PyNum Channel_Model.
From Coq Require Import Sorting.Permutation.

Lemma count_true_app a b : count_true (a ++ b) = (count_true a + count_true b)%nat.
Proof. unfold count_true. rewrite filter_app, app_length. reflexivity. Qed.
Lemma count_true_repeat_true k : count_true (repeat true k) = k.
Proof. unfold count_true. induction k; cbn; congruence. Qed.
Lemma count_true_repeat_false k : count_true (repeat false k) = 0%nat.
Proof. unfold count_true. induction k; cbn; congruence. Qed.
Lemma count_true_le m : (count_true m <= length m)%nat.
Proof. unfold count_true. induction m as [|[] m IH]; cbn in *; lia. Qed.

Global Arguments count_true : simpl never.
Global Arguments leading : simpl never.
Global Arguments slice_stop : simpl never.

Lemma slice_stop_le len stop : (slice_stop len stop <= len)%nat.
Proof. unfold slice_stop. destruct (stop <? 0) eqn:E; lia. Qed.
Lemma slice_stop_in len stop : 0 <= stop <= Z.of_nat len -> slice_stop len stop = Z.to_nat stop.
Proof. unfold slice_stop. intros H. destruct (stop <? 0) eqn:E; lia. Qed.

Lemma leading_length len stop : length (leading len stop) = len.
Proof.
  unfold leading. rewrite app_length, !repeat_length.
  pose proof (slice_stop_le len stop). lia.
Qed.
Lemma leading_count len stop : count_true (leading len stop) = slice_stop len stop.
Proof.
  unfold leading. rewrite count_true_app, count_true_repeat_true, count_true_repeat_false. lia.
Qed.
Lemma leading_nth len stop i :
  nth_error (leading len stop) i =
  if Nat.ltb i (slice_stop len stop) then Some true
  else if Nat.ltb i len then Some false else None.
Proof.
  unfold leading. pose proof (slice_stop_le len stop) as Hs.
  destruct (Nat.ltb_spec i (slice_stop len stop)).
  - rewrite nth_error_app1 by (rewrite repeat_length; lia). apply nth_error_repeat; lia.
  - rewrite nth_error_app2 by (rewrite repeat_length; lia). rewrite repeat_length.
    destruct (Nat.ltb_spec i len).
    + apply nth_error_repeat. lia.
    + apply nth_error_None. rewrite repeat_length. lia.
Qed.

Lemma seq_set_ok c v c' :
  seq_set c v = Ok c' ->
  q_n c' = q_n c /\ q_num c' = q_num c /\ q_fixed c' = q_fixed c /\
  length (q_mask c') = length (q_mask c) /\
  exists k, q_mask c' = leading (length (q_mask c)) k.
Proof.
  unfold seq_set. intros H.
  destruct (match v with NInt z => Ok z | NFloat _ => ratio2num (q_n c) v end) as [k|e];
    [|discriminate]. cbn [bind] in H. inversion H; subst. cbn.
  rewrite leading_length. repeat split; eauto.
Qed.

Lemma leading_idem len stop :
  leading len (Z.of_nat (count_true (leading len stop))) = leading len stop.
Proof.
  rewrite leading_count. unfold leading. pose proof (slice_stop_le len stop) as H.
  rewrite (slice_stop_in len (Z.of_nat (slice_stop len stop))) by lia.
  rewrite Nat2Z.id. reflexivity.
Qed.

Lemma num_eqb_refl x : num_val x <> None -> num_eqb x x = true.
Proof.
  unfold num_eqb. destruct (num_val x) as [q|]; [|congruence]. intros _.
  apply Qeq_bool_iff. reflexivity.
Qed.

Lemma num_in_In x l : num_val x <> None -> In x l -> num_in x l = true.
Proof.
  intros Hv Hin. unfold num_in. apply existsb_exists. exists x. split; [exact Hin|].
  apply num_eqb_refl; exact Hv.
Qed.

Lemma num_insert_perm x l : Permutation (num_insert x l) (x :: l).
Proof.
  induction l as [|y r IH]; cbn; [reflexivity|].
  destruct (num_leb x y); [reflexivity|]. rewrite IH. apply perm_swap.
Qed.
Lemma num_sort_perm l : Permutation (num_sort l) l.
Proof.
  induction l as [|x r IH]; cbn; [reflexivity|].
  change (fold_right num_insert [] r) with (num_sort r).
  rewrite num_insert_perm, IH. reflexivity.
Qed.
Lemma num_sort_length l : length (num_sort l) = length l.
Proof. apply Permutation_length, num_sort_perm. Qed.

(** upd *)
Lemma upd_length {A} (l : list A) i x : length (upd l i x) = length l.
Proof.
  unfold upd. rewrite app_length, firstn_length.
  destruct (Nat.ltb_spec i (length l)); cbn [length]; rewrite ?skipn_length; lia.
Qed.
Lemma upd_same {A} (l : list A) i x : (i < length l)%nat -> nth_error (upd l i x) i = Some x.
Proof.
  intros H. unfold upd. rewrite nth_error_app2 by (rewrite firstn_length; lia).
  rewrite firstn_length. replace (i - Nat.min i (length l))%nat with 0%nat by lia.
  destruct (Nat.ltb_spec i (length l)); [reflexivity|lia].
Qed.
Lemma upd_other {A} (l : list A) i j x : i <> j -> nth_error (upd l i x) j = nth_error l j.
Proof.
  intros Hij. unfold upd. destruct (Nat.ltb_spec i (length l)) as [Hi|Hi].
  - destruct (Nat.lt_ge_cases j i) as [Hj|Hj].
    + rewrite nth_error_app1 by (rewrite firstn_length; lia).
      rewrite <- (firstn_skipn i l) at 2.
      rewrite (nth_error_app1 (firstn i l)) by (rewrite firstn_length; lia). reflexivity.
    + rewrite nth_error_app2 by (rewrite firstn_length; lia). rewrite firstn_length.
      replace (j - Nat.min i (length l))%nat with (S (j - S i)) by lia. cbn [nth_error].
      rewrite <- (firstn_skipn (S i) l) at 2.
      rewrite (nth_error_app2 (firstn (S i) l)) by (rewrite firstn_length; lia).
      rewrite firstn_length. f_equal. lia.
  - rewrite app_nil_r, firstn_all2 by lia. reflexivity.
Qed.
Lemma upd_inv {A} (l : list A) i x j y :
  nth_error (upd l i x) j = Some y -> (i = j /\ y = x) \/ (i <> j /\ nth_error l j = Some y).
Proof.
  intros H. destruct (Nat.eq_dec i j) as [<-|Hij].
  - left. split; [reflexivity|]. rewrite upd_same in H; [congruence|].
    assert (i < length (upd l i x))%nat by (apply nth_error_Some; congruence).
    rewrite upd_length in *. assumption.
  - right. rewrite upd_other in H by exact Hij. auto.
Qed.
