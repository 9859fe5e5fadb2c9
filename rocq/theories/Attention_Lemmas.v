(** Row-major tensors: tabulated tensors read back what was tabulated, and reshapes of them are tabulated again. *)
From Coq Require Import List ZArith Bool Lia.
From Verif Require Import Prelude Attention_Model.
Import ListNotations.
Local Open Scope nat_scope.

Fixpoint inr (s idx : list nat) : Prop :=
  match s, idx with
  | [], [] => True
  | d :: s', i :: idx' => i < d /\ inr s' idx'
  | _, _ => False
  end.

Lemma length_indices : forall s, length (indices s) = numel s.
Proof.
  induction s as [|d s IH]; [reflexivity|]. cbn [indices]. change (numel (d :: s)) with (d * numel s).
  generalize 0 as st. induction d as [|d IHd]; intros st; [reflexivity|]. cbn [seq flat_map].
  rewrite app_length, map_length, IH, (IHd (S st)). reflexivity.
Qed.
Lemma in_indices : forall s idx, In idx (indices s) <-> inr s idx.
Proof.
  induction s as [|d s IH]; intros idx.
  - destruct idx as [|i idx]; simpl; split; intros H; [exact I | now left | destruct H as [H|H]; [discriminate H | exact H] | contradiction].
  - cbn [indices]. rewrite in_flat_map. split.
    + intros (i & Hi & H). apply in_map_iff in H as (t & <- & Ht). apply in_seq in Hi. split; [lia | now apply IH].
    + destruct idx as [|i idx]; [contradiction|]. intros (Hi & H). exists i. split; [apply in_seq; lia | apply in_map, IH, H].
Qed.
Lemma flat_bound : forall s idx, inr s idx -> flat s idx < numel s.
Proof.
  induction s as [|d s IH]; intros [|i idx] H; simpl in H; try contradiction; [cbn; lia|].
  destruct H as (Hi & H). specialize (IH _ H). cbn [flat]. change (numel (d :: s)) with (d * numel s). nia.
Qed.
Lemma nth_flat_map : forall {X} (f : nat -> list X) (n : nat) (d st i j : nat) (z : X),
  (forall k, length (f k) = n) -> i < d -> j < n -> nth (i * n + j) (flat_map f (seq st d)) z = nth j (f (st + i)) z.
Proof.
  intros X f n d. induction d as [|d IH]; intros st i j z Hf Hi Hj; [lia|]. cbn [seq flat_map].
  destruct i as [|i].
  - rewrite app_nth1 by (rewrite Hf; lia). now rewrite Nat.add_0_r.
  - rewrite app_nth2 by (rewrite Hf; nia). rewrite Hf. replace (S i * n + j - n) with (i * n + j) by nia.
    rewrite IH by (auto; lia). now rewrite Nat.add_succ_comm.
Qed.
Lemma nth_indices : forall s idx, inr s idx -> nth (flat s idx) (indices s) [] = idx.
Proof.
  induction s as [|d s IH]; intros [|i idx] H; simpl in H; try contradiction; [reflexivity|].
  destruct H as (Hi & H). cbn [flat indices].
  rewrite (nth_flat_map (fun i => map (cons i) (indices s)) (numel s)).
  - rewrite Nat.add_0_l, (nth_indep _ [] (i :: [])) by (rewrite map_length, length_indices; now apply flat_bound).
    rewrite map_nth. now rewrite IH.
  - intros k. now rewrite map_length, length_indices.
  - exact Hi.
  - now apply flat_bound.
Qed.
Lemma flat_indices : forall s n, n < numel s -> inr s (nth n (indices s) []) /\ flat s (nth n (indices s) []) = n.
Proof.
  intros s n Hn. split; [apply in_indices, nth_In; now rewrite length_indices|]. revert n Hn.
  induction s as [|d s IH]; intros n Hn.
  - cbn in Hn. now replace n with 0 by lia.
  - change (numel (d :: s)) with (d * numel s) in Hn. assert (Hz : numel s <> 0) by nia.
    assert (E : n = (n / numel s) * numel s + n mod numel s) by (rewrite Nat.mul_comm; now apply Nat.div_mod).
    assert (Hi : n / numel s < d) by (apply Nat.div_lt_upper_bound; lia).
    assert (Hj : n mod numel s < numel s) by now apply Nat.mod_upper_bound.
    rewrite E at 1. cbn [indices]. rewrite (nth_flat_map (fun i => map (cons i) (indices s)) (numel s)) by (auto; intros; now rewrite map_length, length_indices).
    rewrite Nat.add_0_l, (nth_indep _ [] ((n / numel s) :: [])) by (rewrite map_length, length_indices; exact Hj).
    rewrite map_nth. cbn [flat]. rewrite IH by exact Hj. lia.
Qed.

Lemma same_shape_refl : forall s, same_shape s s = true.
Proof. induction s as [|d s IH]; [reflexivity|]. cbn [same_shape]. now rewrite Nat.eqb_refl, IH. Qed.
Lemma same_shape_eq : forall s s', same_shape s s' = true -> s = s'.
Proof.
  induction s as [|d s IH]; intros [|d' s'] H; try discriminate; [reflexivity|]. cbn [same_shape] in H.
  apply andb_prop in H as (H1 & H2). apply Nat.eqb_eq in H1. now rewrite H1, (IH s').
Qed.

Section Tensors.
  Variable A : Type.
  Variable zero : A.
  Notation tensor := (tensor A).
  Notation T := (T A).
  Notation shape := (shape A).
  Notation data := (data A).
  Notation tabulate := (tabulate A).
  Notation at_ := (at_ A zero).
  Notation tab2 := (tab2 A zero).
  Notation tab3 := (tab3 A zero).
  Notation tab4 := (tab4 A zero).

  Definition wf (t : tensor) : Prop := length (data t) = numel (shape t).

  Lemma tab_wf : forall s f, wf (tabulate s f).
  Proof. intros s f. unfold wf, Attention_Model.tabulate. cbn. now rewrite map_length, length_indices. Qed.
  Lemma tab_ext : forall s f g, (forall idx, inr s idx -> f idx = g idx) -> tabulate s f = tabulate s g.
  Proof. intros s f g H. unfold Attention_Model.tabulate. f_equal. apply map_ext_in. intros idx Hi. apply H, in_indices, Hi. Qed.
  Lemma at_tab : forall s f idx, inr s idx -> at_ (tabulate s f) idx = f idx.
  Proof.
    intros s f idx H. unfold Attention_Model.at_, Attention_Model.tabulate. cbn.
    rewrite (nth_indep _ zero (f [])) by (rewrite map_length, length_indices; now apply flat_bound).
    rewrite map_nth. now rewrite nth_indices.
  Qed.
  Lemma wf_tab : forall t, wf t -> t = tabulate (shape t) (at_ t).
  Proof.
    intros [s l] H. unfold wf in H. cbn in H. unfold Attention_Model.tabulate. cbn. f_equal.
    apply nth_ext with (d := zero) (d' := zero).
    - now rewrite map_length, length_indices.
    - intros n Hn. rewrite H in Hn. destruct (flat_indices s n Hn) as (Hi & Hf).
      rewrite (nth_indep (map _ _) zero (at_ (T s l) [])) by (rewrite map_length, length_indices; exact Hn).
      rewrite map_nth. unfold Attention_Model.at_. cbn. now rewrite Hf.
  Qed.
  (** Reshaping a tabulated tensor. *)
  Lemma reshape_tab : forall s s' f (g : list nat -> list nat), numel s = numel s' ->
    (forall idx, inr s' idx -> inr s (g idx) /\ flat s (g idx) = flat s' idx) ->
    T s' (data (tabulate s f)) = tabulate s' (fun idx => f (g idx)).
  Proof.
    intros s s' f g Hn Hg.
    assert (W : wf (T s' (data (tabulate s f)))) by (unfold wf; cbn; now rewrite map_length, length_indices).
    rewrite (wf_tab _ W). cbn [Attention_Model.shape]. apply tab_ext. intros idx Hi. destruct (Hg idx Hi) as (Hr & Hf).
    rewrite <- (at_tab s f (g idx) Hr). unfold Attention_Model.at_. cbn [Attention_Model.shape Attention_Model.data Attention_Model.tabulate]. now rewrite Hf.
  Qed.

  Lemma tab2_ext : forall a b f g, (forall i j, i < a -> j < b -> f i j = g i j) -> tab2 a b f = tab2 a b g.
  Proof. intros a b f g H. apply tab_ext. intros [|i [|j [|]]] Hi; simpl in Hi; try tauto. apply H; tauto. Qed.
  Lemma tab3_ext : forall a b c f g, (forall i j k, i < a -> j < b -> k < c -> f i j k = g i j k) -> tab3 a b c f = tab3 a b c g.
  Proof. intros a b c f g H. apply tab_ext. intros [|i [|j [|k [|]]]] Hi; simpl in Hi; try tauto. apply H; tauto. Qed.
  Lemma tab4_ext : forall a b c d f g, (forall i j k l, i < a -> j < b -> k < c -> l < d -> f i j k l = g i j k l) -> tab4 a b c d f = tab4 a b c d g.
  Proof. intros a b c d f g H. apply tab_ext. intros [|i [|j [|k [|l [|]]]]] Hi; simpl in Hi; try tauto. apply H; tauto. Qed.
  Lemma at_tab2 : forall a b f i j, i < a -> j < b -> at_ (tab2 a b f) [i; j] = f i j.
  Proof. intros. unfold Attention_Model.tab2. rewrite at_tab; [reflexivity | simpl; tauto]. Qed.
  Lemma at_tab3 : forall a b c f i j k, i < a -> j < b -> k < c -> at_ (tab3 a b c f) [i; j; k] = f i j k.
  Proof. intros. unfold Attention_Model.tab3. rewrite at_tab; [reflexivity | simpl; tauto]. Qed.
  Lemma at_tab4 : forall a b c d f i j k l, i < a -> j < b -> k < c -> l < d -> at_ (tab4 a b c d f) [i; j; k; l] = f i j k l.
  Proof. intros. unfold Attention_Model.tab4. rewrite at_tab; [reflexivity | simpl; tauto]. Qed.
  Lemma wf_tab2 : forall t a b, wf t -> shape t = [a; b] -> t = tab2 a b (fun i j => at_ t [i; j]).
  Proof.
    intros t a b W E. rewrite (wf_tab t W) at 1. rewrite E. apply tab_ext. intros [|i [|j [|]]] Hi; simpl in Hi; first [reflexivity | tauto].
  Qed.
  Lemma wf_tab3 : forall t a b c, wf t -> shape t = [a; b; c] -> t = tab3 a b c (fun i j k => at_ t [i; j; k]).
  Proof.
    intros t a b c W E. rewrite (wf_tab t W) at 1. rewrite E. apply tab_ext. intros [|i [|j [|k [|]]]] Hi; simpl in Hi; first [reflexivity | tauto].
  Qed.
  Variable add : A -> A -> A.
  Notation total := (total A zero add).
  Lemma total_ext : forall n f g, (forall i, i < n -> f i = g i) -> total n f = total n g.
  Proof.
    intros n f g H. unfold Attention_Model.total. f_equal. apply map_ext_in. intros i Hi. apply in_seq in Hi. apply H. lia.
  Qed.
End Tensors.
