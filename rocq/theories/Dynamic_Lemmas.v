(** Mask selection, chunks and grouped sums. *)
From Verif Require Import Prelude Dynamic_Model.
Open Scope nat_scope.

Lemma count_cons b m : count_true (b :: m) = (if b then 1 else 0) + count_true m.
Proof. destruct b; reflexivity. Qed.
Lemma count_app a b : count_true (a ++ b) = count_true a + count_true b.
Proof. unfold count_true. rewrite filter_app, app_length. reflexivity. Qed.
Lemma count_le m : count_true m <= length m.
Proof. induction m as [|b m IH]; [cbn; lia|]. rewrite count_cons. cbn [length]. destruct b; lia. Qed.
Lemma count_repeat n : count_true (repeat true n) = n.
Proof. induction n; cbn [repeat]; [reflexivity|]. rewrite count_cons. lia. Qed.

Section Sel.
  Context {T : Type}.
  Implicit Types l : list T.
  Lemma sel_length m l : length m = length l -> length (sel m l) = count_true m.
  Proof. revert l. induction m as [|b m IH]; intros [|x l] H; cbn [length sel] in *; try lia; try reflexivity. rewrite count_cons. destruct b; cbn [length]; rewrite IH by lia; lia. Qed.
  Lemma sel_app m1 m2 l1 l2 : length m1 = length l1 -> sel (m1 ++ m2) (l1 ++ l2) = sel m1 l1 ++ sel m2 l2.
  Proof. revert l1. induction m1 as [|b m IH]; intros [|x l] H; cbn in *; try lia; [reflexivity|]. destruct b; cbn [app]; rewrite IH by lia; reflexivity. Qed.
  Lemma sel_true n l : length l = n -> sel (repeat true n) l = l.
  Proof. revert l. induction n as [|n IH]; intros [|x l] H; cbn in *; try lia; [reflexivity|]. rewrite IH by lia. reflexivity. Qed.
  Lemma sel_false m l : count_true m = 0 -> sel m l = [].
  Proof. revert l. induction m as [|b m IH]; intros [|x l] H; cbn [sel]; try (destruct b); try reflexivity; rewrite count_cons in H; [lia|]. apply IH. lia. Qed.
  Lemma sel_In m l x : In x (sel m l) -> In x l.
  Proof. revert l. induction m as [|b m IH]; intros [|y l] H; cbn in *; try destruct H; destruct b; cbn in *; auto; try destruct H; auto. Qed.
End Sel.
Lemma sel_map {T U} (f : T -> U) m l : sel m (map f l) = map f (sel m l).
Proof. revert l. induction m as [|b m IH]; intros [|x l]; cbn; try (destruct b); try reflexivity; cbn; rewrite IH; reflexivity. Qed.
Lemma sel_combine {T U} m (a : list T) (b : list U) : length m = length a -> length m = length b -> sel m (combine a b) = combine (sel m a) (sel m b).
Proof. revert a b. induction m as [|x m IH]; intros [|y a] [|z b] H1 H2; cbn in *; try lia; [reflexivity|]. destruct x; cbn [combine]; rewrite IH by lia; reflexivity. Qed.
Lemma sel_concat {K T} (fm : K -> list bool) (fl : K -> list T) L :
  Forall (fun t => length (fm t) = length (fl t)) L ->
  sel (concat (map fm L)) (concat (map fl L)) = concat (map (fun t => sel (fm t) (fl t)) L).
Proof. induction 1 as [|t L H _ IH]; cbn [map concat]; [reflexivity|]. rewrite sel_app by exact H. rewrite IH. reflexivity. Qed.
(** Selecting from a matrix with an outer-product mask. *)
Lemma sel_outer {T} om im (rows : list (list T)) :
  length om = length rows -> Forall (fun r => length r = length im) rows ->
  sel (concat (map (fun o : bool => map (fun i => o && i) im) om)) (concat rows) = concat (map (sel im) (sel om rows)).
Proof.
  intros H F. revert om H. induction F as [|r rows Hr F IH]; intros [|o om] H; cbn [length] in H; try lia; [reflexivity|]. cbn [map concat].
  rewrite sel_app by (rewrite map_length; auto). rewrite IH by lia. destruct o; cbn [sel map concat].
  - f_equal. f_equal. rewrite <- (map_id im) at 2. apply map_ext. reflexivity.
  - rewrite sel_false; [reflexivity|]. clear. induction im as [|i im IH]; cbn [map]; [reflexivity|]. rewrite count_cons. exact IH.
Qed.

Section Chunks.
  Context {T : Type}.
  Lemma chunks_concat c (L : list (list T)) : Forall (fun l => length l = c) L -> chunks (length L) c (concat L) = L.
  Proof.
    induction 1 as [|l L H F IH]; cbn [length chunks concat]; [reflexivity|]. rewrite firstn_app, skipn_app, H, Nat.sub_diag. cbn [firstn skipn].
    rewrite firstn_all2, skipn_all2, app_nil_r by lia. cbn [app]. rewrite IH. reflexivity.
  Qed.
  Lemma chunks_length n c (l : list T) : length (chunks n c l) = n.
  Proof. revert l. induction n as [|n IH]; intros l; cbn [chunks length]; [reflexivity|]. rewrite IH. reflexivity. Qed.
  Lemma chunks_spec n c (l : list T) : length l = n * c -> concat (chunks n c l) = l /\ Forall (fun k => length k = c) (chunks n c l).
  Proof.
    revert l. induction n as [|n IH]; intros l H; cbn [chunks concat].
    - split; [|constructor]. destruct l; [reflexivity|cbn in H; lia].
    - destruct (IH (skipn c l)) as [E F]; [rewrite skipn_length; nia|]. rewrite E. split; [apply firstn_skipn|]. constructor; [|exact F]. apply firstn_length_le. nia.
  Qed.
  Lemma chunks_one (l : list T) : chunks (length l) 1 l = map (fun x => [x]) l.
  Proof. induction l as [|x l IH]; [reflexivity|]. cbn [length chunks firstn skipn map]. rewrite IH. reflexivity. Qed.
End Chunks.
Lemma chunks_map {T U} (f : T -> U) n c l : chunks n c (map f l) = map (map f) (chunks n c l).
Proof. revert l. induction n as [|n IH]; intros l; cbn [chunks map]; [reflexivity|]. rewrite firstn_map, skipn_map, IH. reflexivity. Qed.
Lemma concat_length_const {T} c (L : list (list T)) : Forall (fun l => length l = c) L -> length (concat L) = length L * c.
Proof. induction 1 as [|l L H F IH]; cbn [concat length]; [reflexivity|]. rewrite app_length, H, IH. lia. Qed.

Lemma pair_ext {T U} (a b : list (T * U)) : map fst a = map fst b -> map snd a = map snd b -> a = b.
Proof.
  revert b. induction a as [|[x y] a IH]; intros [|[u v] b] H1 H2; cbn in *; try discriminate; [reflexivity|]. inversion H1; inversion H2; subst. f_equal. auto.
Qed.
Lemma map_fst_combine {T U} (a : list T) (b : list U) : length a = length b -> map fst (combine a b) = a.
Proof. revert b. induction a as [|x a IH]; intros [|y b] H; cbn in *; try lia; [reflexivity|]. rewrite IH by lia. reflexivity. Qed.
Lemma map_snd_combine {T U} (a : list T) (b : list U) : length a = length b -> map snd (combine a b) = b.
Proof. revert b. induction a as [|x a IH]; intros [|y b] H; cbn in *; try lia; [reflexivity|]. rewrite IH by lia. reflexivity. Qed.

(** Writing selected values back into a full-width list, [z] elsewhere. *)
Fixpoint scatter {T} (z : T) (m : list bool) (x : list T) : list T :=
  match m with
  | [] => []
  | true :: m' => match x with [] => z :: scatter z m' [] | y :: x' => y :: scatter z m' x' end
  | false :: m' => z :: scatter z m' x
  end.
Lemma scatter_length {T} (z : T) m x : length (scatter z m x) = length m.
Proof. revert x. induction m as [|b m IH]; intros x; cbn [scatter length]; [reflexivity|]. destruct b; [destruct x|]; cbn [length]; rewrite IH; reflexivity. Qed.
Lemma sel_scatter {T} (z : T) m x : length x = count_true m -> sel m (scatter z m x) = x.
Proof.
  revert x. induction m as [|b m IH]; intros x H; [destruct x; [reflexivity|discriminate]|]. rewrite count_cons in H. cbn [scatter]. destruct b.
  - destruct x as [|y x]; [cbn in H; lia|]. cbn [sel]. rewrite IH by (cbn in H; lia). reflexivity.
  - cbn [sel]. apply IH. cbn in H. lia.
Qed.
Definition blank_off {T} (z : T) : list bool -> list T -> Prop := Forall2 (fun b p => b = false -> p = z).
Lemma scatter_blank {T} (z : T) m x : blank_off z m (scatter z m x).
Proof. revert x. induction m as [|b m IH]; intros x; cbn [scatter]; [constructor|]. destruct b; [destruct x|]; constructor; auto; try discriminate; apply IH. Qed.
Lemma scatter_true {T} (z : T) n x : length x = n -> scatter z (repeat true n) x = x.
Proof. intros H. rewrite <- (sel_true n (scatter z (repeat true n) x)) by (rewrite scatter_length, repeat_length; reflexivity). apply sel_scatter. rewrite count_repeat. exact H. Qed.
Lemma forall2_split {T U} (R : T -> U -> Prop) a1 a2 b1 b2 : length a1 = length b1 -> Forall2 R (a1 ++ a2) (b1 ++ b2) -> Forall2 R a1 b1 /\ Forall2 R a2 b2.
Proof.
  revert b1. induction a1 as [|x a IH]; intros [|y b] H F; cbn in *; try lia; [split; [constructor|exact F]|]. inversion F; subst.
  destruct (IH b ltac:(lia) H5). split; [constructor; assumption|assumption].
Qed.
