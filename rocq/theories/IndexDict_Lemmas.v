From Verif Require Import Prelude IndexDict_Model.
From Coq Require Import Sorting.Sorted Sorting.Permutation.

Lemma range_eqb_spec a b : range_eqb a b = true <-> a = b.
Proof.
  destruct a as [a1 a2], b as [b1 b2]; unfold range_eqb; cbn [fst snd].
  rewrite andb_true_iff, !Z.eqb_eq. split; [intros [-> ->]; reflexivity|].
  intros H; inversion H; auto.
Qed.

Lemma fold_hits start end_ (l : list range) b :
  fold_left (fun ex k' => hits start end_ k' || ex) l b
  = existsb (hits start end_) l || b.
Proof.
  revert b; induction l as [|k l IH]; intros b; cbn [fold_left existsb]; [reflexivity|].
  rewrite IH. destruct (hits start end_ k), b, (existsb (hits start end_) l); reflexivity.
Qed.

Section L.
Variable V : Type.
Implicit Types d : idict V.

Lemma contains_exact d k :
  contains d k = existsb (range_eqb k) (keys d)
                 || existsb (hits (fst k) (snd k)) (keys d).
Proof.
  unfold contains. rewrite fold_hits, orb_false_r.
  destruct (existsb (range_eqb k) (keys d)); reflexivity.
Qed.

(** For a non-empty new range, the test finds exactly the overlaps that are not
    of the form "new range starts strictly before and ends at or after". *)
Lemma hits_spec start end_ s e :
  start < end_ -> s < e ->
  (hits start end_ (s, e) = true <->
   (exists i, start <= i < end_ /\ s <= i < e) /\ ~ (start < s /\ e <= end_)).
Proof.
  intros H1 H2. unfold hits. split.
  - intros H. split; [|lia].
    exists (Z.max start s). lia.
  - intros [[i Hi] Hn]. lia.
Qed.

Lemma contains_true_iff d start end_ :
  start < end_ ->
  (forall s e, In (s, e) (keys d) -> s < e) ->
  (contains d (start, end_) = true <->
   exists s e, In (s, e) (keys d) /\
     (exists i, start <= i < end_ /\ s <= i < e) /\ ~ (start < s /\ e <= end_)).
Proof.
  intros Hne Hd. rewrite contains_exact; cbn [fst snd].
  rewrite orb_true_iff, !existsb_exists. split.
  - intros [[k [Hin Hk]] | [[s e] [Hin Hk]]].
    + apply range_eqb_spec in Hk; subst k.
      exists start, end_. split; [exact Hin|]. split; [exists start; lia | lia].
    + exists s, e. split; [exact Hin|]. apply hits_spec in Hk; auto.
  - intros (s & e & Hin & Hex & Hn). right. exists (s, e). split; [exact Hin|].
    apply hits_spec; auto.
Qed.

Lemma insert_perm (x : range * V) l : Permutation (insert_item x l) (x :: l).
Proof.
  induction l as [|y r IH]; cbn [insert_item]; [reflexivity|].
  destruct (range_leb _ _); [reflexivity|].
  rewrite IH. apply perm_swap.
Qed.

Lemma sort_perm d : Permutation (sort_items d) d.
Proof.
  induction d as [|x r IH]; cbn [sort_items fold_right]; [reflexivity|].
  fold (sort_items r). rewrite insert_perm, IH. reflexivity.
Qed.

Definition kle (x y : range * V) : Prop := range_leb (fst x) (fst y) = true.

Lemma range_leb_total a b : range_leb a b = false -> range_leb b a = true.
Proof. unfold range_leb. lia. Qed.
Lemma range_leb_trans a b c :
  range_leb a b = true -> range_leb b c = true -> range_leb a c = true.
Proof. unfold range_leb. lia. Qed.

Lemma insert_sorted (x : range * V) l :
  StronglySorted kle l -> StronglySorted kle (insert_item x l).
Proof.
  induction l as [|y r IH]; intros Hs; cbn [insert_item].
  - repeat constructor.
  - inversion Hs as [|? ? Hr Hall]; subst.
    destruct (range_leb (fst x) (fst y)) eqn:E.
    + constructor; [exact Hs|]. constructor; [exact E|].
      eapply Forall_impl; [|exact Hall]. intros z Hz. unfold kle in *.
      eapply range_leb_trans; eauto.
    + constructor; [auto|].
      apply Forall_forall. intros z Hz.
      apply (Permutation_in _ (insert_perm x r)) in Hz. destruct Hz as [<-|Hz].
      * unfold kle. apply range_leb_total; exact E.
      * rewrite Forall_forall in Hall; auto.
Qed.

Lemma sort_sorted d : StronglySorted kle (sort_items d).
Proof.
  induction d as [|x r IH]; cbn [sort_items fold_right]; [constructor|].
  apply insert_sorted, IH.
Qed.

Lemma setitem_ok_iff d s e (v : V) :
  (exists d', setitem d (s, e) v = Ok d') <-> s < e /\ contains d (s, e) = false.
Proof.
  unfold setitem, bind, assert_. destruct (s <? e) eqn:E1, (contains d (s, e)) eqn:E2;
    cbn [negb]; split; intros H; try (destruct H as [d' H]; discriminate H);
    try (exfalso; lia); try (split; [lia|reflexivity]); try (destruct H; discriminate).
  eexists; reflexivity.
Qed.

Lemma setitem_ok d s e (v : V) d' :
  setitem d (s, e) v = Ok d' ->
  s < e /\ contains d (s, e) = false /\ d' = sort_items (d ++ [((s, e), v)]).
Proof.
  intros H. assert (Hex : exists d'', setitem d (s, e) v = Ok d'') by eauto.
  apply setitem_ok_iff in Hex as [H1 H2]. repeat split; auto.
  unfold setitem, bind, assert_ in H. rewrite H2 in H.
  destruct (s <? e) eqn:E; [|discriminate]. cbn [negb] in H. inversion H; reflexivity.
Qed.

Lemma setitem_perm d s e (v : V) d' :
  setitem d (s, e) v = Ok d' -> Permutation d' (((s, e), v) :: d).
Proof.
  intros H. apply setitem_ok in H as (_ & _ & ->).
  rewrite sort_perm. rewrite Permutation_app_comm. reflexivity.
Qed.

(** Invariants of every history. *)
Definition nonempty_keys d : Prop := forall s e, In (s, e) (keys d) -> s < e.

Lemma keys_in d k : In k (keys d) <-> exists v, In (k, v) d.
Proof.
  unfold keys. rewrite in_map_iff. split.
  - intros [[k' v] [<- Hin]]; eauto.
  - intros [v Hin]; exists (k, v); auto.
Qed.

Lemma setitem_nonempty d s e (v : V) d' :
  nonempty_keys d -> setitem d (s, e) v = Ok d' -> nonempty_keys d'.
Proof.
  intros Hd H s0 e0 Hin. pose proof (setitem_perm _ _ _ _ _ H) as Hp.
  apply setitem_ok in H as (Hlt & _ & _).
  apply keys_in in Hin as [v0 Hin]. apply (Permutation_in _ Hp) in Hin.
  destruct Hin as [Heq|Hin]; [inversion Heq; subst; exact Hlt|].
  apply Hd, keys_in. eauto.
Qed.

Lemma setitem_sorted d s e (v : V) d' :
  setitem d (s, e) v = Ok d' -> StronglySorted kle d'.
Proof. intros H. apply setitem_ok in H as (_ & _ & ->). apply sort_sorted. Qed.

(** The keys of any two different stored items differ. *)
Lemma setitem_nodup d s e (v : V) d' :
  nonempty_keys d ->
  NoDup (keys d) -> setitem d (s, e) v = Ok d' -> NoDup (keys d').
Proof.
  intros Hne Hnd H. pose proof (setitem_perm _ _ _ _ _ H) as Hp.
  apply setitem_ok in H as (Hlt & Hc & _).
  apply (Permutation_map fst) in Hp. change (map fst d') with (keys d') in Hp.
  eapply Permutation_NoDup; [symmetry; exact Hp|].
  cbn [map fst]. constructor; [|exact Hnd].
  intros Hin. assert (Ht : contains d (s, e) = true).
  { rewrite contains_exact, orb_true_iff. left. apply existsb_exists.
    exists (s, e). split; [exact Hin|]. apply range_eqb_spec; reflexivity. }
  congruence.
Qed.

Lemma try_set_nonempty d kv : nonempty_keys d -> nonempty_keys (try_set d kv).
Proof.
  intros H. unfold try_set. destruct kv as [[s e] v]; cbn [fst snd].
  destruct (setitem d (s, e) v) eqn:E; [|exact H].
  eapply setitem_nonempty; eauto.
Qed.

Lemma try_set_sorted d kv :
  StronglySorted kle d -> StronglySorted kle (try_set d kv).
Proof.
  intros H. unfold try_set. destruct kv as [[s e] v]; cbn [fst snd].
  destruct (setitem d (s, e) v) eqn:E; [|exact H].
  eapply setitem_sorted; eauto.
Qed.

Lemma try_set_nodup d kv :
  nonempty_keys d -> NoDup (keys d) -> NoDup (keys (try_set d kv)).
Proof.
  intros H1 H2. unfold try_set. destruct kv as [[s e] v]; cbn [fst snd].
  destruct (setitem d (s, e) v) eqn:E; [|exact H2].
  eapply setitem_nodup; eauto.
Qed.

Lemma fold_try_inv (P : idict V -> Prop) l d :
  P d -> (forall d kv, P d -> P (try_set d kv)) -> P (fold_left try_set l d).
Proof.
  intros H0 Hs; revert d H0; induction l as [|x l IH]; cbn [fold_left]; auto.
Qed.

Lemma insert_all_nonempty l : nonempty_keys (insert_all (V:=V) l).
Proof.
  unfold insert_all. apply (fold_try_inv nonempty_keys); [intros s e []|].
  intros; apply try_set_nonempty; auto.
Qed.
Lemma insert_all_sorted l : StronglySorted kle (insert_all (V:=V) l).
Proof. unfold insert_all. apply (fold_try_inv (StronglySorted kle)); [constructor|]. intros; apply try_set_sorted; auto. Qed.
Lemma insert_all_nodup l : NoDup (keys (insert_all (V:=V) l)).
Proof.
  assert (H : nonempty_keys (insert_all (V:=V) l) /\ NoDup (keys (insert_all (V:=V) l))).
  { unfold insert_all. apply (fold_try_inv (fun d => nonempty_keys d /\ NoDup (keys d))).
    - split; [intros s e []|constructor].
    - intros d kv [H1 H2]; split; [apply try_set_nonempty|apply try_set_nodup]; auto. }
  apply H.
Qed.

(** Disjointness for histories without enclosing insertions. *)
Definition rdisj (a b : range) : Prop :=
  forall i, ~ (fst a <= i < snd a /\ fst b <= i < snd b).
Definition all_disj d : Prop :=
  forall k1 k2, In k1 (keys d) -> In k2 (keys d) -> k1 <> k2 -> rdisj k1 k2.

Lemma setitem_disj d s e (v : V) d' :
  nonempty_keys d -> all_disj d ->
  (forall s0 e0, In (s0, e0) (keys d) -> ~ (s < s0 /\ e0 <= e)) ->
  setitem d (s, e) v = Ok d' -> all_disj d'.
Proof.
  intros Hne Hd Henc H. pose proof (setitem_perm _ _ _ _ _ H) as Hp.
  apply setitem_ok in H as (Hlt & Hc & _).
  assert (Hin' : forall k, In k (keys d') -> k = (s, e) \/ In k (keys d)).
  { intros k Hk. apply keys_in in Hk as [w Hk]. apply (Permutation_in _ Hp) in Hk.
    destruct Hk as [Hk|Hk]; [inversion Hk; auto|]. right; apply keys_in; eauto. }
  assert (Hnew : forall k, In k (keys d) -> rdisj (s, e) k).
  { intros [s0 e0] Hk i [Hi1 Hi2]; cbn [fst snd] in *.
    assert (Ht : contains d (s, e) = true).
    { apply contains_true_iff; auto. exists s0, e0. split; [exact Hk|].
      split; [exists i; lia|]. apply Henc; exact Hk. }
    congruence. }
  intros k1 k2 H1 H2 Hneq. apply Hin' in H1. apply Hin' in H2.
  destruct H1 as [->|H1], H2 as [->|H2].
  - congruence.
  - apply Hnew; auto.
  - intros i Hi. apply (Hnew k1 H1 i). tauto.
  - apply Hd; auto.
Qed.

End L.
