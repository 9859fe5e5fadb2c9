(** C01 - Registered channel ranges never overlap. *)
From Verif Require Import Prelude IndexDict_Model IndexDict_Lemmas.
From Coq Require Import Sorting.Sorted Sorting.Permutation.

(** ** Specification *)

(** Two half-open ranges share an index. *)
Definition share_index (a b : Z * Z) : Prop :=
  exists i, fst a <= i < snd a /\ fst b <= i < snd b.

(** [b] starts strictly left of [a] and reaches at least its end. *)
Definition encloses_from_left (b a : Z * Z) : Prop :=
  fst b < fst a /\ snd a <= snd b.

(** A sequence of requested ranges in which no later range encloses an earlier one
    from the left. *)
Definition no_enclosing {V} (reqs : list ((Z * Z) * V)) : Prop :=
  forall pre k v post, reqs = pre ++ (k, v) :: post ->
  forall k', In k' (map fst pre) -> ~ encloses_from_left k k'.

(** The full English claim: whatever is inserted, in whatever order, an insertion is
    accepted exactly when it is non-empty and shares no index with a stored range,
    and the stored ranges are disjoint and increasing. *)
Definition C01_claim : Prop :=
  forall (V : Type) (reqs : list ((Z * Z) * V)),
    StronglySorted (fun a b => snd a <= fst b) (map fst (insert_all reqs)) /\
    (forall s e v,
        (exists d', setitem (insert_all reqs) (s, e) v = Ok d') <->
        (s < e /\ forall k, In k (map fst (insert_all reqs)) -> ~ share_index (s, e) k)).

(** ** Theorems *)

(** The code violates the claim: after inserting [2,4) the range [0,6) is accepted. *)
Lemma C01_witness :
  insert_all [((2, 4), tt); ((0, 6), tt)] = [((0, 6), tt); ((2, 4), tt)].
Proof. vm_compute. reflexivity. Qed.

Theorem C01_ranges_disjoint_refuted : ~ C01_claim.
Proof.
  intros H. destruct (H unit [((2, 4), tt); ((0, 6), tt)]) as [Hs _].
  rewrite C01_witness in Hs. cbn [map fst] in Hs.
  inversion Hs as [|? ? _ Hf]; subst. inversion Hf; subst. cbn in *. lia.
Qed.
Print Assumptions C01_ranges_disjoint_refuted.

(** What holds for every history: non-empty distinct ranges in increasing
    (lexicographic) order. *)
Theorem C01_ranges_sorted :
  forall (V : Type) (reqs : list ((Z * Z) * V)),
    StronglySorted (fun a b => fst a < fst b \/ (fst a = fst b /\ snd a < snd b))
                   (map fst (insert_all reqs)) /\
    (forall s e, In (s, e) (map fst (insert_all reqs)) -> s < e).
Proof.
  intros V reqs. split.
  - pose proof (insert_all_sorted V reqs) as Hs.
    pose proof (insert_all_nodup V reqs) as Hn. unfold keys in Hn.
    induction (insert_all reqs) as [|x r IH]; cbn [map] in *; [constructor|].
    inversion Hs as [|? ? Hs' Hall]; subst. inversion Hn as [|? ? Hnin Hn']; subst.
    constructor; [auto|]. apply Forall_forall. intros k Hk.
    apply in_map_iff in Hk as [y [<- Hy]]. rewrite Forall_forall in Hall.
    specialize (Hall y Hy). unfold kle, range_leb in Hall.
    assert (fst x <> fst y). { intros Heq. apply Hnin. rewrite Heq. apply in_map; auto. }
    destruct (fst x) as [a b], (fst y) as [c d]; cbn [fst snd] in *.
    assert (a <> c \/ b <> d).
    { destruct (Z.eq_dec a c); [|auto]. right. intros ->. subst. congruence. }
    lia.
  - apply (insert_all_nonempty V reqs).
Qed.
Print Assumptions C01_ranges_sorted.
Example C01_ranges_sorted_example :
  map fst (insert_all [((5, 9), 1%nat); ((0, 2), 2%nat); ((1, 3), 3%nat); ((3, 5), 4%nat)])
  = [(0, 2); (3, 5); (5, 9)].
Proof. vm_compute. reflexivity. Qed.

(** An accepted insertion stores exactly the new item besides the old ones. *)
Theorem C01_insert_contents :
  forall (V : Type) (d : list ((Z * Z) * V)) k v d',
    setitem d k v = Ok d' -> Permutation d' ((k, v) :: d).
Proof. intros V d [s e] v d' H. exact (setitem_perm V d s e v d' H). Qed.
Print Assumptions C01_insert_contents.
Example C01_insert_contents_example :
  setitem [((4, 6), 7%nat)] (0, 4) 8%nat = Ok [((0, 4), 8%nat); ((4, 6), 7%nat)].
Proof. vm_compute. reflexivity. Qed.

(** Without enclosing insertions the claim holds in full.  Missing compared to
    [C01_claim]: histories in which a new range starts left of a stored one and
    reaches its end - exactly those that the overlap test does not see. *)
Lemma no_enclosing_disj V (reqs : list ((Z * Z) * V)) :
  no_enclosing reqs ->
  nonempty_keys V (insert_all reqs) /\ all_disj V (insert_all reqs) /\
  (forall k, In k (keys (insert_all reqs)) -> In k (map fst reqs)).
Proof.
  induction reqs as [|[k v] reqs IH] using rev_ind; intros Hno.
  - split; [intros s e []|]. split; [intros k1 k2 []|intros k []].
  - assert (Hno' : no_enclosing reqs).
    { intros pre k0 v0 post Heq k' Hin. apply (Hno pre k0 v0 (post ++ [(k, v)])); auto.
      rewrite Heq, <- app_assoc. reflexivity. }
    specialize (IH Hno') as (IH1 & IH2 & IH3).
    unfold insert_all in *. rewrite fold_left_app. cbn [fold_left].
    unfold try_set at 1 3 5. cbn [fst snd].
    destruct (setitem _ k v) as [d'|e] eqn:E.
    + destruct k as [s e]. split; [eapply setitem_nonempty; eauto|]. split.
      * eapply setitem_disj; eauto. intros s0 e0 Hin [Ha Hb].
        apply (Hno reqs (s, e) v [] eq_refl (s0, e0)); [auto|].
        split; cbn [fst snd]; auto.
      * intros k Hk. apply keys_in in Hk as [w Hk].
        apply (Permutation_in _ (setitem_perm _ _ _ _ _ _ E)) in Hk.
        rewrite map_app, in_app_iff. destruct Hk as [Hk|Hk].
        -- inversion Hk; subst. right; left; reflexivity.
        -- left. apply IH3, keys_in. eauto.
    + split; [exact IH1|]. split; [exact IH2|]. intros k0 Hk.
      rewrite map_app, in_app_iff. left. auto.
Qed.

Lemma sorted_disj_strong V (d : idict V) :
  StronglySorted (kle V) d -> NoDup (keys d) -> nonempty_keys V d -> all_disj V d ->
  StronglySorted (fun a b => snd a <= fst b) (map fst d).
Proof.
  induction d as [|x r IH]; intros Hs Hn Hne Hd; cbn [map]; [constructor|].
  inversion Hs as [|? ? Hs' Hall]; subst.
  unfold keys in Hn; cbn [map] in Hn. inversion Hn as [|? ? Hnin Hn']; subst.
  constructor.
  - apply IH; auto.
    + intros s e Hin. apply Hne. right; exact Hin.
    + intros k1 k2 H1 H2. apply Hd; right; auto.
  - apply Forall_forall. intros k Hk.
    assert (Hneq : fst x <> k) by (intros Heq; subst k; exact (Hnin Hk)).
    pose proof (Hd (fst x) k (or_introl eq_refl) (or_intror Hk) Hneq) as Hdx.
    apply in_map_iff in Hk as [y [Hy1 Hy2]]. rewrite Forall_forall in Hall.
    specialize (Hall y Hy2). unfold kle, range_leb in Hall. rewrite Hy1 in Hall.
    assert (Hx : fst (fst x) < snd (fst x)).
    { apply Hne. left. apply surjective_pairing. }
    assert (Hk' : fst k < snd k).
    { apply Hne. right. rewrite <- surjective_pairing, <- Hy1. apply in_map; exact Hy2. }
    specialize (Hdx (fst k)). lia.
Qed.

Theorem C01_ranges_disjoint_partial :
  forall (V : Type) (reqs : list ((Z * Z) * V)),
    no_enclosing reqs ->
    StronglySorted (fun a b => snd a <= fst b) (map fst (insert_all reqs)) /\
    (forall s e v,
        (forall k, In k (map fst (insert_all reqs)) -> ~ encloses_from_left (s, e) k) ->
        ((exists d', setitem (insert_all reqs) (s, e) v = Ok d') <->
         (s < e /\ forall k, In k (map fst (insert_all reqs)) -> ~ share_index (s, e) k))).
Proof.
  intros V reqs Hno. destruct (no_enclosing_disj V reqs Hno) as (H1 & H2 & H3). split.
  - apply sorted_disj_strong; auto; [apply insert_all_sorted | apply insert_all_nodup].
  - intros s e v Henc. rewrite setitem_ok_iff. split.
    + intros [Hlt Hc]. split; [exact Hlt|]. intros [s0 e0] Hk [i [Hi1 Hi2]].
      cbn [fst snd] in *.
      assert (Ht : contains (insert_all reqs) (s, e) = true).
      { apply contains_true_iff; auto. exists s0, e0. split; [exact Hk|].
        split; [exists i; lia|]. intros [Ha Hb]. apply (Henc (s0, e0) Hk).
        split; cbn [fst snd]; auto. }
      congruence.
    + intros [Hlt Hall]. split; [exact Hlt|].
      destruct (contains (insert_all reqs) (s, e)) eqn:E; [|reflexivity].
      apply contains_true_iff in E; auto.
      destruct E as (s0 & e0 & Hk & [i Hi] & _). exfalso.
      apply (Hall (s0, e0) Hk). exists i; cbn [fst snd]; lia.
Qed.
Print Assumptions C01_ranges_disjoint_partial.
Example C01_partial_example :
  no_enclosing [((5, 9), 1%nat); ((0, 5), 2%nat); ((9, 12), 3%nat)] /\
  map fst (insert_all [((5, 9), 1%nat); ((0, 5), 2%nat); ((9, 12), 3%nat)])
  = [(0, 5); (5, 9); (9, 12)].
Proof.
  split; [|vm_compute; reflexivity].
  intros pre k v post Heq k' Hin [Ha Hb].
  destruct pre as [|p1 [|p2 [|p3 [|p4 pre]]]]; inversion Heq; subst; cbn in *;
    repeat match goal with H : _ \/ _ |- _ => destruct H | H : False |- _ => destruct H end;
    subst; cbn in *; lia.
Qed.
