From Verif Require Import Prelude IndexDict_Model IndexDict_Lemmas Container_Model.
From Coq Require Import Sorting.Sorted Sorting.Permutation.

Lemma bind_ok {A B} (x : outcome A) (f : A -> outcome B) b :
  bind x f = Ok b -> exists a, x = Ok a /\ f a = Ok b.
Proof. destruct x; cbn; intros H; [eauto|discriminate]. Qed.
Lemma assert_ok b u : assert_ b = Ok u -> b = true.
Proof. destruct b; cbn; [reflexivity|discriminate]. Qed.

Ltac inv_bind :=
  repeat match goal with
  | H : bind _ _ = Ok _ |- _ => apply bind_ok in H; destruct H as [? [? H]]
  | H : assert_ _ = Ok _ |- _ => apply assert_ok in H
  | H : Ok _ = Ok _ |- _ => inversion H; clear H; subst
  | H : Raise _ = Ok _ |- _ => discriminate H
  end.

Lemma register_ok c v s e c' :
  register c v s e = Ok c' ->
  num_channels c' = num_channels c /\ setitem (slots c) (s, e) v = Ok (slots c').
Proof. unfold register. intros H. inv_bind. cbn. auto. Qed.

Lemma register_perm c v s e c' :
  register c v s e = Ok c' -> Permutation (slots c') (((s, e), v) :: slots c).
Proof. intros H. apply register_ok in H as [_ H]. eapply setitem_perm; eauto. Qed.

(** The list of items that a fill adds are all [Filled] of the exact width. *)
Definition fill_items (l : idict slot) : Prop :=
  forall s e v, In ((s, e), v) l -> v = Filled (e - s) /\ s < e.

Lemma fill_loop_spec ks le c c' le' :
  fill_loop ks le c = Ok (c', le') ->
  num_channels c' = num_channels c /\
  exists new, Permutation (slots c') (new ++ slots c) /\ fill_items new.
Proof.
  revert le c; induction ks as [|[s e] r IH]; intros le c H; cbn [fill_loop] in H.
  - inv_bind. split; [reflexivity|]. exists []. split; [reflexivity|intros ? ? ? []].
  - inv_bind. destruct (le <? s) eqn:E.
    + (* a gap: the size is negative and construction raises *)
      inv_bind. match goal with Hx : new_simple _ = Ok _ |- _ => rename Hx into Hns end.
      unfold new_simple in Hns.
      assert (Hneg : (le - s <? 0) = true) by lia. rewrite Hneg in Hns. discriminate.
    + inv_bind. apply IH in H. exact H.
Qed.

Lemma fill_spec c c' :
  fill_unregistered_range c = Ok c' ->
  num_channels c' = num_channels c /\
  exists new, Permutation (slots c') (new ++ slots c) /\ fill_items new.
Proof.
  unfold fill_unregistered_range. intros H. apply bind_ok in H as [[c1 le] [H1 H]].
  apply fill_loop_spec in H1 as [Hn [new [Hp Hf]]].
  destruct (le <? num_channels c) eqn:E.
  - inv_bind. match goal with Hx : new_simple _ = Ok _ |- _ => rename Hx into Hns end.
    unfold new_simple in Hns.
    destruct (num_channels c - le <? 0) eqn:E2; [discriminate|]. inversion Hns; subst.
    pose proof (register_perm _ _ _ _ _ H) as Hp2.
    apply register_ok in H as [Hn2 _]. split; [congruence|].
    exists (((le, num_channels c), Filled (num_channels c - le)) :: new). split.
    + rewrite Hp2, Hp. reflexivity.
    + intros s e v [Heq|Hin]; [inversion Heq; subst; split; [reflexivity|lia]|apply Hf; auto].
  - inv_bind. split; [exact Hn|]. exists new. auto.
Qed.

(** Reading off contiguous slots. *)
Lemma concat_slots env (d : idict slot) a b :
  contiguous_from (keys d) a = Ok b ->
  (forall s e v, In ((s, e), v) d ->
     s < e /\ length (slot_mask env v) = Z.to_nat (e - s)) ->
  a <= b /\
  length (concat (map (fun kv => slot_mask env (snd kv)) d)) = Z.to_nat (b - a) /\
  (forall s e v i, In ((s, e), v) d -> s <= i < e ->
     a <= i < b /\
     nth_error (concat (map (fun kv => slot_mask env (snd kv)) d)) (Z.to_nat (i - a))
     = nth_error (slot_mask env v) (Z.to_nat (i - s))) /\
  (forall i, a <= i < b -> exists s e v, In ((s, e), v) d /\ s <= i < e).
Proof.
  revert a; induction d as [|[[s0 e0] v0] r IH]; intros a H Hlen; cbn [keys map fst contiguous_from] in H.
  - inv_bind. split; [lia|]. split; [cbn; replace (b - b) with 0 by lia; reflexivity|].
    split; [intros s e v i []|]. intros i Hi. lia.
  - inv_bind. assert (s0 = a) by lia. subst s0.
    destruct (IH e0 H) as (H1 & H2 & H3 & H4).
    { intros s e v Hin. apply Hlen. right; exact Hin. }
    destruct (Hlen a e0 v0 (or_introl eq_refl)) as [Hlt Hl0].
    cbn [map snd concat]. split; [lia|]. split.
    { rewrite app_length, Hl0, H2. lia. }
    split.
    + intros s e v i [Heq|Hin] Hi.
      * inversion Heq; subst. split; [lia|]. rewrite nth_error_app1; [reflexivity|lia].
      * destruct (H3 s e v i Hin Hi) as [Hb Hn]. split; [lia|].
        rewrite nth_error_app2; [|lia]. rewrite <- Hn. f_equal. lia.
    + intros i Hi. destruct (Z_lt_dec i e0).
      * exists a, e0, v0. split; [left; reflexivity|lia].
      * destruct (H4 i) as (s & e & v & Hin & Hr); [lia|].
        exists s, e, v. split; [right; exact Hin|exact Hr].
Qed.

(** History facts. *)
Lemma try_register_num c r : num_channels (try_register c r) = num_channels c.
Proof.
  unfold try_register. destruct r as [id [s e]].
  destruct (register c (Reg id) s e) eqn:E; [|reflexivity].
  apply register_ok in E as [E _]. exact E.
Qed.

Lemma register_all_num n rs : num_channels (register_all n rs) = n.
Proof.
  unfold register_all.
  assert (H : forall c, num_channels (fold_left try_register rs c) = num_channels c).
  { induction rs as [|r rs IH]; intros c; cbn [fold_left]; [reflexivity|].
    rewrite IH. apply try_register_num. }
  rewrite H. reflexivity.
Qed.

Definition regs_only (l : idict slot) : Prop :=
  forall s e v, In ((s, e), v) l -> s < e /\ exists id, v = Reg id.

Lemma register_all_regs n rs : regs_only (slots (register_all n rs)).
Proof.
  unfold register_all.
  assert (H : forall c, regs_only (slots c) -> regs_only (slots (fold_left try_register rs c))).
  { induction rs as [|[id [s e]] rs IH]; intros c Hc; cbn [fold_left]; [exact Hc|].
    apply IH. unfold try_register. destruct (register c (Reg id) s e) eqn:E; [|exact Hc].
    intros s0 e0 v0 Hin. apply (Permutation_in _ (register_perm _ _ _ _ _ E)) in Hin.
    destruct Hin as [Heq|Hin]; [|apply Hc; exact Hin]. inversion Heq; subst.
    apply register_ok in E as [_ E]. apply setitem_ok in E as (Hlt & _ & _). eauto. }
  apply H. intros s e v [].
Qed.

Lemma sort_items_id {V} (d : idict V) :
  StronglySorted (kle V) d -> sort_items d = d.
Proof.
  induction d as [|x r IH]; intros Hs; [reflexivity|].
  inversion Hs as [|? ? Hr Hall]; subst. cbn [sort_items fold_right].
  change (fold_right insert_item [] r) with (sort_items r). rewrite (IH Hr).
  destruct r as [|y r]; [reflexivity|]. cbn [insert_item].
  inversion Hall as [|? ? Hxy _]; subst. unfold kle in Hxy. rewrite Hxy. reflexivity.
Qed.

Lemma contiguous_bounds (d : idict slot) a b :
  contiguous_from (keys d) a = Ok b ->
  (forall s e v, In ((s, e), v) d -> s < e) ->
  a <= b /\ forall s e v, In ((s, e), v) d -> a <= s /\ e <= b.
Proof.
  revert a; induction d as [|[[s0 e0] v0] r IH]; intros a H Hlt;
    cbn [keys map fst contiguous_from] in H.
  - inv_bind. split; [lia|intros s e v []].
  - inv_bind. assert (s0 = a) by lia. subst s0.
    destruct (IH e0 H) as [H1 H2]; [intros s e v Hin; eapply Hlt; right; exact Hin|].
    pose proof (Hlt a e0 v0 (or_introl eq_refl)). split; [lia|].
    intros s e v [Heq|Hin]; [inversion Heq; subst; lia|].
    specialize (H2 s e v Hin). lia.
Qed.

Lemma contiguous_sorted (d : idict slot) a b :
  contiguous_from (keys d) a = Ok b ->
  (forall s e v, In ((s, e), v) d -> s < e) ->
  StronglySorted (kle slot) d.
Proof.
  revert a; induction d as [|[[s0 e0] v0] r IH]; intros a H Hlt;
    cbn [keys map fst contiguous_from] in H; [constructor|].
  inv_bind. assert (s0 = a) by lia. subst s0.
  assert (Hlt' : forall s e v, In ((s, e), v) r -> s < e)
    by (intros s e v Hin; eapply Hlt; right; exact Hin).
  constructor; [eapply IH; eauto|].
  apply Forall_forall. intros [[s e] v] Hin. unfold kle, range_leb; cbn [fst snd].
  destruct (contiguous_bounds r e0 b H Hlt') as [_ Hb]. specialize (Hb s e v Hin).
  pose proof (Hlt a e0 v0 (or_introl eq_refl)). lia.
Qed.

Lemma contiguous_snoc (d : idict slot) a b e v :
  contiguous_from (keys d) a = Ok b ->
  contiguous_from (keys (d ++ [((b, e), v)])) a = Ok e.
Proof.
  revert a; induction d as [|[[s0 e0] v0] r IH]; intros a H;
    cbn [keys map fst contiguous_from app] in *.
  - inv_bind. cbn. rewrite Z.eqb_refl. reflexivity.
  - apply bind_ok in H as [u [Hu H]]. rewrite Hu. cbn [bind]. apply IH. exact H.
Qed.

Lemma fill_loop_contig ks a b c :
  contiguous_from ks a = Ok b -> fill_loop ks a c = Ok (c, b).
Proof.
  revert a; induction ks as [|[s e] r IH]; intros a H; cbn [contiguous_from fill_loop] in *.
  - inv_bind. reflexivity.
  - inv_bind. assert (s = a) by lia. subst s.
    assert (Hf : (a <? a) = false) by lia. rewrite Hf. cbn [bind]. apply IH; exact H.
Qed.

Lemma register_tail c b e v :
  (forall s0 e0 v0, In ((s0, e0), v0) (slots c) -> s0 < e0 /\ e0 <= b) ->
  StronglySorted (kle slot) (slots c) ->
  b < e ->
  register c v b e
  = Ok {| num_channels := num_channels c; slots := slots c ++ [((b, e), v)] |}.
Proof.
  intros Hb Hs Hlt. unfold register, setitem, bind, assert_.
  assert (E1 : (b <? e) = true) by lia. rewrite E1.
  assert (E2 : contains (slots c) (b, e) = false).
  { rewrite contains_exact. apply orb_false_iff. split.
    - destruct (existsb _ _) eqn:E; [|reflexivity]. apply existsb_exists in E as [k [Hk He]].
      apply range_eqb_spec in He; subst k. apply keys_in in Hk as [w Hk].
      specialize (Hb _ _ _ Hk). lia.
    - destruct (existsb _ _) eqn:E; [|reflexivity]. apply existsb_exists in E as [[s0 e0] [Hk He]].
      apply keys_in in Hk as [w Hk]. specialize (Hb _ _ _ Hk). unfold hits in He.
      cbn [fst snd] in He. lia. }
  rewrite E2. cbn [negb]. rewrite sort_items_id; [reflexivity|].
  clear E2. revert Hb Hs. generalize (slots c) as d. intros d.
  induction d as [|[[s0 e0] v0] r IH]; intros Hb Hs; cbn [app].
  - repeat constructor.
  - inversion Hs as [|? ? Hr Hall]; subst. constructor.
    + apply IH; auto. intros s1 e1 v1 Hin. eapply Hb. right; exact Hin.
    + apply Forall_app. split; [exact Hall|]. constructor; [|constructor].
      unfold kle, range_leb; cbn [fst snd].
      pose proof (Hb s0 e0 v0 (or_introl eq_refl)). lia.
Qed.

(** Reading a container whose registered ranges are contiguous from 0. *)
Lemma fill_contig c b :
  contiguous_from (keys (slots c)) 0 = Ok b ->
  (forall s e v, In ((s, e), v) (slots c) -> s < e) ->
  b <= num_channels c ->
  exists c', fill_unregistered_range c = Ok c' /\
    num_channels c' = num_channels c /\
    contiguous_from (keys (slots c')) 0 = Ok (num_channels c) /\
    slots c' = slots c ++ (if b <? num_channels c
                           then [((b, num_channels c), Filled (num_channels c - b))] else []).
Proof.
  intros Hc Hlt Hle. unfold fill_unregistered_range.
  rewrite (fill_loop_contig _ _ _ _ Hc). cbn [bind].
  destruct (b <? num_channels c) eqn:E.
  - unfold new_simple. assert (En : (num_channels c - b <? 0) = false) by lia.
    rewrite En. cbn [bind]. destruct (contiguous_bounds _ _ _ Hc Hlt) as [_ Hb].
    rewrite register_tail.
    + eexists. split; [reflexivity|]. cbn [num_channels slots]. split; [reflexivity|].
      split; [|reflexivity]. apply contiguous_snoc; exact Hc.
    + intros s0 e0 v0 Hin. specialize (Hlt _ _ _ Hin). specialize (Hb _ _ _ Hin). lia.
    + eapply contiguous_sorted; eauto.
    + lia.
  - eexists. split; [reflexivity|]. split; [reflexivity|]. split; [|rewrite app_nil_r; reflexivity].
    rewrite Hc. f_equal. lia.
Qed.
