(** C227: drop path rates.  C228: training and evaluation modes. *)
From Coq Require Import String QArith Qround.
From Verif Require Import Prelude Onnx_Model Onnx_Lemmas Parts_Model.
Local Open Scope string_scope.
Local Open Scope list_scope.
Local Open Scope Z_scope.

(** ** C227 *)
Definition all_blocks (layers : list (list (option Q))) : Prop := forall l b, In l layers -> In b l -> b <> None.
Lemma blocks_all l : (forall b, In b l -> b <> None) -> blocks_in l = length l.
Proof.
  unfold blocks_in. induction l as [| b l IH]; intro H; auto. cbn [filter]. destruct b as [q |]; [| destruct (H None (or_introl eq_refl)); reflexivity].
  cbn. f_equal. apply IH. intros b Hb. apply H. now right.
Qed.
Lemma set_layer_nth rate before total : forall l i j, nth_error (set_layer rate before total i l) j =
  match nth_error l j with Some (Some _) => Some (Some (rate * (inject_Z (Z.of_nat (before + (i + j))) / inject_Z (Z.of_nat total)))%Q) | x => x end.
Proof.
  induction l as [| b l IH]; intros i j; [destruct j; reflexivity |]. destruct b as [q |], j as [| j]; cbn [set_layer nth_error]; auto.
  - now rewrite Nat.add_0_r.
  - rewrite IH. replace (S i + j)%nat with (i + S j)%nat by lia. reflexivity.
  - rewrite IH. replace (S i + j)%nat with (i + S j)%nat by lia. reflexivity.
Qed.
Lemma set_layer_length rate before total : forall l i, length (set_layer rate before total i l) = length l.
Proof. induction l as [| b l IH]; intro i; auto. destruct b; cbn; f_equal; apply IH. Qed.
Lemma set_layers_nth rate stages total : forall layers idx before k l, nth_error layers k = Some l ->
  nth_error (set_layers rate stages total idx before layers) k =
  Some (if existsb (Nat.eqb (idx + k)) stages then set_layer rate (before + blocks_in (concat (firstn k layers))) total 0 l else l).
Proof.
  induction layers as [| x layers IH]; intros idx before k l H; [destruct k; discriminate |]. destruct k as [| k]; cbn [nth_error set_layers] in *.
  - injection H as ->. cbn [firstn concat]. change (blocks_in []) with 0%nat. now rewrite !Nat.add_0_r.
  - rewrite (IH _ _ _ _ H). replace (S idx + k)%nat with (idx + S k)%nat by lia. cbn [firstn concat]. unfold blocks_in. rewrite filter_app, app_length, Nat.add_assoc. reflexivity.
Qed.
(** Only layers named by their number, counted from one, change; blocks of other classes never do, and nothing is added or removed. *)
Theorem C227_others : forall rate stages layers k l, nth_error layers k = Some l ->
  (~ In (S k) stages -> nth_error (set_dropout rate stages layers) k = Some l) /\
  (exists l', nth_error (set_dropout rate stages layers) k = Some l' /\ length l' = length l /\ forall j, nth_error l j = Some None -> nth_error l' j = Some None).
Proof.
  intros rate stages layers k l H. unfold set_dropout. rewrite (set_layers_nth _ _ _ _ _ _ _ _ H). cbn [Nat.add]. split.
  - intro Hn. destruct (existsb (Nat.eqb (S k)) stages) eqn:E; auto. apply existsb_exists in E as [x [Hx E]]. apply Nat.eqb_eq in E. subst x. contradiction.
  - eexists. split; [reflexivity |]. destruct (existsb _ stages); [| auto]. split; [| intros j Hj; now rewrite set_layer_nth, Hj].
    apply set_layer_length.
Qed.
(** Where every block is of the class, the rate of a block grows in proportion to the number of blocks before it, and stays below the rate asked for. *)
Theorem C227_rate : forall rate stages layers k l j q, all_blocks layers -> nth_error layers k = Some l -> nth_error l j = Some (Some q) -> In (S k) stages ->
  exists l' q', nth_error (set_dropout rate stages layers) k = Some l' /\ nth_error l' j = Some (Some q') /\
  (q' == rate * (inject_Z (Z.of_nat (length (concat (firstn k layers)) + j)) / inject_Z (Z.of_nat (length (concat layers)))))%Q /\
  ((0 < rate)%Q -> (0 <= q')%Q /\ (q' < rate)%Q).
Proof.
  intros rate stages layers k l j q Ha H Hj Hs. unfold set_dropout. rewrite (set_layers_nth _ _ _ _ _ _ _ _ H). cbn [Nat.add].
  assert (E : existsb (Nat.eqb (S k)) stages = true) by (apply existsb_exists; exists (S k); split; auto; apply Nat.eqb_refl). rewrite E.
  assert (Hc : forall ls, (forall x, In x ls -> In x layers) -> blocks_in (concat ls) = length (concat ls)).
  { intros ls Hls. apply blocks_all. intros b Hb. apply in_concat in Hb as [x [Hx Hb]]. eapply Ha; eauto. }
  assert (Hlt : (length (concat (firstn k layers)) + j < length (concat layers))%nat).
  { rewrite <- (firstn_skipn k layers) at 2. rewrite concat_app, app_length.
    assert (Es : skipn k layers = l :: skipn (S k) layers).
    { clear -H. revert layers H. induction k as [| k IH]; intros [| x layers] H; try discriminate; cbn in *; [injection H as ->; reflexivity | apply IH; auto]. }
    rewrite Es. cbn [concat]. rewrite app_length. assert (j < length l)%nat by (apply nth_error_Some; rewrite Hj; discriminate). lia. }
  eexists. eexists. split; [reflexivity |]. rewrite set_layer_nth, Hj. cbn [Nat.add]. split; [reflexivity |].
  rewrite (Hc layers (fun x Hx => Hx)), (Hc (firstn k layers)).
  2: { intros x Hx. rewrite <- (firstn_skipn k layers). apply in_or_app. now left. }
  split; [reflexivity |]. intro Hr. set (n := (length (concat (firstn k layers)) + j)%nat) in *. set (t := length (concat layers)) in *.
  assert (H0 : (0 <= inject_Z (Z.of_nat n))%Q) by (change 0%Q with (inject_Z 0); rewrite <- Zle_Qle; lia).
  assert (H1 : (inject_Z (Z.of_nat n) < inject_Z (Z.of_nat t))%Q) by (rewrite <- Zlt_Qlt; lia).
  assert (Ht : (0 < inject_Z (Z.of_nat t))%Q) by (eapply Qle_lt_trans; eauto).
  split.
  - apply Qmult_le_0_compat; [apply Qlt_le_weak; auto |]. unfold Qdiv. apply Qmult_le_0_compat; auto. apply Qlt_le_weak, Qinv_lt_0_compat; auto.
  - setoid_replace rate with (rate * 1)%Q at 2 by ring. apply Qmult_lt_l; auto. apply Qlt_shift_div_r; auto. now rewrite Qmult_1_l.
Qed.
(** The claim in full: rates stay below the one asked for. *)
Definition C227_claim : Prop := forall rate stages layers k l' j q', (0 < rate)%Q -> nth_error (set_dropout rate stages layers) k = Some l' -> nth_error l' j = Some (Some q') -> In (S k) stages -> (q' < rate)%Q.
(** Blocks of other classes have a place in their layer but are not counted: after two of them the only block gets twice the rate. *)
Theorem C227_refuted : ~ C227_claim.
Proof. intro H. specialize (H (1 # 5) [1%nat] [[None; None; Some 0%Q]] 0%nat _ 2%nat _ eq_refl eq_refl eq_refl (or_introl eq_refl)). vm_compute in H. discriminate. Qed.
Theorem C227_order_partial : forall rate stages layers k l l' j j' q q', nth_error layers k = Some l -> In (S k) stages -> nth_error (set_dropout rate stages layers) k = Some l' ->
  (0 < rate)%Q -> (j < j')%nat -> nth_error l' j = Some (Some q) -> nth_error l' j' = Some (Some q') -> (q < q')%Q.
Proof.
  intros rate stages layers k l l' j j' q q' H Hs H' Hr Hlt Hq Hq'. unfold set_dropout in H'. rewrite (set_layers_nth _ _ _ _ _ _ _ _ H) in H'. cbn [Nat.add] in H'.
  assert (E : existsb (Nat.eqb (S k)) stages = true) by (apply existsb_exists; exists (S k); split; auto; apply Nat.eqb_refl). rewrite E in H'. injection H' as <-.
  rewrite set_layer_nth in Hq, Hq'. destruct (nth_error l j) as [[q0 |] |] eqn:Ej; try discriminate. destruct (nth_error l j') as [[q1 |] |]; try discriminate.
  injection Hq as <-. injection Hq' as <-. set (t := blocks_in (concat layers)).
  assert (Ht : (0 < t)%nat).
  { unfold t, blocks_in. assert (Hin : In (Some q0) (filter is_block (concat layers))).
    { apply filter_In. split; [| reflexivity]. apply in_concat. exists l. split; eapply nth_error_In; eauto. } destruct (filter is_block (concat layers)); [destruct Hin | cbn; lia]. }
  assert (HtQ : (0 < inject_Z (Z.of_nat t))%Q) by (change 0%Q with (inject_Z 0); rewrite <- Zlt_Qlt; lia).
  apply Qmult_lt_l; auto. unfold Qdiv. apply Qmult_lt_r; [apply Qinv_lt_0_compat; auto |]. rewrite <- Zlt_Qlt. lia.
Qed.
Example C227_example : set_dropout (1 # 5) [2%nat; 3%nat] [[Some 0%Q]; [Some 0%Q; Some 0%Q]; [Some 0%Q]] = [[Some 0%Q]; [Some (1 # 20)%Q; Some (2 # 20)%Q]; [Some (3 # 20)%Q]].
Proof. reflexivity. Qed.

(** ** C228 *)
(** Modules below (and with) one, with whether they are batch normalization and their flag. *)
Fixpoint flags (t : mtree) : list (bool * bool) :=
  match t with MT k f cs => (match k with KNorm => true | _ => false end, f) :: (fix go (l : list mtree) := match l with [] => [] | x :: r => flags x ++ go r end) cs end.
(** No part of it changes modes by itself. *)
Fixpoint plain (t : mtree) : bool := match t with MT k _ cs => match k with KPlain | KNorm => forallb plain cs | _ => false end end.
Lemma flags_node k f cs : flags (MT k f cs) = (match k with KNorm => true | _ => false end, f) :: concat (map flags cs).
Proof. cbn [flags]. f_equal. induction cs as [| x cs IH]; cbn; auto. now rewrite IH. Qed.
Fixpoint mtree_rect' (P : mtree -> Prop) (H : forall k f cs, (forall c, In c cs -> P c) -> P (MT k f cs)) (t : mtree) : P t :=
  match t with
  | MT k f cs => H k f cs ((fix go (l : list mtree) : forall c, In c l -> P c :=
      match l with [] => fun c F => False_ind _ F | x :: r => fun c F => match F with or_introl E => eq_ind x P (mtree_rect' P H x) c E | or_intror F' => go r c F' end end) cs)
  end.
(** Whatever the flags were before, the last call decides. *)
Lemma on_first_map f (g : mtree -> mtree) l : on_first f (map g l) = match l with [] => [] | x :: r => f (g x) :: map g r end.
Proof. destruct l; reflexivity. Qed.
Theorem C228_last : forall t a b, train b (train a t) = train b t.
Proof.
  assert (G : forall t, (forall a b, train b (train a t) = train b t) /\ (forall c b, train b (set_norms c t) = train b t)).
  { induction t as [k f cs IH] using mtree_rect'.
    assert (Hm : forall b (g : mtree -> mtree), (forall c, In c cs -> train b (g c) = train b c) -> map (train b) (map g cs) = map (train b) cs) by (intros b g Hg; rewrite map_map; apply map_ext_in; exact Hg).
    assert (Hgen : forall b cs', (forall m, map (train m) cs' = map (train m) cs) -> forall f', train b (MT k f' cs') = train b (MT k f cs)).
    { intros b cs' Hc f'. cbn [train]. rewrite !Hc. reflexivity. }
    split.
    - intros a b. remember (train a (MT k f cs)) as t1 eqn:E1.
      assert (Ht : exists cs', t1 = MT k a cs' /\ forall m, map (train m) cs' = map (train m) cs).
      { assert (Hn : forall m c l, (forall x, In x l -> exists y, In y cs /\ (x = train true y \/ x = train false y)) -> map (train m) (map (set_norms c) l) = map (train m) l).
        { intros m c l Hl. rewrite map_map. apply map_ext_in. intros x Hx. destruct (Hl x Hx) as [y [Hy Hxy]]. clear Hx Hl.
          assert (Hx : forall c b, train b (set_norms c x) = train b x).
          { (* the claim for x = train _ y needs its own induction *)
            clear. revert x. induction x as [k f cs IH] using mtree_rect'. intros c b. cbn [set_norms train].
            assert (E : forall m, map (train m) (map (set_norms c) cs) = map (train m) cs) by (intro m; rewrite map_map; apply map_ext_in; intros x Hx; apply IH; auto).
            rewrite !E. reflexivity. }
          apply Hx. }
        assert (Htr : forall m b l, (forall x, In x l -> In x cs) -> map (train m) (map (train b) l) = map (train m) l).
        { intros m b' l Hl. rewrite map_map. apply map_ext_in. intros x Hx. apply (IH x (Hl x Hx)). }
        assert (Hsrc : forall x, In x (map (train a) cs) -> exists y, In y cs /\ (x = train true y \/ x = train false y)).
        { intros x Hx. apply in_map_iff in Hx as [y [<- Hy]]. exists y. split; auto. destruct a; auto. }
        subst t1. cbn [train]. destruct k as [| | frozen ne | nt whole | tn].
        - eexists; split; [reflexivity |]. intro m. apply Htr; auto.
        - eexists; split; [reflexivity |]. intro m. apply Htr; auto.
        - eexists; split; [reflexivity |]. intro m.
          assert (Hb : map (train m) (firstn 1 (map (train a) cs) ++ firstn frozen (tl (map (train false) cs)) ++ skipn frozen (tl (map (train a) cs))) = map (train m) cs).
          { destruct cs as [| s st]; [cbn [map firstn tl app]; now rewrite firstn_nil, skipn_nil |]. cbn [map firstn tl app]. f_equal; [apply IH; now left |].
            assert (Hst : forall x, In x st -> In x (s :: st)) by (intros x Hx; now right).
            rewrite map_app, firstn_map, skipn_map.
            rewrite (Htr m false (firstn frozen st)) by (intros x Hx; apply Hst; rewrite <- (firstn_skipn frozen st); apply in_or_app; auto).
            rewrite (Htr m a (skipn frozen st)) by (intros x Hx; apply Hst; rewrite <- (firstn_skipn frozen st); apply in_or_app; auto).
            now rewrite <- map_app, firstn_skipn. }
          destruct (a && ne); [| exact Hb]. rewrite Hn; [exact Hb |].
          intros x Hx. destruct cs as [| s st]; [cbn [map firstn tl app] in Hx; rewrite firstn_nil, skipn_nil in Hx; destruct Hx |]. cbn [map firstn tl app] in Hx.
          destruct Hx as [<- | Hx]; [exists s; split; [now left | destruct a; auto] |].
          apply in_app_or in Hx as [Hx | Hx].
          + rewrite firstn_map in Hx. apply in_map_iff in Hx as [y [<- Hy]]. exists y. split; auto. right. rewrite <- (firstn_skipn frozen st). apply in_or_app. now left.
          + rewrite skipn_map in Hx. apply in_map_iff in Hx as [y [<- Hy]]. exists y. split; [right; rewrite <- (firstn_skipn frozen st); apply in_or_app; now right | destruct a; auto].
        - eexists; split; [reflexivity |]. intro m. destruct (nt && negb a); [| apply Htr; auto]. destruct whole; [rewrite Hn; auto |].
          destruct cs as [| s st]; [reflexivity |]. cbn [map on_first]. f_equal.
          + pose proof (Hn m true [train a s]) as Q1. cbn [map] in Q1. assert (Q2 : train m (set_norms true (train a s)) = train m (train a s)).
            { assert (Q3 : [train m (set_norms true (train a s))] = [train m (train a s)]) by (apply Q1; intros x [<- | []]; apply Hsrc; now left). now injection Q3. }
            rewrite Q2. apply IH. now left.
          + apply Htr. intros x Hx. now right.
        - eexists; split; [reflexivity |]. intro m. destruct (a && tn); [| apply Htr; auto].
          destruct cs as [| s st]; [reflexivity |]. cbn [map on_first]. f_equal.
          + pose proof (Hn m false [train a s]) as Q1. cbn [map] in Q1. assert (Q2 : train m (set_norms false (train a s)) = train m (train a s)).
            { assert (Q3 : [train m (set_norms false (train a s))] = [train m (train a s)]) by (apply Q1; intros x [<- | []]; apply Hsrc; now left). now injection Q3. }
            rewrite Q2. apply IH. now left.
          + apply Htr. intros x Hx. now right. }
      destruct Ht as [cs' [-> Hc]]. rewrite (Hgen b cs' Hc a). reflexivity.
    - intros c b. cbn [set_norms]. apply Hgen. intro m. apply Hm. intros x Hx. apply IH. exact Hx. }
  intro t. apply G.
Qed.
Lemma flags_train_plain : forall t m, plain t = true -> Forall (fun p : bool * bool => snd p = m) (flags (train m t)).
Proof.
  induction t as [k f cs IH] using mtree_rect'. intros m H. assert (Hp : forallb plain cs = true) by (destruct k; cbn in H; auto; discriminate).
  assert (E : train m (MT k f cs) = MT k m (map (train m) cs)) by (destruct k; cbn in H; try discriminate; reflexivity). rewrite E, flags_node. constructor; [reflexivity |].
  rewrite map_map. apply Forall_concat. rewrite Forall_map. apply Forall_forall. intros c Hc. apply IH; auto. rewrite forallb_forall in Hp. auto.
Qed.
Lemma flags_norms : forall b t, flags (set_norms b t) = map (fun p : bool * bool => if fst p then (true, b) else p) (flags t).
Proof.
  intros b t. induction t as [k f cs IH] using mtree_rect'. cbn [set_norms]. rewrite !flags_node. cbn [map]. f_equal; [destruct k; reflexivity |].
  rewrite concat_map, !map_map. f_equal. apply map_ext_in. exact IH.
Qed.
(** Evaluation with trained statistics: batch normalization of the architecture is in training mode and nothing else is. *)
Theorem C228_norm_training : forall whole f arch rest, plain arch = true -> exists arch' rest', train false (MT (KAlgorithm true whole) f (arch :: rest)) = MT (KAlgorithm true whole) false (arch' :: rest') /\
  Forall (fun p : bool * bool => snd p = fst p) (flags arch') /\ (forallb plain rest = true -> Forall (fun t => Forall (fun p : bool * bool => snd p = (whole && fst p)) (flags t)) rest').
Proof.
  intros whole f arch rest Hp. cbn [train map]. cbn [andb negb].
  assert (HA : forall t, plain t = true -> Forall (fun p : bool * bool => snd p = fst p) (flags (set_norms true (train false t)))).
  { intros t Ht. rewrite flags_norms, Forall_map. eapply Forall_impl; [| apply (flags_train_plain t false Ht)]. intros [n g]. cbn. intros ->. destruct n; reflexivity. }
  destruct whole.
  - eexists. eexists. split; [reflexivity |]. split; [now apply HA |]. intro Hr. rewrite Forall_map, Forall_map. apply Forall_forall. intros t Ht. rewrite forallb_forall in Hr. cbn [andb]. apply HA; auto.
  - eexists. eexists. split; [reflexivity |]. split; [now apply HA |]. intro Hr. rewrite Forall_map. apply Forall_forall. intros t Ht. rewrite forallb_forall in Hr. cbn [andb]. apply flags_train_plain; auto.
Qed.
(** A backbone in training: its frozen stages are evaluated; the others and the stem train, but for batch normalization when it is to be evaluated. *)
Theorem C228_backbone : forall frozen ne f stem stages i s, plain stem = true -> forallb plain stages = true -> nth_error stages i = Some s ->
  exists stem' stages' s', train true (MT (KBackbone frozen ne) f (stem :: stages)) = MT (KBackbone frozen ne) true (stem' :: stages') /\ nth_error stages' i = Some s' /\
  Forall (fun p : bool * bool => snd p = negb (ne && fst p)) (flags stem') /\
  Forall (fun p : bool * bool => snd p = if (i <? frozen)%nat then false else negb (ne && fst p)) (flags s').
Proof.
  intros frozen ne f stem stages i s Hs Hst Hi. rewrite forallb_forall in Hst. pose proof (Hst s (nth_error_In _ _ Hi)) as Hps.
  cbn [train map firstn tl app].
  set (cs := firstn frozen (map (train false) stages) ++ skipn frozen (map (train true) stages)).
  assert (Hc : nth_error cs i = Some (train (negb (i <? frozen)%nat) s)).
  { unfold cs. destruct (i <? frozen)%nat eqn:El; [apply Nat.ltb_lt in El | apply Nat.ltb_ge in El]; cbn [negb].
    - assert (i < length stages)%nat by (apply nth_error_Some; rewrite Hi; discriminate).
      rewrite nth_error_app1 by (rewrite firstn_length, map_length; lia). rewrite firstn_map, nth_error_map.
      assert (En : nth_error (firstn frozen stages) i = nth_error stages i).
      { clear -El. revert i frozen El. induction stages as [| x l IH]; intros i frozen El; [now rewrite firstn_nil | destruct frozen; [lia |]; destruct i; cbn; auto; apply IH; lia]. }
      now rewrite En, Hi.
    - assert (i < length stages)%nat by (apply nth_error_Some; rewrite Hi; discriminate).
      rewrite nth_error_app2 by (rewrite firstn_length, map_length; lia). rewrite firstn_length, map_length.
      replace (min frozen (length stages)) with frozen by lia. rewrite skipn_map, nth_error_map.
      assert (En : nth_error (skipn frozen stages) (i - frozen) = nth_error stages i).
      { clear -El. revert i frozen El. induction stages as [| x l IH]; intros i frozen El; [rewrite skipn_nil; transitivity (@None mtree); [now destruct (i - frozen)%nat | now destruct i] | destruct frozen; [now rewrite Nat.sub_0_r |]; destruct i; [lia |]; cbn; apply IH; lia]. }
      now rewrite En, Hi. }
  assert (HN : forall t m, plain t = true -> Forall (fun p : bool * bool => snd p = (m && negb (true && fst p))) (flags (set_norms false (train m t)))).
  { intros t m Ht. rewrite flags_norms, Forall_map. eapply Forall_impl; [| apply (flags_train_plain t m Ht)]. intros [n g]. cbn. intros ->. destruct n, m; reflexivity. }
  cbn [andb]. destruct ne.
  - exists (set_norms false (train true stem)), (map (set_norms false) cs), (set_norms false (train (negb (i <? frozen)%nat) s)).
    split; [reflexivity |]. split; [now rewrite nth_error_map, Hc |]. split.
    + eapply Forall_impl; [| apply (HN stem true Hs)]. intros p ->. reflexivity.
    + eapply Forall_impl; [| apply (HN s (negb (i <? frozen)%nat) Hps)]. intros p ->. destruct (i <? frozen)%nat; reflexivity.
  - exists (train true stem), cs, (train (negb (i <? frozen)%nat) s). split; [reflexivity |]. split; [exact Hc |]. split.
    + eapply Forall_impl; [| apply (flags_train_plain stem true Hs)]. intros p ->. reflexivity.
    + eapply Forall_impl; [| apply (flags_train_plain s (negb (i <? frozen)%nat) Hps)]. intros p ->. destruct (i <? frozen)%nat; reflexivity.
Qed.
(** A teacher whose normalization is evaluated stays so when training. *)
Theorem C228_teacher : forall f teacher rest, plain teacher = true -> exists teacher', train true (MT (KDistill true) f (teacher :: rest)) = MT (KDistill true) true (teacher' :: map (train true) rest) /\
  Forall (fun p : bool * bool => snd p = negb (fst p)) (flags teacher').
Proof.
  intros f teacher rest Hp. eexists. split; [reflexivity |]. rewrite flags_norms, Forall_map. eapply Forall_impl; [| apply (flags_train_plain teacher true Hp)]. intros [n g]. cbn. intros ->. destruct n; reflexivity.
Qed.
(** Claims in full.  Freezing: a backbone with all stages frozen has no batch normalization in training mode. *)
Definition C228_frozen_claim : Prop := forall frozen f stem stages b, (length stages <= frozen)%nat -> ~ In (true, b) (flags (train true (MT (KBackbone frozen false) f (stem :: stages)))) \/ b = false.
(** The stem's parameters do not get gradients, but its statistics go on changing. *)
Theorem C228_frozen_refuted : ~ C228_frozen_claim.
Proof.
  intro H. destruct (H 1%nat true (MT KPlain true [MT KNorm true []]) [MT KPlain true []] true (le_n _)) as [Hn | Hn]; [| discriminate].
  apply Hn. vm_compute. tauto.
Qed.
(** Normalization that a backbone keeps in evaluation mode while training is in evaluation mode in evaluation. *)
Definition C228_norm_eval_claim : Prop := forall nt f frozen stem stages rest b arch' rest', train false (MT (KAlgorithm nt false) f (MT (KBackbone frozen true) f (stem :: stages) :: rest)) = MT (KAlgorithm nt false) false (arch' :: rest') ->
  In (true, b) (flags arch') -> b = false.
Theorem C228_norm_eval_refuted : ~ C228_norm_eval_claim.
Proof. intro H. specialize (H true true 0%nat (MT KPlain true [MT KNorm true []]) [] [] true _ _ eq_refl). assert (true = false) by (apply H; vm_compute; tauto). discriminate. Qed.
(** Calls can be chained: train returns the module. *)
Definition C228_return_claim : Prop := forall mode t, train_returns mode t = Some (train mode t).
Theorem C228_return_refuted : ~ C228_return_claim.
Proof. intro H. specialize (H true (MT (KAlgorithm false false) true [])). discriminate. Qed.
Theorem C228_return_partial : forall mode t, plain t = true -> train_returns mode t = Some (train mode t).
Proof. intros mode [k f cs] H. destruct k; cbn in H; try discriminate; reflexivity. Qed.
Example C228_example : flags (train true (MT (KBackbone 1 true) false [MT KPlain false [MT KNorm false []]; MT KPlain false [MT KNorm false []]; MT KPlain false [MT KNorm true []; MT KPlain false []]])) =
  [(false, true); (false, true); (true, false); (false, false); (true, false); (false, true); (true, false); (false, true)].
Proof. reflexivity. Qed.
Example C228_supernet : flags (train false (MT (KAlgorithm true false) true [MT KPlain true [MT KNorm true []; MT KPlain true []]; MT KNorm true []])) = [(false, false); (false, false); (true, true); (false, false); (true, false)].
Proof. reflexivity. Qed.
Print Assumptions C227_others.
Print Assumptions C227_rate.
Print Assumptions C227_refuted.
Print Assumptions C227_order_partial.
Print Assumptions C228_last.
Print Assumptions C228_norm_training.
Print Assumptions C228_backbone.
Print Assumptions C228_teacher.
Print Assumptions C228_frozen_refuted.
Print Assumptions C228_norm_eval_refuted.
Print Assumptions C228_return_refuted.
Print Assumptions C228_return_partial.
