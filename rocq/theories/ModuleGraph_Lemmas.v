(** Lemmas on the graph operations used by ModuleGraph_Model. *)
From Verif Require Import Prelude Graph_Model Graph_Lemmas Graph_Props ModuleGraph_Model.
Local Open Scope list_scope.

Lemma stored_names g k : stored g k -> In (fst k) (map fst g).
Proof.
  intros [nd H]. unfold find_node in H. destruct (get g (fst k)) eqn:E; [|discriminate].
  apply get_in in E. apply (in_map fst) in E. exact E.
Qed.
Lemma names_stored g nm : In nm (map fst g) -> exists v, stored g (nm, v).
Proof.
  intros H. destruct (get g nm) as [nd|] eqn:E.
  - exists (n_val nd), nd. unfold find_node. cbn. rewrite E, Nat.eqb_refl. reflexivity.
  - apply get_none in E. contradiction.
Qed.
Lemma stored_dec g k : {stored g k} + {~ stored g k}.
Proof.
  destruct (find_node g k) as [nd|] eqn:E; [left; exists nd; exact E|right]. intros [nd H]. congruence.
Qed.
Lemma keys_stored g k : NoDup (map fst g) -> In k (keys g) <-> stored g k.
Proof.
  intros N. rewrite <- present_stored by exact N. unfold keys, present, node_of. rewrite in_map_iff. split.
  - intros ([nm nd] & <- & H). exists nd. auto.
  - intros (nd & H & Hv). exists (fst k, nd). cbn. rewrite Hv. split; [destruct k; reflexivity|exact H].
Qed.
Lemma names_connect a b g : map fst (fst (connect a b g)) = map fst g.
Proof.
  unfold connect. destruct (find_node g a), (find_node g b); try reflexivity. cbn.
  unfold add_prev_node, add_next_node. rewrite !names_upd. reflexivity.
Qed.
Lemma names_disconnect a b g : map fst (fst (disconnect a b g)) = map fst g.
Proof.
  unfold disconnect. destruct (find_node g a), (find_node g b); try reflexivity. cbn.
  rewrite !names_upd. reflexivity.
Qed.

Lemma connect_WF g E a b : WF g E -> stored g a -> stored g b ->
  exists g', connect a b g = (g', Ok tt) /\ WF g' (fun x y => E x y \/ (x = a /\ y = b)) /\
    (forall k, stored g' k <-> stored g k) /\ map fst g' = map fst g.
Proof.
  intros [HR HS] Ha Hb. destruct (connect_ok g E a b HR Ha Hb) as (g' & E1 & R & S1).
  exists g'. split; [exact E1|]. split; [|split; [exact S1|]].
  - split; [exact R|]. intros x y [H|[-> ->]]; rewrite !S1; [apply HS; exact H|auto].
  - pose proof (names_connect a b g) as H. rewrite E1 in H. exact H.
Qed.
Lemma disconnect_WF g E a b : WF g E -> stored g a -> stored g b ->
  exists g', disconnect a b g = (g', Ok tt) /\ WF g' (fun x y => E x y /\ ~ (x = a /\ y = b)) /\
    (forall k, stored g' k <-> stored g k) /\ map fst g' = map fst g.
Proof.
  intros [HR HS] Ha Hb. destruct (disconnect_ok g E a b HR Ha Hb) as (g' & E1 & R & S1).
  exists g'. split; [exact E1|]. split; [|split; [exact S1|]].
  - split; [exact R|]. intros x y [H _]; rewrite !S1. apply HS. exact H.
  - pose proof (names_disconnect a b g) as H. rewrite E1 in H. exact H.
Qed.
Lemma WF_ext g E F : WF g E -> (forall x y, E x y <-> F x y) -> WF g F.
Proof.
  intros [HR HS] H. split; [exact (Rep_ext _ _ _ HR H)|]. intros x y Hf. apply HS. apply H. exact Hf.
Qed.

(** [add_or_find] of a key that does not clash with a stored one. *)
Definition fits (g : graph) (k : key) : Prop := forall z, stored g z -> fst z = fst k -> z = k.
Lemma add_or_find_ok g E k : WF g E -> fits g k ->
  exists g', add_or_find k g = (g', Ok tt) /\ WF g' E /\ (forall z, stored g' z <-> stored g z \/ z = k) /\
    map fst g' = (if stored_dec g k then map fst g else map fst g ++ [fst k]).
Proof.
  intros W F. unfold add_or_find. destruct (find_node g k) as [nd|] eqn:E1.
  - exists g. assert (Hs : stored g k) by (exists nd; exact E1).
    split; [reflexivity|]. split; [exact W|]. split.
    + intros z. split; [auto|]. intros [H|H]; [exact H|subst; exact Hs].
    + destruct (stored_dec g k); [reflexivity|contradiction].
  - assert (Hn : ~ stored g k) by (intros [nd H]; congruence).
    assert (Hni : ~ In (fst k) (map fst g)).
    { intros Hi. apply names_stored in Hi as [v Hv]. pose proof (F _ Hv eq_refl) as H. rewrite H in Hv.
      contradiction. }
    destruct (proj1 (add_ok g E k W) Hni) as (g' & E2 & W' & S2). exists g'.
    split; [exact E2|]. split; [exact W'|]. split; [exact S2|].
    destruct (stored_dec g k); [contradiction|].
    unfold add_node in E2. destruct (get g (fst k)) eqn:E3; inversion E2; subst.
    rewrite map_app. reflexivity.
Qed.
Lemma add_or_find_clash g k z : stored g z -> fst z = fst k -> z <> k ->
  add_or_find k g = (g, Raise GenericException).
Proof.
  intros Hz Hf Hne. unfold add_or_find. destruct (find_node g k) as [nd|] eqn:E1.
  - exfalso. apply Hne. apply (stored_inj g); [exact Hz|exists nd; exact E1|exact Hf].
  - unfold add_node. destruct (get g (fst k)) eqn:E2; [reflexivity|].
    apply get_none in E2. exfalso. apply E2. rewrite <- Hf. apply stored_names. exact Hz.
Qed.

(** A list of keys in which a name determines the key. *)
Definition named (P : key -> Prop) : Prop := forall a b, P a -> P b -> fst a = fst b -> a = b.

Lemma loop_add : forall l g E, WF g E -> named (fun k => stored g k \/ In k l) ->
  exists g', for_each l add_or_find g = (g', Ok tt) /\ WF g' E /\ (forall z, stored g' z <-> stored g z \/ In z l).
Proof.
  induction l as [|k l IH]; intros g E W N; cbn [for_each].
  - exists g. split; [reflexivity|]. split; [exact W|]. cbn. tauto.
  - destruct (add_or_find_ok g E k W) as (g1 & E1 & W1 & S1 & _).
    { intros z Hz Hf. apply N; [left; exact Hz|right; left; reflexivity|exact Hf]. }
    unfold seq_op. rewrite E1.
    destruct (IH g1 E W1) as (g2 & E2 & W2 & S2).
    { intros a b Ha Hb. rewrite S1 in Ha, Hb. apply N; cbn; intuition. }
    exists g2. split; [exact E2|]. split; [exact W2|]. intros z. rewrite S2, S1. cbn. intuition.
Qed.
Lemma loop_add_names : forall l g E, WF g E -> NoDup (map fst l) ->
  (forall k, In k l -> ~ In (fst k) (map fst g)) ->
  map fst (fst (for_each l add_or_find g)) = map fst g ++ map fst l.
Proof.
  induction l as [|k l IH]; intros g E W N H; cbn [for_each].
  - cbn. rewrite app_nil_r. reflexivity.
  - destruct (add_or_find_ok g E k W) as (g1 & E1 & W1 & S1 & N1).
    { intros z Hz Hf. exfalso. apply (H k (or_introl eq_refl)). rewrite <- Hf. apply stored_names. exact Hz. }
    unfold seq_op. rewrite E1. inversion N as [|? ? Hk Hl]; subst.
    destruct (stored_dec g k) as [Hs|Hs].
    { exfalso. apply (H k (or_introl eq_refl)). apply stored_names. exact Hs. }
    rewrite (IH g1 E W1 Hl).
    + rewrite N1, <- app_assoc. reflexivity.
    + intros z Hz. rewrite N1, in_app_iff. cbn. intros [Hc|[Hc|[]]].
      * apply (H z (or_intror Hz)). exact Hc.
      * apply Hk. rewrite Hc. apply in_map. exact Hz.
Qed.

(** Loops of connections. *)
Lemma loop_connect (pq : key -> key * key) : forall l g E, WF g E ->
  (forall k, In k l -> stored g (fst (pq k)) /\ stored g (snd (pq k))) ->
  exists g', for_each l (fun k => connect (fst (pq k)) (snd (pq k))) g = (g', Ok tt) /\
    WF g' (fun x y => E x y \/ exists k, In k l /\ pq k = (x, y)) /\
    (forall z, stored g' z <-> stored g z) /\ map fst g' = map fst g.
Proof.
  induction l as [|k l IH]; intros g E W H; cbn [for_each].
  - exists g. split; [reflexivity|]. split; [|split; [tauto|reflexivity]].
    apply (WF_ext _ _ _ W). intros x y. split; [auto|]. intros [Hx|(k & [] & _)]; exact Hx.
  - destruct (H k (or_introl eq_refl)) as [Ha Hb].
    destruct (connect_WF g E _ _ W Ha Hb) as (g1 & E1 & W1 & S1 & N1). unfold seq_op. rewrite E1.
    destruct (IH g1 _ W1) as (g2 & E2 & W2 & S2 & N2).
    { intros z Hz. rewrite !S1. apply H. right. exact Hz. }
    exists g2. split; [exact E2|]. split; [|split; [intros z; rewrite S2; apply S1|congruence]].
    apply (WF_ext _ _ _ W2). intros x y. cbn. split.
    + intros [[Hx|[-> ->]]|(z & Hz & Hp)]; [auto| |right; exists z; auto].
      right. exists k. split; [auto|]. destruct (pq k); reflexivity.
    + intros [Hx|(z & [<-|Hz] & Hp)]; [auto| |right; exists z; auto].
      left. right. rewrite Hp. auto.
Qed.
Lemma for_each_ext (f h : key -> op unit) : forall l,
  (forall k, In k l -> forall g, f k g = h k g) -> forall g, for_each l f g = for_each l h g.
Proof.
  induction l as [|k l IH]; intros H g; cbn [for_each]; [reflexivity|]. unfold seq_op.
  rewrite (H k (or_introl eq_refl)). destruct (h k g) as [g' [u|e]]; [|reflexivity].
  apply IH. intros z Hz. apply H. right. exact Hz.
Qed.
Lemma WF_empty : WF empty_graph (fun _ _ => False).
Proof. apply (WF_ext _ _ _ G_empty). intros x y. split; [intros (nd & [[] _] & _)|intros []]. Qed.
Lemma empty_stored k : ~ stored empty_graph k.
Proof. intros [nd H]. discriminate. Qed.
Lemma WF_names g E : WF g E -> NoDup (map fst g).
Proof. intros [(H & _) _]. exact H. Qed.
