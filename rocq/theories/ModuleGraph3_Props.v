(** C158: inserting bind nodes reroutes exactly the inputs of the layers with several inputs;
    renaming keeps the graph, in topological order, unless a module has one of the new names. *)
From Coq Require Import Relations Permutation.
From Verif Require Import Prelude Graph_Model Graph_Lemmas Graph_Props ModuleGraph_Model ModuleGraph_Lemmas ModuleGraph_Props ModuleGraph2_Props.
From Verif Require Engine_Model Engine_Props Distill_Props.
Local Open Scope list_scope.

Lemma numbered_inj p i j : numbered p i = numbered p j -> i = j.
Proof. unfold numbered. intros H. apply Distill_Props.append_inj in H. apply Engine_Props.decimal_inj. exact H. Qed.

(** ** One bind node *)
Lemma insert_ok g E k b : WF g E -> stored g k -> stored g b -> b <> k -> (forall x, ~ E x b) -> (forall y, ~ E b y) ->
  exists g', insert_node_before k b g = (g', Ok tt) /\
    WF g' (fun x y => (E x y /\ y <> k) \/ (y = b /\ E x k) \/ (x = b /\ y = k)) /\
    (forall z, stored g' z <-> stored g z).
Proof.
  intros W Hk Hb Hne Hin Hout. pose proof Hk as [nd Hf]. unfold insert_node_before. rewrite Hf.
  assert (Pn : forall p, In p (n_prev nd) <-> E p k).
  { intros p. destruct W as [(_ & _ & _ & H4) _]. rewrite <- H4. unfold preds. rewrite Hf. tauto. }
  destruct (loop_connect (fun p => (p, b)) (n_prev nd) g E W) as (g1 & E1 & W1 & S1 & _).
  { intros p Hp. cbn. split; [apply Pn in Hp; apply W in Hp; apply Hp|exact Hb]. }
  cbn [fst snd] in E1. unfold seq_op at 1. rewrite E1.
  assert (Hb1 : stored g1 b) by (apply S1; exact Hb). pose proof Hb1 as [nn Hfn]. rewrite Hfn.
  assert (Pb : forall p, In p (n_prev nn) <-> E p k).
  { intros p. destruct W1 as [(_ & _ & _ & H4) _]. pose proof (H4 p b) as H. unfold preds in H. rewrite Hfn in H. rewrite H. split.
    - intros [Hx|(q & Hq & He)]; [destruct (Hin _ Hx)|]. inversion He; subst. apply Pn. exact Hq.
    - intros Hp. right. exists p. split; [apply Pn; exact Hp|reflexivity]. }
  destruct (loop_in k (n_prev nn) g1 _ (proj1 W1)) as (g2 & E2 & R2 & S2).
  { apply S1. exact Hk. } { intros y Hy. apply S1. apply Pb in Hy. apply W in Hy. apply Hy. }
  unfold seq_op at 1. rewrite E2.
  destruct (connect_ok g2 _ b k R2) as (g3 & E3 & R3 & S3).
  { apply S2. exact Hb1. } { apply S2, S1. exact Hk. }
  exists g3. split; [exact E3|].
  assert (St : forall z, stored g3 z <-> stored g z) by (intros z; rewrite S3, S2; apply S1).
  split; [|exact St].
  assert (Ex : forall x y, ((E x y \/ exists p, In p (n_prev nd) /\ (p, b) = (x, y)) /\ ~ (y = k /\ In x (n_prev nn))) \/ (x = b /\ y = k) <->
                           (E x y /\ y <> k) \/ (y = b /\ E x k) \/ (x = b /\ y = k)).
  { intros x y. rewrite Pb. split.
    - intros [[[Hx|(p & Hp & He)] Hnn]|Hx]; [|inversion He; subst; right; left; split; [reflexivity|apply Pn; exact Hp]|auto].
      destruct (keq y k) as [->|Hy]; [|auto]. tauto.
    - intros [[Hx Hy]|[[-> Hx]|Hx]]; [left; tauto| |auto].
      left. split; [right; exists x; split; [apply Pn; exact Hx|reflexivity]|]. intros [Hc _]. contradiction. }
  split; [apply (Rep_ext _ _ _ R3); exact Ex|].
  intros x y Hxy. rewrite !St. destruct Hxy as [[Hx _]|[[-> Hx]|[-> ->]]].
  - apply W. exact Hx.
  - apply W in Hx. tauto.
  - tauto.
Qed.

(** ** All of them *)
Section BindProps.
Variable narrow : nat -> bool.
Definition bind_key (n i : nat) : key := (numbered "bind_placeholder_" (n + i), v_bind).

Definition rerouted (E : key -> key -> Prop) (n : nat) (l : list key) (x y : key) : Prop :=
  (E x y /\ ~ In y l) \/
  exists i k, nth_error l i = Some k /\ ((x = bind_key n i /\ y = k) \/ (y = bind_key n i /\ E x k)).

Lemma bind_all_ok : forall l n g E, WF g E -> NoDup l -> (forall k, In k l -> stored g k) ->
  (forall i v, (n <= i)%nat -> ~ stored g (numbered "bind_placeholder_" i, v)) ->
  exists g', bind_all l n g = (g', Ok (n + length l)%nat) /\ WF g' (rerouted E n l) /\
    (forall z, stored g' z <-> stored g z \/ exists i, (i < length l)%nat /\ z = bind_key n i).
Proof.
  induction l as [|k l IH]; intros n g E W N Hl Fr; cbn [bind_all].
  - exists g. rewrite Nat.add_0_r. split; [reflexivity|]. split.
    + apply (WF_ext _ _ _ W). intros x y. unfold rerouted. split; [auto|]. intros [[H _]|(i & k & H & _)]; [exact H|destruct i; discriminate].
    + intros z. split; [auto|]. intros [H|(i & H & _)]; [exact H|cbn in H; lia].
  - set (b := (numbered "bind_placeholder_" n, v_bind)).
    assert (Eb0 : bind_key n 0 = b) by (unfold bind_key; rewrite Nat.add_0_r; reflexivity).
    assert (Bs : forall i, bind_key n (S i) = bind_key (S n) i) by (intros i; unfold bind_key; rewrite Nat.add_succ_r; reflexivity).
    assert (Hb : forall z, stored g z -> fst z <> fst b).
    { intros [nm v] Hz Hf. cbn in Hf. subst nm. exact (Fr n v (le_n _) Hz). }
    destruct (add_or_find_ok g E b W) as (g1 & E1 & W1 & S1 & _).
    { intros z Hz Hf. exfalso. exact (Hb z Hz Hf). }
    assert (Hk : stored g k) by (apply Hl; left; reflexivity).
    assert (Hbk : b <> k) by (intros He; apply (Hb k Hk); congruence).
    assert (Nin : forall x, ~ E x b) by (intros x Hx; apply W in Hx as [_ Hx]; exact (Hb b Hx eq_refl)).
    assert (Nout : forall x, ~ E b x) by (intros x Hx; apply W in Hx as [Hx _]; exact (Hb b Hx eq_refl)).
    destruct (insert_ok g1 E k b W1) as (g2 & E2 & W2 & S2); [apply S1; auto|apply S1; auto|exact Hbk|exact Nin|exact Nout|].
    unfold seq_op. rewrite E1, E2. inversion N as [|? ? Nk Nl]; subst.
    destruct (IH (S n) g2 _ W2 Nl) as (g3 & E3 & W3 & S3).
    { intros z Hz. apply S2, S1. left. apply Hl. right. exact Hz. }
    { intros i v Hi Hs. apply S2, S1 in Hs as [Hs|Hs]; [exact (Fr i v (Nat.lt_le_incl _ _ Hi) Hs)|].
      apply (f_equal fst) in Hs. cbn [fst b] in Hs. apply numbered_inj in Hs. lia. }
    exists g3. split; [rewrite E3; f_equal; f_equal; cbn; lia|]. split.
    + apply (WF_ext _ _ _ W3). intros x y. unfold rerouted.
      assert (Hlb : ~ In b l) by (intros Hi; apply (Hb b); [apply Hl; right; exact Hi|reflexivity]).
      split.
      * intros [[[[Hx Hy]|[[-> Hx]|[-> ->]]] Hni]|(i & q & Hq & Hc)].
        -- left. split; [exact Hx|]. intros [Hc|Hc]; [congruence|contradiction].
        -- right. exists 0%nat, k. split; [reflexivity|]. right. rewrite Eb0. auto.
        -- right. exists 0%nat, k. split; [reflexivity|]. left. rewrite Eb0. auto.
        -- assert (Hql : In q l) by (eapply nth_error_In; exact Hq).
           assert (Hqb : q <> b) by (intros ->; contradiction). assert (Hqk : q <> k) by (intros ->; contradiction).
           right. exists (S i), q. split; [exact Hq|]. rewrite Bs. destruct Hc as [Hc|[-> [[Hx _]|[[Hx _]|[_ Hx]]]]]; [auto|auto|contradiction|contradiction].
      * intros [[Hx Hy]|(i & q & Hq & Hc)].
        -- left. split; [left; split; [exact Hx|]|]; intros Hc; apply Hy; [left; auto|right; exact Hc].
        -- destruct i as [|i]; cbn in Hq.
           ++ inversion Hq; subst q. rewrite Eb0 in Hc. left. destruct Hc as [[-> ->]|[-> Hx]].
              ** split; [auto|exact Nk].
              ** split; [auto|exact Hlb].
           ++ assert (Hql : In q l) by (eapply nth_error_In; exact Hq).
              assert (Hqk : q <> k) by (intros ->; contradiction).
              right. exists i, q. split; [exact Hq|]. rewrite Bs in Hc. destruct Hc as [Hc|[-> Hx]]; [auto|].
              right. split; [reflexivity|]. left. auto.
    + intros z. rewrite S3, S2, S1. split.
      * intros [[H|H]|(i & Hi & H)]; [auto|right; exists 0%nat; split; [cbn; lia|rewrite Eb0; exact H]|].
        right. exists (S i). rewrite Bs. split; [cbn; lia|exact H].
      * intros [H|(i & Hi & H)]; [auto|]. destruct i as [|i]; [rewrite Eb0 in H; auto|].
        right. exists i. rewrite Bs in H. split; [cbn in Hi; lia|exact H].
Qed.

Lemma needs_bind_in g E : WF g E -> forall k, In k (needs_bind narrow g) <->
  stored g k /\ narrow (snd k) = true /\ exists p q, p <> q /\ E p k /\ E q k.
Proof.
  intros W k. assert (N : NoDup (map fst g)) by exact (WF_names _ _ W). unfold needs_bind. rewrite in_map_iff.
  assert (Ent : forall nm nd, In (nm, nd) g -> find_node g (nm, n_val nd) = Some nd).
  { intros nm nd Hi. apply node_of_find; [exact N|]. split; [exact Hi|reflexivity]. }
  assert (Pr : forall k nd, find_node g k = Some nd -> forall p, In p (n_prev nd) <-> E p k).
  { intros k0 nd Hf p. destruct W as [(_ & _ & _ & H4) _]. rewrite <- H4. unfold preds. rewrite Hf. tauto. }
  split.
  - intros ([nm nd] & <- & Hi). apply filter_In in Hi as [Hi Hc]. cbn [fst snd] in Hc. apply andb_true_iff in Hc as [Hn Hc].
    apply Nat.ltb_lt in Hc. pose proof (Ent nm nd Hi) as Hf. split; [exists nd; exact Hf|]. split; [exact Hn|]. cbn [fst snd].
    pose proof (Pr _ _ Hf) as Hp. destruct W as [(_ & H2 & _) _]. destruct (H2 (nm, n_val nd)) as [_ Nd].
    unfold preds in Nd. rewrite Hf in Nd. destruct (n_prev nd) as [|p [|q r]] eqn:Ep; cbn in Hc; [lia|lia|].
    exists p, q. split; [intros ->; inversion Nd; subst; cbn in *; tauto|]. split; apply Hp; cbn; auto.
  - intros ([nd Hf] & Hn & p & q & Hne & Hp & Hq). exists (fst k, nd). cbn [fst snd].
    pose proof (find_val _ _ _ Hf) as Hv. split; [destruct k; cbn in *; congruence|]. apply filter_In. cbn [fst snd]. rewrite Hv, Hn. cbn [andb]. split.
    + apply node_of_find in Hf; [apply Hf|exact N].
    + apply Nat.ltb_lt. apply (Pr _ _ Hf) in Hp, Hq. destruct (n_prev nd) as [|a [|b r]]; [destruct Hp| |cbn; lia].
      cbn in Hp, Hq. exfalso. apply Hne. destruct Hp as [<-|[]], Hq as [<-|[]]. reflexivity.
Qed.
Lemma needs_bind_nodup g : NoDup (map fst g) -> NoDup (needs_bind narrow g).
Proof.
  intros N. apply (NoDup_map_inv fst). unfold needs_bind. rewrite map_map. cbn.
  apply (nodup_filter_names (fun p => narrow (n_val (snd p)) && (1 <? length (n_prev (snd p)))%nat) g) in N. exact N.
Qed.

(** Every layer of the given kinds with several inputs gets its own bind node, which takes over
    its inputs and becomes its only input; nothing else changes. *)
Theorem C158_bind : forall cs n, deletes_ok empty_graph cs ->
  let g := run cs empty_graph in
  (forall i v, (n <= i)%nat -> ~ present g (numbered "bind_placeholder_" i, v)) ->
  exists l g', insert_bind_nodes narrow n g = (g', Ok (n + length l)%nat) /\ consistent g' /\ NoDup l /\
    (forall k, In k l <-> present g k /\ narrow (snd k) = true /\
       exists p q, p <> q /\ lists_next g p k /\ lists_next g q k) /\
    (forall x y, lists_next g' x y <->
       (lists_next g x y /\ ~ In y l) \/
       exists i k, nth_error l i = Some k /\ ((x = bind_key n i /\ y = k) \/ (y = bind_key n i /\ lists_next g x k))) /\
    (forall z, present g' z <-> present g z \/ exists i, (i < length l)%nat /\ z = bind_key n i).
Proof.
  intros cs n Hd g Fr. assert (HG : G g) by (apply run_G; [apply G_empty|exact Hd]).
  assert (N : NoDup (map fst g)) by apply HG.
  assert (P : forall k, present g k <-> stored g k) by (intros k; apply present_stored; exact N).
  destruct (bind_all_ok (needs_bind narrow g) n g _ HG (needs_bind_nodup g N)) as (g' & E & W & S1).
  { intros k Hk. apply (needs_bind_in g _ HG) in Hk. apply Hk. }
  { intros i v Hi Hs. apply (Fr i v Hi). apply P. exact Hs. }
  exists (needs_bind narrow g), g'. split; [exact E|]. split; [apply G_consistent; exact (WF_G _ _ W)|].
  split; [apply needs_bind_nodup; exact N|]. split; [|split].
  - intros k. rewrite P. apply (needs_bind_in g _ HG).
  - exact (WF_lists _ _ W).
  - intros z. rewrite present_stored by exact (WF_names _ _ W). rewrite P. apply S1.
Qed.

(** Afterwards each of these layers has at most one input. *)
Theorem C158_single : forall cs n g' m, deletes_ok empty_graph cs ->
  let g := run cs empty_graph in
  narrow v_bind = false ->
  (forall i v, (n <= i)%nat -> ~ present g (numbered "bind_placeholder_" i, v)) ->
  insert_bind_nodes narrow n g = (g', Ok m) ->
  forall k p q, narrow (snd k) = true -> lists_next g' p k -> lists_next g' q k -> p = q.
Proof.
  intros cs n g' m Hd g Hb Fr E k p q Hn Hp Hq.
  destruct (C158_bind cs n Hd Fr) as (l & g1 & E1 & _ & Nd & Hl & He & _). fold g in E1, Hl, He.
  rewrite E in E1. inversion E1; subst g1. clear E1.
  assert (Fb : forall i, k <> bind_key n i) by (intros i ->; cbn in Hn; congruence).
  apply He in Hp, Hq.
  destruct Hp as [[Hp Np]|(i & k1 & Hi & [[-> <-]|[Hp _]])]; [| |destruct (Fb _ Hp)];
  destruct Hq as [[Hq Nq]|(j & k2 & Hj & [[-> <-]|[Hq _]])]; try (destruct (Fb _ Hq)).
  - destruct (keq p q) as [Heq|Hne]; [exact Heq|]. exfalso. apply Np. apply Hl. split; [|split; [exact Hn|exists p, q; auto]].
    assert (HG : G g) by (apply run_G; [apply G_empty|exact Hd]). apply (G_consistent _ HG) in Hp. apply Hp.
  - exfalso. apply Np. eapply nth_error_In. exact Hj.
  - exfalso. apply Nq. eapply nth_error_In. exact Hi.
  - f_equal. rewrite <- Hi in Hj. apply (proj1 (NoDup_nth_error l) Nd) in Hj; [exact (eq_sym Hj)|].
    apply nth_error_Some. rewrite Hj, Hi. discriminate.
Qed.
End BindProps.
Print Assumptions C158_bind.
Print Assumptions C158_single.

Example C158_bind_example :
  let a := ("a"%string, 10%nat) in let b := ("b"%string, 11%nat) in let c := ("c"%string, 12%nat) in
  let narrow (v : nat) := Nat.leb 10 v in
  let g := run [AddNode a; AddNode b; AddNode c; Connect a c; Connect b c; Connect a b] empty_graph in
  map (fun p => (fst p, n_prev (snd p))) (fst (insert_bind_nodes narrow 0 g))
  = [("a", []); ("b", [a]); ("c", [("bind_placeholder_0", v_bind)]); ("bind_placeholder_0", [a; b])]%string.
Proof. vm_compute. reflexivity. Qed.
