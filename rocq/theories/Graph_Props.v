(** C12, C13: graph edits and topological traversal. *)
From Verif Require Import Prelude Graph_Model Graph_Lemmas.
From Coq Require Import Relations Permutation.

(** * Specification vocabulary: what a user sees when looking at the stored nodes *)
Definition node_of (g : graph) (a : key) (nd : node) : Prop := In (fst a, nd) g /\ n_val nd = snd a.
Definition present (g : graph) (a : key) : Prop := exists nd, node_of g a nd.
(** [b] is listed among the successors / predecessors of [a]. *)
Definition lists_next (g : graph) (a b : key) : Prop := exists nd, node_of g a nd /\ In b (n_next nd).
Definition lists_prev (g : graph) (a b : key) : Prop := exists nd, node_of g a nd /\ In b (n_prev nd).
Definition path (g : graph) : key -> key -> Prop := clos_trans key (lists_next g).

(** In a history, no node that is its own successor is deleted. *)
Fixpoint deletes_ok (g : graph) (cs : list call) : Prop :=
  match cs with
  | [] => True
  | c :: r => match c with DeleteNode k => ~ lists_next g k k | _ => True end
              /\ deletes_ok (fst (exec c g)) r
  end.
(** In a history of DAG operations no connect closes a cycle. *)
Fixpoint dag_history (g : graph) (cs : list call) : Prop :=
  match cs with
  | [] => True
  | c :: r => match c with Connect a b => a <> b /\ ~ path g b a | _ => True end
              /\ dag_history (fst (exec c g)) r
  end.

Lemma node_of_find g a nd : NoDup (map fst g) -> node_of g a nd <-> find_node g a = Some nd.
Proof.
  intros Hnd. unfold node_of, find_node. split.
  - intros [Hi Hv]. rewrite (in_get _ _ _ Hnd Hi), Hv, Nat.eqb_refl. reflexivity.
  - destruct (get g (fst a)) as [d|] eqn:E; [|discriminate].
    destruct (Nat.eqb_spec (n_val d) (snd a)); [|discriminate].
    intros H. inversion H; subst. split; [apply get_in; exact E|assumption].
Qed.
Lemma lists_next_succs g a b : NoDup (map fst g) -> lists_next g a b <-> In b (succs g a).
Proof.
  intros Hnd. unfold lists_next, succs. split.
  - intros (nd & Hn & Hi). apply node_of_find in Hn; [|exact Hnd]. rewrite Hn. exact Hi.
  - destruct (find_node g a) as [nd|] eqn:E; [|intros []]. intros Hi.
    exists nd. split; [apply node_of_find; assumption|exact Hi].
Qed.
Lemma lists_prev_preds g a b : NoDup (map fst g) -> lists_prev g a b <-> In b (preds g a).
Proof.
  intros Hnd. unfold lists_prev, preds. split.
  - intros (nd & Hn & Hi). apply node_of_find in Hn; [|exact Hnd]. rewrite Hn. exact Hi.
  - destruct (find_node g a) as [nd|] eqn:E; [|intros []]. intros Hi.
    exists nd. split; [apply node_of_find; assumption|exact Hi].
Qed.
Lemma present_stored g a : NoDup (map fst g) -> present g a <-> stored g a.
Proof.
  intros Hnd. unfold present, stored. split; intros [nd H]; exists nd; apply node_of_find in H; auto;
    apply node_of_find; auto.
Qed.

(** The consistency of the two edge lists. *)
Definition consistent (g : graph) : Prop :=
  NoDup (map fst g) /\
  (forall a b, lists_next g a b <-> lists_prev g b a) /\
  (forall a b, lists_next g a b -> present g a /\ present g b).

Definition G (g : graph) : Prop := WF g (lists_next g).
Lemma WF_G g E : WF g E -> G g.
Proof.
  intros [(H1 & H2 & H3 & H4) HS]. unfold G. split.
  - split; [exact H1|]. split; [exact H2|]. split; intros x y; rewrite lists_next_succs by exact H1;
      [tauto|rewrite H4, H3; tauto].
  - intros x y Hxy. apply HS. apply H3. apply lists_next_succs; assumption.
Qed.
Lemma G_consistent g : G g -> consistent g.
Proof.
  intros [(H1 & H2 & H3 & H4) HS]. split; [exact H1|]. split.
  - intros a b. rewrite lists_prev_preds by exact H1. rewrite H4. tauto.
  - intros a b Hab. rewrite !present_stored by exact H1. apply HS. exact Hab.
Qed.
Lemma WF_lists g E : WF g E -> forall x y, lists_next g x y <-> E x y.
Proof. intros [(H1 & _ & H3 & _) _] x y. rewrite lists_next_succs by exact H1. apply H3. Qed.

Lemma G_empty : G empty_graph.
Proof.
  split; [split; [constructor|split; [intros; split; constructor|split]]|].
  - intros x y. split; [intros []|]. intros (nd & [[] _] & _).
  - intros x y. split; [intros []|]. intros (nd & [[] _] & _).
  - intros x y (nd & [[] _] & _).
Qed.

(** What a single call does to the represented edge relation. *)
Lemma exec_G g c : G g -> (match c with DeleteNode k => ~ lists_next g k k | _ => True end) ->
  let '(g', r) := exec c g in
  G g' /\
  ((exists e, r = Raise e) -> g' = g) /\
  (r = Ok tt ->
   match c with
   | AddNode k => ~ In (fst k) (map fst g) /\ (forall a, present g' a <-> present g a \/ a = k) /\
                  (forall a b, lists_next g' a b <-> lists_next g a b)
   | Connect a b => present g a /\ present g b /\ (forall z, present g' z <-> present g z) /\
       forall x y, lists_next g' x y <-> lists_next g x y \/ (x = a /\ y = b)
   | Disconnect a b => present g a /\ present g b /\ (forall z, present g' z <-> present g z) /\
       forall x y, lists_next g' x y <-> lists_next g x y /\ ~ (x = a /\ y = b)
   | DeleteNode k => present g k /\ (forall z, present g' z <-> present g z /\ z <> k) /\
       forall x y, lists_next g' x y <->
         x <> k /\ y <> k /\ (lists_next g x y \/ (lists_next g x k /\ lists_next g k y))
   end).
Proof.
  intros HG Hc. pose proof HG as [HR HS]. pose proof HR as (H1 & _).
  assert (Hraise : forall e, G g /\ ((exists e, @Raise unit e = Raise e) -> g = g) /\
     (@Raise unit e = Ok tt -> False)) by (intros; split; [exact HG|split; [auto|discriminate]]).
  assert (Find : forall k, {stored g k} + {find_node g k = None}).
  { intros k. destruct (find_node g k) eqn:E; [left; eexists; exact E|right; reflexivity]. }
  destruct c as [k|a b|a b|k]; cbn [exec].
  - destruct (in_dec string_dec (fst k) (map fst g)) as [Hin|Hin].
    + rewrite (proj2 (add_ok g _ k HG) Hin). split; [exact HG|]. split; [auto|discriminate].
    + destruct (proj1 (add_ok g _ k HG) Hin) as (g' & -> & W & S).
      assert (N' : NoDup (map fst g')) by apply W.
      split; [exact (WF_G _ _ W)|]. split; [intros [e He]; discriminate|]. intros _.
      split; [exact Hin|]. split.
      * intros z. rewrite !present_stored by assumption. apply S.
      * apply (WF_lists _ _ W).
  - destruct (Find a) as [Ha|Ha].
    2:{ unfold connect. rewrite Ha. split; [exact HG|]. split; [auto|discriminate]. }
    destruct (Find b) as [Hb|Hb].
    2:{ unfold connect. rewrite Hb. destruct (find_node g a); (split; [exact HG|]; split; [auto|discriminate]). }
    destruct (connect_ok g _ a b HR Ha Hb) as (g' & -> & R & S).
    assert (W : WF g' (fun x y => lists_next g x y \/ (x = a /\ y = b))).
    { split; [exact R|]. intros x y [Hxy|[-> ->]]; rewrite !S; [apply HS; exact Hxy|auto]. }
    assert (N' : NoDup (map fst g')) by apply R.
    split; [exact (WF_G _ _ W)|]. split; [intros [e He]; discriminate|]. intros _.
    rewrite !present_stored by assumption. split; [exact Ha|]. split; [exact Hb|]. split.
    + intros z. rewrite !present_stored by assumption. apply S.
    + apply (WF_lists _ _ W).
  - destruct (Find a) as [Ha|Ha].
    2:{ unfold disconnect. rewrite Ha. split; [exact HG|]. split; [auto|discriminate]. }
    destruct (Find b) as [Hb|Hb].
    2:{ unfold disconnect. rewrite Hb. destruct (find_node g a); (split; [exact HG|]; split; [auto|discriminate]). }
    destruct (disconnect_ok g _ a b HR Ha Hb) as (g' & -> & R & S).
    assert (W : WF g' (fun x y => lists_next g x y /\ ~ (x = a /\ y = b))).
    { split; [exact R|]. intros x y [Hxy _]; rewrite !S. apply HS; exact Hxy. }
    assert (N' : NoDup (map fst g')) by apply R.
    split; [exact (WF_G _ _ W)|]. split; [intros [e He]; discriminate|]. intros _.
    rewrite !present_stored by assumption. split; [exact Ha|]. split; [exact Hb|]. split.
    + intros z. rewrite !present_stored by assumption. apply S.
    + apply (WF_lists _ _ W).
  - destruct (Find k) as [Hk|Hk].
    2:{ unfold delete_node. rewrite Hk. split; [exact HG|]. split; [auto|discriminate]. }
    destruct (delete_ok g _ k HG Hk Hc) as [D1 D2].
    destruct (le_dec (length (preds g k)) 1) as [Hp|Hp].
    2: destruct (le_dec (length (succs g k)) 1) as [Hn|Hn].
    3:{ rewrite D2 by tauto. split; [exact HG|]. split; [auto|discriminate]. }
    all: (destruct D1 as (g' & -> & R & S); [tauto|];
      assert (W : WF g' (fun x y => x <> k /\ y <> k /\ (lists_next g x y \/ (lists_next g x k /\ lists_next g k y))));
      [split; [exact R|]; intros x y (Hx & Hy & [Hxy|[Hxy Hyx]]); rewrite !S;
         [apply HS in Hxy; tauto|apply HS in Hxy; apply HS in Hyx; tauto]|];
      assert (N' : NoDup (map fst g')) by apply R;
      split; [exact (WF_G _ _ W)|]; split; [intros [e He]; discriminate|]; intros _;
      rewrite present_stored by assumption; split; [exact Hk|]; split;
      [intros z; rewrite !present_stored by assumption; apply S|apply (WF_lists _ _ W)]).
Qed.

(** * C12 *)
Lemma run_G cs : forall g, G g -> deletes_ok g cs -> G (run cs g).
Proof.
  induction cs as [|c cs IH]; intros g HG Hok; cbn; [exact HG|]. destruct Hok as [Hc Hok].
  pose proof (exec_G g c HG Hc) as H. destruct (exec c g) as [g' r] eqn:E. cbn in *.
  apply IH; [apply H|exact Hok].
Qed.

(** After every history the two edge lists agree and mention stored nodes only. *)
Theorem C12_edges_consistent :
  forall cs, deletes_ok empty_graph cs -> consistent (run cs empty_graph).
Proof. intros cs H. apply G_consistent. apply run_G; [apply G_empty|exact H]. Qed.
Print Assumptions C12_edges_consistent.

(** Histories of a DAG satisfy the hypothesis above, and stay acyclic. *)
Lemma clos_trans_incl {A} (R S : A -> A -> Prop) :
  (forall x y, R x y -> clos_trans A S x y) -> forall x y, clos_trans A R x y -> clos_trans A S x y.
Proof. intros H x y Hxy. induction Hxy; [auto|]. eapply t_trans; eauto. Qed.

Lemma path_added {A} (R : A -> A -> Prop) a b x y :
  clos_trans A (fun u v => R u v \/ (u = a /\ v = b)) x y ->
  clos_trans A R x y \/
  ((x = a \/ clos_trans A R x a) /\ (b = y \/ clos_trans A R b y)).
Proof.
  intros H. induction H as [x y [H|[-> ->]]|x z y H1 IH1 H2 IH2]; [left; constructor; auto|right; auto|].
  destruct IH1 as [P1|[P1 P2]], IH2 as [Q1|[Q1 Q2]].
  - left. eapply t_trans; eauto.
  - right. split; [|exact Q2]. destruct Q1 as [->|Q1]; [right; auto|right; eapply t_trans; eauto].
  - right. split; [exact P1|]. destruct P2 as [->|P2]; [right; auto|right; eapply t_trans; eauto].
  - right. split; [exact P1|]. exact Q2.
Qed.

Theorem C12_dag_history :
  forall cs, dag_history empty_graph cs ->
    deletes_ok empty_graph cs /\ consistent (run cs empty_graph) /\
    forall a, ~ path (run cs empty_graph) a a.
Proof.
  assert (H : forall cs g, G g -> (forall a, ~ path g a a) -> dag_history g cs ->
     deletes_ok g cs /\ forall a, ~ path (run cs g) a a).
  { induction cs as [|c cs IH]; intros g HG HA Hd; [split; [exact I|exact HA]|].
    destruct Hd as [Hc Hd]. cbn [deletes_ok run fold_left].
    assert (Hok : match c with DeleteNode k => ~ lists_next g k k | _ => True end).
    { destruct c; auto. intros Hk. apply (HA k). constructor. exact Hk. }
    pose proof (exec_G g c HG Hok) as HE. destruct (exec c g) as [g' r] eqn:E. cbn [fst] in *.
    destruct HE as (HG' & Hr & Hk).
    assert (HA' : forall a, ~ path g' a a).
    { destruct r as [[]|e]; [|rewrite (Hr (ex_intro _ e eq_refl)); exact HA].
      specialize (Hk eq_refl). destruct c as [k|a b|a b|k].
      - destruct Hk as (_ & _ & He). intros z Hz. apply (HA z).
        revert Hz. apply clos_trans_incl. intros x y Hxy. constructor. apply He. exact Hxy.
      - destruct Hk as (_ & _ & _ & He). intros z Hz.
        assert (Hz' : clos_trans key (fun u v => lists_next g u v \/ (u = a /\ v = b)) z z).
        { revert Hz. apply clos_trans_incl. intros x y Hxy. constructor. apply He. exact Hxy. }
        apply path_added in Hz' as [Hz'|[P Q]]; [exact (HA z Hz')|].
        destruct Hc as [Hne Hp]. apply Hp.
        destruct P as [->|P], Q as [Q|Q].
        + congruence.
        + exact Q.
        + subst z. exact P.
        + eapply t_trans; eauto.
      - destruct Hk as (_ & _ & _ & He). intros z Hz. apply (HA z).
        revert Hz. apply clos_trans_incl. intros x y Hxy. constructor. apply He in Hxy. tauto.
      - destruct Hk as (_ & _ & He). intros z Hz. apply (HA z).
        revert Hz. apply clos_trans_incl. intros x y Hxy. apply He in Hxy as (_ & _ & [Hxy|[Hxk Hky]]).
        + constructor. exact Hxy.
        + eapply t_trans; constructor; eauto. }
    destruct (IH g' HG' HA' Hd) as [I1 I2]. split; [split; assumption|]. exact I2. }
  intros cs Hd. destruct (H cs empty_graph G_empty) as [H1 H2]; [|exact Hd|].
  - intros a Ha. assert (Hno : forall x y, ~ lists_next empty_graph x y) by (intros x y (nd & [[] _] & _)).
    clear H Hd. induction Ha; eauto. eapply Hno; eauto.
  - split; [exact H1|]. split; [apply C12_edges_consistent; exact H1|exact H2].
Qed.
Print Assumptions C12_dag_history.

(** Effect of each successful call, and no effect of a raising call, after any history. *)
Theorem C12_delete_bypasses :
  forall cs k, deletes_ok empty_graph cs ->
    let g := run cs empty_graph in
    ~ lists_next g k k ->
    let '(g', r) := delete_node k g in
    (* the node must be present, with at most one predecessor or at most one successor *)
    (r = Ok tt <-> present g k /\
       ((forall p q, lists_prev g k p -> lists_prev g k q -> p = q) \/
        (forall p q, lists_next g k p -> lists_next g k q -> p = q))) /\
    (r <> Ok tt -> g' = g) /\
    (r = Ok tt ->
       (forall z, present g' z <-> present g z /\ z <> k) /\
       (forall x y, lists_next g' x y <->
          x <> k /\ y <> k /\ (lists_next g x y \/ (lists_prev g k x /\ lists_next g k y)))).
Proof.
  intros cs k Hok g Hk. assert (HG : G g) by (apply run_G; [apply G_empty|exact Hok]).
  pose proof HG as [HR HS]. pose proof HR as (N & ND & _ & _).
  pose proof (exec_G g (DeleteNode k) HG Hk) as HE. cbn [exec] in HE.
  destruct (delete_node k g) as [g' r] eqn:ED. destruct HE as (_ & Hr & He).
  assert (Hsmall : forall l : list key, NoDup l -> (length l <= 1)%nat <-> (forall p q, In p l -> In q l -> p = q)).
  { intros l Hl. split.
    - destruct l as [|u [|v l]]; cbn; intros Hlen p q; [tauto| |lia]. intuition congruence.
    - intros Hpq. destruct l as [|u [|v l]]; cbn; try lia. exfalso. inversion Hl; subst.
      apply H1. rewrite (Hpq u v); cbn; auto. }
  split; [|split].
  - assert (Hiff : present g k -> (r = Ok tt <-> (length (preds g k) <= 1)%nat \/ (length (succs g k) <= 1)%nat)).
    { intros Hp. apply present_stored in Hp; [|exact N].
      destruct (delete_ok g _ k HG Hp Hk) as [D1 D2]. split.
      - intros ->. destruct (le_dec (length (preds g k)) 1); [auto|].
        destruct (le_dec (length (succs g k)) 1); [auto|]. rewrite D2 in ED by tauto. discriminate.
      - intros Hf. destruct (D1 Hf) as (g1 & E1 & _). rewrite E1 in ED. congruence. }
    assert (A1 : (length (preds g k) <= 1)%nat <-> (forall p q, lists_prev g k p -> lists_prev g k q -> p = q)).
    { rewrite Hsmall by apply ND. split; intros H p q Hp Hq; apply H; apply lists_prev_preds; auto. }
    assert (A2 : (length (succs g k) <= 1)%nat <-> (forall p q, lists_next g k p -> lists_next g k q -> p = q)).
    { rewrite Hsmall by apply ND. split; intros H p q Hp Hq; apply H; apply lists_next_succs; auto. }
    rewrite <- A1, <- A2. split.
    + intros Hrr. destruct (He Hrr) as (Hp & _). split; [exact Hp|]. apply Hiff; auto.
    + intros [Hp Hf]. apply Hiff; assumption.
  - destruct r as [[]|e]; [congruence|]. intros _. apply Hr. eauto.
  - intros Hrr. destruct (He Hrr) as (_ & P & Q). split; [exact P|]. intros x y. rewrite Q.
    rewrite lists_prev_preds by exact N. destruct HR as (_ & _ & _ & H4). rewrite H4. tauto.
Qed.
Print Assumptions C12_delete_bypasses.

Theorem C12_connect_disconnect :
  forall cs a b, deletes_ok empty_graph cs ->
    let g := run cs empty_graph in
    (present g a /\ present g b -> 
       (exists g', connect a b g = (g', Ok tt) /\ (forall z, present g' z <-> present g z) /\
          forall x y, lists_next g' x y <-> lists_next g x y \/ (x = a /\ y = b)) /\
       (exists g', disconnect a b g = (g', Ok tt) /\ (forall z, present g' z <-> present g z) /\
          forall x y, lists_next g' x y <-> lists_next g x y /\ ~ (x = a /\ y = b))) /\
    (~ (present g a /\ present g b) ->
       connect a b g = (g, Raise AssertionError) /\ disconnect a b g = (g, Raise AssertionError)).
Proof.
  intros cs a b Hok g. assert (HG : G g) by (apply run_G; [apply G_empty|exact Hok]).
  pose proof HG as [HR HS]. pose proof HR as (N & ND & _ & _). split.
  - rewrite !present_stored by exact N. intros [Ha Hb]. split.
    + pose proof (exec_G g (Connect a b) HG I) as HE. cbn [exec] in HE.
      destruct (connect_ok g _ a b HR Ha Hb) as (g' & E & _). rewrite E in HE. destruct HE as (_ & _ & He).
      specialize (He eq_refl). exists g'. tauto.
    + pose proof (exec_G g (Disconnect a b) HG I) as HE. cbn [exec] in HE.
      destruct (disconnect_ok g _ a b HR Ha Hb) as (g' & E & _). rewrite E in HE. destruct HE as (_ & _ & He).
      specialize (He eq_refl). exists g'. tauto.
  - rewrite !present_stored by exact N. intros Hn. unfold connect, disconnect.
    destruct (find_node g a) eqn:Ea; [|auto]. destruct (find_node g b) eqn:Eb; [|auto].
    exfalso. apply Hn. split; eexists; eassumption.
Qed.
Print Assumptions C12_connect_disconnect.

(** Without the hypothesis on deletions (graphs with self loops, outside the documented
    DAG use) the claim fails: deleting [b] leaves it among the successors of [a]. *)
Theorem C12_self_loop_refuted :
  ~ (forall cs, consistent (run cs empty_graph)).
Proof.
  intros H. set (a := ("a"%string, 0%nat)). set (b := ("b"%string, 1%nat)).
  destruct (H [AddNode a; AddNode b; Connect a b; Connect b b; DeleteNode b]) as (_ & _ & H3).
  assert (Hab : lists_next (run [AddNode a; AddNode b; Connect a b; Connect b b; DeleteNode b] empty_graph) a b).
  { eexists. split; [split; [vm_compute; left; reflexivity|reflexivity]|]. vm_compute. left. reflexivity. }
  destruct (H3 a b Hab) as [_ [nd [Hin _]]]. vm_compute in Hin. destruct Hin as [Hin|[]]. discriminate.
Qed.
Print Assumptions C12_self_loop_refuted.

Example C12_example :
  let k s n := (s, n) : key in
  let a := k "a"%string 0%nat in let b := k "b"%string 1%nat in let c := k "c"%string 2%nat in
  let d := k "d"%string 3%nat in
  let cs := [AddNode a; AddNode b; AddNode c; AddNode d; Connect a b; Connect b c; Connect b d;
             Connect a d; DeleteNode b] in
  dag_history empty_graph cs /\
  map (fun p => (fst p, n_next (snd p))) (run cs empty_graph)
  = [("a"%string, [d; c]); ("c"%string, []); ("d"%string, [])].
Proof.
  cbv zeta. split; [|vm_compute; reflexivity].
  assert (No : forall g x, find_node g x <> None -> (forall y, ~ lists_next g x y) -> forall y, ~ path g x y).
  { intros g x _ Hx y Hp. induction Hp; eauto. eapply Hx; eauto. }
  assert (Nil : forall (g : graph) nm v nd, get g nm = Some nd -> NoDup (map fst g) -> n_next nd = [] ->
     forall y, ~ lists_next g (nm, v) y).
  { intros g nm v nd Hg HN Hnil y (nd' & [Hin _] & Hy). apply in_get in Hin; [|exact HN]. cbn in Hin.
    rewrite Hg in Hin. inversion Hin; subst. rewrite Hnil in Hy. destruct Hy. }
  cbn [dag_history]. repeat split; try (intros Hc; discriminate Hc);
    (apply No; [vm_compute; discriminate|]);
    (eapply Nil; [vm_compute; reflexivity| |reflexivity]);
    vm_compute; repeat constructor; cbn; intuition discriminate.
Qed.

(** * C13 *)

(** Edges by node name: [a] is the name of a predecessor of the node named [b]. *)
Definition name_edge (g : graph) (a b : string) : Prop :=
  exists nd, In (b, nd) g /\ In a (map fst (n_prev nd)).

Definition inb (x : string) (l : list string) : bool := existsb (String.eqb x) l.
Lemma inb_spec x l : inb x l = true <-> In x l.
Proof.
  unfold inb. rewrite existsb_exists. split.
  - intros (y & Hy & He). apply String.eqb_eq in He. subst. exact Hy.
  - intros H. exists x. split; [exact H|apply String.eqb_refl].
Qed.
Lemma inb_false x l : inb x l = false <-> ~ In x l.
Proof. rewrite <- inb_spec. destruct (inb x l); intuition; discriminate. Qed.

Definition cnt (V : list string) (ps : list key) : Z :=
  Z.of_nat (length (filter (fun k => negb (inb (fst k) V)) ps)).

Lemma dget_in deg nm d : dget deg nm = Some d -> In (nm, d) deg.
Proof.
  induction deg as [|[n e] r IH]; cbn; [discriminate|].
  destruct (String.eqb_spec n nm); intros H; [inversion H; subst; auto|auto].
Qed.
Lemma in_dget deg nm d : NoDup (map fst deg) -> In (nm, d) deg -> dget deg nm = Some d.
Proof.
  induction deg as [|[n e] r IH]; cbn; intros Hnd Hin; [destruct Hin|].
  inversion Hnd; subst. destruct (String.eqb_spec n nm) as [->|].
  - destruct Hin as [H|H]; [congruence|]. exfalso. apply H1. change nm with (fst (nm, d)).
    apply in_map. exact H.
  - destruct Hin as [H|H]; [congruence|auto].
Qed.
Lemma dget_dset deg nm v n : dget (dset deg nm v) n
  = if String.eqb nm n then match dget deg n with Some _ => Some v | None => None end else dget deg n.
Proof.
  induction deg as [|[m e] r IH]; cbn; [destruct (String.eqb nm n); reflexivity|].
  destruct (String.eqb_spec m nm) as [->|Hm]; cbn.
  - destruct (String.eqb_spec nm n); reflexivity.
  - rewrite IH. destruct (String.eqb_spec m n) as [->|]; [|reflexivity].
    destruct (String.eqb_spec nm n); [congruence|reflexivity].
Qed.
Lemma dset_names deg nm v : map fst (dset deg nm v) = map fst deg.
Proof. induction deg as [|[m e] r IH]; cbn; [reflexivity|]. destruct (String.eqb m nm); cbn; congruence. Qed.
Lemma dget_dpop deg nm n : dget (dpop deg nm) n = if String.eqb nm n then None else dget deg n.
Proof.
  unfold dpop. induction deg as [|[m e] r IH]; cbn; [destruct (String.eqb nm n); reflexivity|].
  destruct (String.eqb_spec m nm) as [->|Hm]; cbn.
  - rewrite IH. destruct (String.eqb_spec nm n); reflexivity.
  - rewrite IH. destruct (String.eqb_spec m n) as [->|]; [|reflexivity].
    destruct (String.eqb_spec nm n); [congruence|reflexivity].
Qed.
Lemma dpop_nodup deg nm : NoDup (map fst deg) -> NoDup (map fst (dpop deg nm)).
Proof.
  unfold dpop. induction deg as [|[m e] r IH]; cbn; intros H; [constructor|]. inversion H; subst.
  destruct (negb (String.eqb m nm)); cbn; [|auto]. constructor; [|auto].
  intros Hc. apply H2. apply in_map_iff in Hc as (q & Hq & Hin). apply filter_In in Hin as [Hin _].
  rewrite <- Hq. apply in_map. exact Hin.
Qed.
Lemma dpop_length deg nm d : NoDup (map fst deg) -> In (nm, d) deg ->
  length deg = S (length (dpop deg nm)).
Proof.
  unfold dpop. induction deg as [|[m e] r IH]; cbn [map filter fst In length]; intros H Hin; [destruct Hin|].
  inversion H; subst. destruct (String.eqb_spec m nm) as [->|Hm]; cbn [negb length].
  - f_equal. clear - H2. symmetry. induction r as [|[m e] r IH]; cbn; [reflexivity|].
    cbn in H2. destruct (String.eqb_spec m nm); [exfalso; apply H2; auto|]. cbn. f_equal. apply IH. tauto.
  - f_equal. apply IH; [assumption|]. destruct Hin; [congruence|assumption].
Qed.

Lemma decrease_ok : forall nexts deg,
  NoDup (map fst nexts) -> (forall nx, In nx nexts -> dget deg (fst nx) <> None) ->
  exists deg', decrease deg nexts = Ok deg' /\ map fst deg' = map fst deg /\
    forall n, dget deg' n = match dget deg n with
                            | Some d => Some (if inb n (map fst nexts) then d - 1 else d)
                            | None => None
                            end.
Proof.
  induction nexts as [|nx r IH]; intros deg Hnd Hall; cbn [decrease map].
  - exists deg. split; [reflexivity|]. split; [reflexivity|]. intros n. cbn. destruct (dget deg n); reflexivity.
  - inversion Hnd; subst. destruct (dget deg (fst nx)) as [d|] eqn:Ed.
    2:{ exfalso. apply (Hall nx); [left; reflexivity|exact Ed]. }
    destruct (IH (dset deg (fst nx) (d - 1))) as (deg' & E1 & E2 & E3); [assumption| |].
    + intros ny Hy. rewrite dget_dset. pose proof (Hall ny (or_intror Hy)) as Hny.
      destruct (String.eqb_spec (fst nx) (fst ny)); [|exact Hny].
      destruct (dget deg (fst ny)); [discriminate|congruence].
    + exists deg'. split; [exact E1|]. split; [rewrite E2; apply dset_names|].
      intros n. rewrite E3, dget_dset. unfold inb in *. cbn [existsb].
      rewrite (String.eqb_sym n (fst nx)). destruct (String.eqb_spec (fst nx) n) as [He|Hn]; cbn [orb].
      * destruct (existsb (String.eqb n) (map fst r)) eqn:Ex.
        -- exfalso. apply H1. rewrite He. apply inb_spec. exact Ex.
        -- subst n. rewrite Ed. reflexivity.
      * reflexivity.
Qed.

(** Reverse walk: a finite nonempty set in which everybody has a predecessor has a cycle. *)
Lemma chain_cycle (R : string -> string -> Prop) (L : list string) :
  (forall x, In x L -> exists y, In y L /\ R y x) -> L <> [] ->
  exists a, clos_trans string R a a.
Proof.
  intros Hstep HL. destruct L as [|x0 L0] eqn:EL; [congruence|]. rewrite <- EL in *. clear HL.
  (* chains: each element reaches all later ones *)
  assert (HC : forall n, exists c x, length c = n /\ In x L /\ (forall y, In y c -> In y L /\ clos_trans string R x y)
             /\ (NoDup (x :: c) \/ exists a, clos_trans string R a a)).
  { induction n as [|n (c & x & Hl & Hx & Hall & Hd)].
    - exists [], x0. split; [reflexivity|]. split; [rewrite EL; left; reflexivity|].
      split; [intros y []|]. left. repeat constructor. intros [].
    - destruct (Hstep x Hx) as (y & Hy & Hyx).
      exists (x :: c), y. split; [cbn; congruence|]. split; [exact Hy|].
      assert (Hall' : forall z, In z (x :: c) -> In z L /\ clos_trans string R y z).
      { intros z [<-|Hz].
        - split; [exact Hx|]. constructor. exact Hyx.
        - destruct (Hall z Hz) as [Hz1 Hz2]. split; [exact Hz1|].
          eapply t_trans; [constructor; exact Hyx|exact Hz2]. }
      split; [exact Hall'|]. destruct Hd as [Hd|Hd]; [|right; exact Hd].
      destruct (in_dec string_dec y (x :: c)) as [Hin|Hin].
      + right. exists y. apply Hall'. exact Hin.
      + left. constructor; assumption. }
  destruct (HC (length L)) as (c & x & Hl & Hx & Hall & [Hd|Hd]); [|exact Hd]. exfalso.
  assert (Hlen : (length (x :: c) <= length L)%nat).
  { apply NoDup_incl_length; [exact Hd|]. intros z [<-|Hz]; [exact Hx|]. apply Hall. exact Hz. }
  cbn in Hlen. lia.
Qed.

Section Topo.
Variable g : graph.
Hypothesis HG : G g.

Let N : NoDup (map fst g). Proof. apply HG. Qed.

(** Predecessors of a stored node: stored, with distinct names. *)
Lemma key_of nm nd : get g nm = Some nd -> stored g (nm, n_val nd) /\
  preds g (nm, n_val nd) = n_prev nd /\ succs g (nm, n_val nd) = n_next nd.
Proof.
  intros H. assert (Hf : find_node g (nm, n_val nd) = Some nd).
  { unfold find_node. cbn. rewrite H, Nat.eqb_refl. reflexivity. }
  split; [eexists; exact Hf|]. unfold preds, succs. rewrite Hf. auto.
Qed.
Lemma names_nodup (l : list key) : NoDup l -> (forall k, In k l -> stored g k) -> NoDup (map fst l).
Proof.
  induction l as [|x l IH]; cbn; intros H Hs; [constructor|]. inversion H; subst. constructor.
  - intros Hc. apply in_map_iff in Hc as (y & Hy & Hin).
    assert (y = x) by (apply (stored_inj g); auto). subst. contradiction.
  - apply IH; auto.
Qed.
Lemma prev_facts nm nd : get g nm = Some nd ->
  NoDup (map fst (n_prev nd)) /\ (forall k, In k (n_prev nd) -> stored g k) /\
  NoDup (map fst (n_next nd)) /\ (forall k, In k (n_next nd) -> stored g k).
Proof.
  intros H. destruct (key_of nm nd H) as (Hs & Hp & Hn).
  pose proof HG as [(_ & ND & H3 & H4) HS].
  destruct (ND (nm, n_val nd)) as [D1 D2]. rewrite Hp in D2. rewrite Hn in D1.
  assert (S1 : forall k, In k (n_prev nd) -> stored g k).
  { intros k Hk. rewrite <- Hp in Hk. apply H4 in Hk. apply HS in Hk. tauto. }
  assert (S2 : forall k, In k (n_next nd) -> stored g k).
  { intros k Hk. rewrite <- Hn in Hk. apply H3 in Hk. apply HS in Hk. tauto. }
  auto using names_nodup.
Qed.
(** m is among the successors of nm (by name) exactly when nm is among the predecessors of m. *)
Lemma next_prev nm nd m md : get g nm = Some nd -> get g m = Some md ->
  In m (map fst (n_next nd)) <-> In nm (map fst (n_prev md)).
Proof.
  intros Hn Hm. destruct (key_of nm nd Hn) as (Sn & Pn & Nn). destruct (key_of m md Hm) as (Sm & Pm & Nm).
  pose proof HG as [(_ & ND & H3 & H4) HS].
  destruct (prev_facts nm nd Hn) as (_ & _ & _ & F4). destruct (prev_facts m md Hm) as (_ & F2 & _ & _).
  split; intros H; apply in_map_iff in H as (k & Hk & Hin).
  - assert (k = (m, n_val md)) by (apply (stored_inj g); auto). subst k.
    rewrite <- Nn in Hin. apply H3 in Hin. apply H4 in Hin. rewrite Pm in Hin.
    change nm with (fst (nm, n_val nd)). apply in_map. exact Hin.
  - assert (k = (nm, n_val nd)) by (apply (stored_inj g); auto). subst k.
    rewrite <- Pm in Hin. apply H4 in Hin. apply H3 in Hin. rewrite Nn in Hin.
    change m with (fst (m, n_val md)). apply in_map. exact Hin.
Qed.

Definition Inv (V : list string) (deg : list (string * Z)) : Prop :=
  NoDup (map fst deg) /\
  (forall n, dget deg n = match get g n with
                          | Some nd => if inb n V then None else Some (cnt V (n_prev nd))
                          | None => None
                          end) /\
  (forall v nd, In v V -> get g v = Some nd -> forall p, In p (map fst (n_prev nd)) -> In p V).

Lemma cnt_step V nm (ps : list key) :
  NoDup (map fst ps) -> ~ In nm V ->
  cnt (nm :: V) ps = if inb nm (map fst ps) then cnt V ps - 1 else cnt V ps.
Proof.
  intros Hnd Hv. unfold cnt. induction ps as [|k ps IH]; [reflexivity|].
  cbn [map] in Hnd. inversion Hnd; subst. cbn [filter map].
  unfold inb in *. cbn [existsb] in *. rewrite (String.eqb_sym (fst k) nm).
  destruct (String.eqb_spec nm (fst k)) as [He|Hne]; cbn [orb negb].
  - specialize (IH H2). assert (Hn : existsb (String.eqb nm) (map fst ps) = false).
    { apply inb_false. rewrite He. exact H1. }
    rewrite Hn in IH. rewrite IH. rewrite <- He.
    assert (Hv' : existsb (String.eqb nm) V = false) by (apply inb_false; exact Hv).
    rewrite Hv'. cbn [negb length]. lia.
  - specialize (IH H2). destruct (existsb (String.eqb (fst k)) V); cbn [negb length]; [exact IH|].
    destruct (existsb (String.eqb nm) (map fst ps)); lia.
Qed.

Lemma topo_spec : forall fuel V deg, Inv V deg -> (length deg <= fuel)%nat ->
  exists ys r, topo_loop fuel g deg = (ys, Some r) /\
    NoDup ys /\ (forall n, In n ys -> In n (map fst g) /\ ~ In n V) /\
    (forall l1 n l2, ys = l1 ++ n :: l2 -> forall a, name_edge g a n -> In a V \/ In a l1) /\
    ((r = Ok tt /\ forall n, In n (map fst g) -> In n V \/ In n ys) \/
     (r = Raise GenericException /\ exists a, clos_trans string (name_edge g) a a)).
Proof.
  induction fuel as [|fuel IH]; intros V deg HI Hlen.
  - destruct deg; [|cbn in Hlen; lia]. exists [], (Ok tt). split; [reflexivity|].
    split; [constructor|]. split; [intros n []|]. split; [intros [|? ?] ? ? H; discriminate|].
    left. split; [reflexivity|]. intros n Hn. left. destruct HI as (_ & HD & _).
    specialize (HD n). cbn in HD. destruct (get g n) eqn:E; [|apply get_none in E; contradiction].
    destruct (inb n V) eqn:Ev; [apply inb_spec; exact Ev|discriminate].
  - destruct deg as [|p0 deg0] eqn:Edeg.
    { exists [], (Ok tt). split; [reflexivity|].
    split; [constructor|]. split; [intros n []|]. split; [intros [|? ?] ? ? H; discriminate|].
    left. split; [reflexivity|]. intros n Hn. left. destruct HI as (_ & HD & _).
    specialize (HD n). cbn in HD. destruct (get g n) eqn:E; [|apply get_none in E; contradiction].
    destruct (inb n V) eqn:Ev; [apply inb_spec; exact Ev|discriminate]. }
    rewrite <- Edeg in *. assert (Hl : topo_loop (S fuel) g deg =
      match find_zero deg with
      | None => ([], Some (Raise GenericException))
      | Some nm =>
        match get g nm with
        | None => ([], Some (Raise KeyError))
        | Some nd =>
          match decrease (dpop deg nm) (n_next nd) with
          | Raise e => ([nm], Some (Raise e))
          | Ok deg' => let '(ys, r) := topo_loop fuel g deg' in (nm :: ys, r)
          end
        end
      end) by (rewrite Edeg; reflexivity).
    rewrite Hl. clear Hl. unfold find_zero.
    destruct HI as (HN & HD & HC).
    destruct (find (fun p => (snd p =? 0)%Z) deg) as [[nm d]|] eqn:Ef; cbn [option_map fst].
    + apply find_some in Ef as [Hin Hz]. cbn in Hz. apply Z.eqb_eq in Hz. subst d.
      pose proof (in_dget _ _ _ HN Hin) as Hd. rewrite HD in Hd.
      destruct (get g nm) as [nd|] eqn:Eg; [|discriminate].
      destruct (inb nm V) eqn:Ev; [discriminate|]. apply inb_false in Ev.
      destruct (prev_facts nm nd Eg) as (F1 & F2 & F3 & F4).
      assert (Hz : cnt V (n_prev nd) = 0) by congruence.
      assert (HPV : forall p, In p (map fst (n_prev nd)) -> In p V).
      { intros p Hp. apply in_map_iff in Hp as (k & Hk & Hkin).
        destruct (inb p V) eqn:Epv; [apply inb_spec; exact Epv|]. exfalso.
        unfold cnt in Hz. assert (Hi : In k (filter (fun k => negb (inb (fst k) V)) (n_prev nd))).
        { apply filter_In. split; [exact Hkin|]. rewrite Hk, Epv. reflexivity. }
        destruct (filter _ _); [destruct Hi|cbn in Hz; lia]. }
      destruct (decrease_ok (n_next nd) (dpop deg nm) F3) as (deg' & E1 & E2 & E3).
      { intros nx Hnx. rewrite dget_dpop.
        destruct (F4 nx Hnx) as [xd Hxd]. unfold find_node in Hxd.
        destruct (get g (fst nx)) as [md|] eqn:Em; [|discriminate].
        assert (Hpm : In nm (map fst (n_prev md))).
        { apply (next_prev nm nd (fst nx) md Eg Em). apply in_map. exact Hnx. }
        destruct (String.eqb_spec nm (fst nx)) as [He|Hne].
        - exfalso. apply Ev. apply HPV. rewrite <- He in Em. rewrite Eg in Em. inversion Em; subst. exact Hpm.
        - rewrite HD, Em. destruct (inb (fst nx) V) eqn:Ex; [|discriminate].
          exfalso. apply Ev. apply inb_spec in Ex. exact (HC _ _ Ex Em _ Hpm). }
      rewrite E1.
      assert (HI' : Inv (nm :: V) deg').
      { split; [rewrite E2; apply dpop_nodup; exact HN|]. split.
        - intros n. rewrite E3, dget_dpop. destruct (String.eqb_spec nm n) as [<-|Hne].
          + rewrite Eg. unfold inb. cbn. rewrite String.eqb_refl. reflexivity.
          + rewrite HD. destruct (get g n) as [md|] eqn:Em; [|reflexivity].
            change (inb n (nm :: V)) with (String.eqb n nm || inb n V).
            destruct (String.eqb_spec n nm); [congruence|]. cbn [orb].
            destruct (inb n V) eqn:Env; [reflexivity|]. f_equal.
            destruct (prev_facts n md Em) as (Fm & _). rewrite cnt_step by assumption.
            pose proof (next_prev nm nd n md Eg Em) as HNP.
            destruct (inb n (map fst (n_next nd))) eqn:Ei; destruct (inb nm (map fst (n_prev md))) eqn:Ej; try reflexivity.
            * apply inb_spec in Ei. apply HNP in Ei. apply inb_spec in Ei. congruence.
            * apply inb_spec in Ej. apply HNP in Ej. apply inb_spec in Ej. congruence.
        - intros v vd [<-|Hv] Hgv p Hp.
          + rewrite Eg in Hgv. inversion Hgv; subst. right. apply HPV. exact Hp.
          + right. exact (HC v vd Hv Hgv p Hp). }
      assert (Hlen' : (length deg' <= fuel)%nat).
      { pose proof (f_equal (@length _) E2) as El. rewrite !map_length in El. rewrite El.
        pose proof (dpop_length deg nm 0 HN Hin). lia. }
      destruct (IH (nm :: V) deg' HI' Hlen') as (ys & r & E4 & G1 & G2 & G3 & G4).
      rewrite E4. exists (nm :: ys), r. split; [reflexivity|]. split; [|split; [|split]].
      * constructor; [|exact G1]. intros Hc. apply G2 in Hc. apply (proj2 Hc). left. reflexivity.
      * intros n [<-|Hn].
        -- split; [|exact Ev]. change nm with (fst (nm, nd)). apply in_map. apply get_in. exact Eg.
        -- apply G2 in Hn. split; [tauto|]. intros Hc. apply Hn. right. exact Hc.
      * intros l1 n l2 Hys a Ha. destruct l1 as [|m l1]; cbn in Hys; injection Hys as -> Hys.
        -- left. destruct Ha as (nd' & Hin' & Hap). apply in_get in Hin'; [|exact N].
           rewrite Eg in Hin'. inversion Hin'; subst. apply HPV. exact Hap.
        -- destruct (G3 l1 n l2 Hys a Ha) as [[<-|Hv]|Hl1]; [right; left; reflexivity|left; exact Hv|right; right; exact Hl1].
      * destruct G4 as [[-> G4]|G4]; [left|right; exact G4]. split; [reflexivity|].
        intros n Hn. destruct (G4 n Hn) as [[<-|Hv]|Hy]; [right; left; reflexivity|left; exact Hv|right; right; exact Hy].
    + exists [], (Raise GenericException). split; [reflexivity|].
      split; [constructor|]. split; [intros n []|]. split; [intros [|? ?] ? ? H; discriminate|].
      right. split; [reflexivity|].
      apply (chain_cycle (name_edge g) (map fst deg)); [|rewrite Edeg; discriminate].
      intros x Hx. apply in_map_iff in Hx as ([x' d] & Hx' & Hin). cbn in Hx'. subst x'.
      pose proof (find_none _ _ Ef _ Hin) as Hnz. cbn in Hnz. apply Z.eqb_neq in Hnz.
      pose proof (in_dget _ _ _ HN Hin) as Hd. rewrite HD in Hd.
      destruct (get g x) as [nd|] eqn:Eg; [|discriminate].
      destruct (inb x V) eqn:Ev; [discriminate|].
      assert (Hc : cnt V (n_prev nd) <> 0) by congruence. unfold cnt in Hc.
      destruct (filter (fun k => negb (inb (fst k) V)) (n_prev nd)) as [|k ks] eqn:Efl; [cbn in Hc; lia|].
      assert (Hk : In k (filter (fun k => negb (inb (fst k) V)) (n_prev nd))) by (rewrite Efl; left; reflexivity).
      apply filter_In in Hk as [Hk Hkv]. exists (fst k).
      destruct (prev_facts x nd Eg) as (_ & F2 & _ & _).
      destruct (F2 k Hk) as [kd Hkd]. unfold find_node in Hkd.
      destruct (get g (fst k)) as [kd'|] eqn:Egk; [|discriminate]. split.
      * assert (Hdk : dget deg (fst k) = Some (cnt V (n_prev kd'))).
        { rewrite HD, Egk. destruct (inb (fst k) V); [discriminate|reflexivity]. }
        apply dget_in in Hdk. apply (in_map fst) in Hdk. exact Hdk.
      * exists nd. split; [apply get_in; exact Eg|]. apply in_map. exact Hk.
Qed.

Lemma Inv_init : Inv [] (in_degree g).
Proof.
  assert (E : map fst (in_degree g) = map fst g) by (unfold in_degree; rewrite map_map; reflexivity).
  split; [rewrite E; exact N|]. split; [|intros v nd []].
  intros n. unfold in_degree. clear E. pose proof N as N'. clear HG N. induction g as [|[m md] r IH]; cbn; [reflexivity|].
  inversion N'; subst. destruct (String.eqb m n).
  - f_equal. unfold cnt. f_equal. induction (n_prev md) as [|k l IHl]; cbn; [reflexivity|]. f_equal. exact IHl.
  - apply IH. assumption.
Qed.

Lemma topo_main :
  exists ys r, topo_traverse g = (ys, Some r) /\
    NoDup ys /\ incl ys (map fst g) /\
    (forall l1 n l2, ys = l1 ++ n :: l2 -> forall a, name_edge g a n -> In a l1) /\
    ((r = Ok tt /\ Permutation ys (map fst g) /\ forall a, ~ clos_trans string (name_edge g) a a) \/
     (r = Raise GenericException /\ exists a, clos_trans string (name_edge g) a a)).
Proof.
  destruct (topo_spec (length g) [] (in_degree g) Inv_init) as (ys & r & E & H1 & H2 & H3 & H4).
  { unfold in_degree. rewrite map_length. lia. }
  exists ys, r. split; [exact E|]. split; [exact H1|]. split; [intros n Hn; apply H2; exact Hn|].
  assert (H3' : forall l1 n l2, ys = l1 ++ n :: l2 -> forall a, name_edge g a n -> In a l1).
  { intros l1 n l2 Hy a Ha. destruct (H3 l1 n l2 Hy a Ha) as [[]|H]; exact H. }
  split; [exact H3'|]. destruct H4 as [[-> H4]|H4]; [left|right; exact H4].
  split; [reflexivity|]. split.
  - apply NoDup_Permutation; [exact H1|exact N|]. intros n. split; [intros Hn; apply H2; exact Hn|].
    intros Hn. destruct (H4 n Hn) as [[]|H]; exact H.
  - assert (Hcl : forall x y, clos_trans string (name_edge g) x y ->
       forall l1 l2, ys = l1 ++ l2 -> In y l1 -> In x l1).
    { intros x y Hxy. induction Hxy as [x y Hxy|x z y H5 IH5 H6 IH6]; intros l1 l2 Hys Hy.
      - apply in_split in Hy as (u & v & ->). rewrite <- app_assoc in Hys. cbn in Hys.
        apply in_app_iff. left. exact (H3' _ _ _ Hys _ Hxy).
      - apply (IH5 l1 l2 Hys). apply (IH6 l1 l2 Hys). exact Hy. }
    assert (Hlast : forall x y, clos_trans string (name_edge g) x y ->
       forall l1 l2, ys = l1 ++ y :: l2 -> In x l1).
    { intros x y Hxy. apply clos_trans_tn1 in Hxy. destruct Hxy as [y Hxy|y z Hyz Hxy]; intros l1 l2 Hys.
      - exact (H3' _ _ _ Hys _ Hxy).
      - pose proof (H3' _ _ _ Hys _ Hyz) as Hy.
        apply (Hcl x y) with (l2 := z :: l2); [apply clos_tn1_trans; exact Hxy|exact Hys|exact Hy]. }
    intros a Ha.
    assert (Hain : In a ys).
    { assert (Hst : exists y, name_edge g y a).
      { apply clos_trans_tn1 in Ha. destruct Ha as [y H|y z H _]; eauto. }
      destruct Hst as (y & nd & Hin & _). apply (in_map fst) in Hin. cbn in Hin.
      destruct (H4 a Hin) as [[]|H]; exact H. }
    apply in_split in Hain as (u & v & Hys). pose proof (Hlast a a Ha u v Hys) as Hu.
    rewrite Hys in H1. apply NoDup_remove_2 in H1. apply H1. apply in_app_iff. left. exact Hu.
Qed.
End Topo.

(** For every graph reachable by calls (cyclic ones included), the traversal ends; it yields
    distinct stored nodes, each after all its predecessors; it yields all nodes exactly when
    the graph has no cycle and raises otherwise. *)
Theorem C13_topo_traverse :
  forall cs, deletes_ok empty_graph cs ->
  let g := run cs empty_graph in
  exists ys r, topo_traverse g = (ys, Some r) /\
    NoDup ys /\ incl ys (map fst g) /\
    (forall l1 n l2, ys = l1 ++ n :: l2 -> forall a, name_edge g a n -> In a l1) /\
    ((r = Ok tt /\ Permutation ys (map fst g) /\ forall a, ~ clos_trans string (name_edge g) a a) \/
     (r = Raise GenericException /\ exists a, clos_trans string (name_edge g) a a)).
Proof. intros cs H g. apply topo_main. apply run_G; [apply G_empty|exact H]. Qed.
Print Assumptions C13_topo_traverse.

(** topo_sort keeps exactly the nodes (with their edge lists) and puts them in such an order. *)
Theorem C13_topo_sort :
  forall cs g', deletes_ok empty_graph cs ->
  let g := run cs empty_graph in
  topo_sort g = (g', Some (Ok tt)) ->
  Permutation g' g /\
  forall l1 n nd l2, g' = l1 ++ (n, nd) :: l2 -> forall a, In a (map fst (n_prev nd)) -> In a (map fst l1).
Proof.
  intros cs g' H g Hs. assert (HG : G g) by (apply run_G; [apply G_empty|exact H]).
  assert (N : NoDup (map fst g)) by apply HG.
  destruct (topo_main g HG) as (ys & r & E & H1 & H2 & H3 & H4).
  unfold topo_sort in Hs. rewrite E in Hs.
  destruct H4 as [(-> & HP & _)|(-> & _)]; [|discriminate].
  set (f := fun nm => match get g nm with Some nd => [(nm, nd)] | None => [] end) in Hs.
  assert (Eg : g' = flat_map f ys) by congruence. clear Hs.
  assert (Hsplit : forall l, incl l (map fst g) -> map fst (flat_map f l) = l).
  { induction l as [|x l IH]; intros Hl; [reflexivity|]. cbn [flat_map]. unfold f at 1.
    destruct (get g x) eqn:Ex.
    - cbn. f_equal. apply IH. intros z Hz. apply Hl. right. exact Hz.
    - exfalso. apply get_none in Ex. apply Ex. apply Hl. left. reflexivity. }
  assert (Hin : forall n nd, In (n, nd) g' -> In (n, nd) g).
  { intros n nd Hi. rewrite Eg in Hi. apply in_flat_map in Hi as (x & _ & Hx). unfold f in Hx.
    destruct (get g x) eqn:Ex; [|destruct Hx]. destruct Hx as [Hx|[]]. inversion Hx; subst.
    apply get_in. exact Ex. }
  split.
  - apply NoDup_Permutation.
    + apply (NoDup_map_inv fst). rewrite Eg, Hsplit by exact H2. exact H1.
    + apply (NoDup_map_inv fst). exact N.
    + intros [n nd]. split; [apply Hin|]. intros Hi. rewrite Eg. apply in_flat_map. exists n.
      split; [|unfold f; rewrite (in_get _ _ _ N Hi); left; reflexivity].
      apply (Permutation_in _ (Permutation_sym HP)). change n with (fst (n, nd)). apply in_map. exact Hi.
  - intros l1 n nd l2 Hg a Ha. apply (H3 (map fst l1) n (map fst l2)).
    + rewrite <- (Hsplit ys H2), <- Eg, Hg, map_app. reflexivity.
    + exists nd. split; [|exact Ha]. apply Hin. rewrite Hg. apply in_app_iff. right. left. reflexivity.
Qed.
Print Assumptions C13_topo_sort.

Example C13_example :
  let a := ("a"%string, 0%nat) in let b := ("b"%string, 1%nat) in let c := ("c"%string, 2%nat) in
  let cs := [AddNode a; AddNode b; AddNode c; Connect c a; Connect a b; Connect c b] in
  deletes_ok empty_graph cs /\
  topo_traverse (run cs empty_graph) = (["c"; "a"; "b"]%string, Some (Ok tt)) /\
  topo_traverse (run (cs ++ [Connect b a]) empty_graph) = (["c"]%string, Some (Raise GenericException)).
Proof. cbv zeta. split; [cbn; tauto|]. split; vm_compute; reflexivity. Qed.
