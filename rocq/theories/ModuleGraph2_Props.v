(** C157: ModuleGraph.check accepts exactly the healthy graphs, and check(fix=True) makes a graph
    healthy by adding one input and one output node. *)
From Coq Require Import Relations Permutation.
From Verif Require Import Prelude Graph_Model Graph_Lemmas Graph_Props ModuleGraph_Model ModuleGraph_Lemmas ModuleGraph_Props.
Local Open Scope list_scope.

(** Inputs only have successors, outputs only predecessors, all other nodes have both. *)
Definition has_prev (E : key -> key -> Prop) (k : key) : Prop := exists p, E p k.
Definition has_next (E : key -> key -> Prop) (k : key) : Prop := exists n, E k n.
Definition good (E : key -> key -> Prop) (k : key) : Prop :=
  (has_prev E k <-> snd k <> v_input) /\ (has_next E k <-> snd k <> v_output).
Definition healthy (g : graph) : Prop := forall k, present g k -> good (lists_next g) k.
Definition acyclic (g : graph) : Prop := forall k, ~ path g k k.
(** Nodes that lack a predecessor or a successor. *)
Definition orphan (E : key -> key -> Prop) (k : key) : Prop := snd k <> v_input /\ ~ has_prev E k.
Definition dead_end (E : key -> key -> Prop) (k : key) : Prop := snd k <> v_output /\ ~ has_next E k.

(** ** Acyclicity by names and by keys *)
Lemma name_edge_next g : G g -> forall a b, name_edge g a b <-> exists v w, lists_next g (a, v) (b, w).
Proof.
  intros HG a b. pose proof (G_consistent _ HG) as (_ & C & _). split.
  - intros (nd & Hi & Ha). apply in_map_iff in Ha as ([a' v] & Ha & Hp). cbn in Ha. subst a'.
    exists v, (n_val nd). apply C. exists nd. split; [split; [exact Hi|reflexivity]|exact Hp].
  - intros (v & w & H). apply C in H as (nd & [Hi Hv] & Hp). exists nd. split; [exact Hi|].
    apply (in_map fst) in Hp. exact Hp.
Qed.
Lemma name_path g : G g -> forall a b, clos_trans string (name_edge g) a b <-> exists v w, path g (a, v) (b, w).
Proof.
  intros HG a b. split.
  - assert (P : forall x y, path g x y -> stored g x /\ stored g y).
    { intros x y H. induction H as [x y H|x y z H1 IH1 H2 IH2]; [|tauto].
      pose proof HG as [_ HS]. apply HS. exact H. }
    intros H. induction H as [a b H|a z b H1 (v & w & IH1) H2 (w' & u & IH2)].
    + apply name_edge_next in H as (v & w & H); [|exact HG]. exists v, w. apply t_step. exact H.
    + assert (E : (z, w) = (z, w')) by (apply (stored_inj g); [apply (P _ _ IH1)|apply (P _ _ IH2)|reflexivity]).
      inversion E; subst. exists v, u. eapply t_trans; eassumption.
  - intros (v & w & H). remember (a, v) as x. remember (b, w) as y. revert a v b w Heqx Heqy.
    induction H as [x y H|x z y H1 IH1 H2 IH2]; intros a v b w -> ->.
    + apply t_step. apply name_edge_next; [exact HG|]. exists v, w. exact H.
    + destruct z as [c u]. eapply t_trans; [eapply IH1; reflexivity|eapply IH2; reflexivity].
Qed.
Lemma acyclic_names g : G g -> acyclic g <-> forall a, ~ clos_trans string (name_edge g) a a.
Proof.
  intros HG. split.
  - intros H a Ha. apply name_path in Ha as (v & w & Ha); [|exact HG].
    assert (E : (a, v) = (a, w)).
    { assert (P : forall x y, path g x y -> stored g x /\ stored g y).
      { intros x y P. induction P as [x y P|x y z P1 I1 P2 I2]; [|tauto]. pose proof HG as [_ HS]. apply HS. exact P. }
      apply (stored_inj g); [apply (P _ _ Ha)|apply (P _ _ Ha)|reflexivity]. }
    inversion E; subst. exact (H _ Ha).
  - intros H [a v] Ha. apply (H a). apply name_path; [exact HG|]. exists v, v. exact Ha.
Qed.

(** The traversal of an acyclic graph lists every node once. *)
Lemma key_at_stored g k : stored g k -> key_at g (fst k) = k.
Proof.
  intros [nd H]. unfold find_node in H. unfold key_at. destruct k as [nm v]. cbn in *.
  destruct (get g nm) as [nd'|] eqn:E; [|discriminate]. destruct (Nat.eqb_spec (n_val nd') v); [subst; reflexivity|discriminate].
Qed.
Lemma key_at_names g nm : In nm (map fst g) -> stored g (key_at g nm).
Proof. intros H. apply names_stored in H as [v H]. pose proof (key_at_stored g _ H) as E. cbn in E. rewrite E. exact H. Qed.
Lemma traversal g : G g -> acyclic g -> exists ys, topo_traverse g = (ys, Some (Ok tt)) /\
  NoDup (map (key_at g) ys) /\ (forall k, In k (map (key_at g) ys) <-> stored g k).
Proof.
  intros HG Ha. destruct (topo_main g HG) as (ys & r & E & N & I & _ & [(-> & HP & _)|(-> & b & Hb)]).
  - exists ys. split; [exact E|]. split.
    + clear - N. induction N as [|y ys Hy N IH]; cbn; constructor; [|exact IH]. rewrite in_map_iff.
      intros (z & Hz & Hi). unfold key_at in Hz. inversion Hz; subst. contradiction.
    + intros k. rewrite in_map_iff. split.
      * intros (nm & <- & Hi). apply key_at_names. apply I. exact Hi.
      * intros Hk. exists (fst k). split; [apply key_at_stored; exact Hk|].
        apply (Permutation_in _ (Permutation_sym HP)). apply stored_names. exact Hk.
  - exfalso. apply (proj1 (acyclic_names g HG) Ha b). exact Hb.
Qed.

(** ** One node *)
Lemma prev_none g E k nd : WF g E -> find_node g k = Some nd -> none (n_prev nd) = true <-> ~ has_prev E k.
Proof.
  intros [(_ & _ & _ & H4) _] Hf. assert (Hp : preds g k = n_prev nd) by (unfold preds; rewrite Hf; reflexivity).
  destruct (n_prev nd) as [|p l] eqn:E1; cbn; split; intros H; try reflexivity; try discriminate.
  - intros [p Hx]. apply H4 in Hx. rewrite Hp in Hx. destruct Hx.
  - exfalso. apply H. exists p. apply H4. rewrite Hp. left. reflexivity.
Qed.
Lemma next_none g E k nd : WF g E -> find_node g k = Some nd -> none (n_next nd) = true <-> ~ has_next E k.
Proof.
  intros [(_ & _ & H3 & _) _] Hf. assert (Hp : succs g k = n_next nd) by (unfold succs; rewrite Hf; reflexivity).
  destruct (n_next nd) as [|p l] eqn:E1; cbn; split; intros H; try reflexivity; try discriminate.
  - intros [p Hx]. apply H3 in Hx. rewrite Hp in Hx. destruct Hx.
  - exfalso. apply H. exists p. apply H3. rewrite Hp. left. reflexivity.
Qed.
Lemma has_prev_dec g E k : WF g E -> stored g k -> has_prev E k \/ ~ has_prev E k.
Proof.
  intros W [nd Hf]. destruct (none (n_prev nd)) eqn:B; [right; apply (prev_none g E k nd); assumption|left].
  destruct W as [(_ & _ & _ & H4) _]. destruct (n_prev nd) as [|p l] eqn:E1; [discriminate|]. exists p. apply H4.
  unfold preds. rewrite Hf, E1. left. reflexivity.
Qed.
Lemma has_next_dec g E k : WF g E -> stored g k -> has_next E k \/ ~ has_next E k.
Proof.
  intros W [nd Hf]. destruct (none (n_next nd)) eqn:B; [right; apply (next_none g E k nd); assumption|left].
  destruct W as [(_ & _ & H3 & _) _]. destruct (n_next nd) as [|p l] eqn:E1; [discriminate|]. exists p. apply H3.
  unfold succs. rewrite Hf, E1. left. reflexivity.
Qed.
Lemma find_val g k nd : find_node g k = Some nd -> n_val nd = snd k.
Proof.
  unfold find_node. destruct (get g (fst k)) as [d|]; [|discriminate].
  destruct (Nat.eqb_spec (n_val d) (snd k)); [|discriminate]. intros H. inversion H; subst. assumption.
Qed.

(** What the verdict says. *)
Lemma check_node_spec g E k nd : WF g E -> find_node g k = Some nd ->
  match check_node nd with
  | Fine => good E k
  | NoOutput => dead_end E k /\ ((snd k = v_input /\ ~ has_prev E k) \/ (snd k <> v_input /\ has_prev E k))
  | NoInput => orphan E k
  | Violation => (snd k = v_input /\ has_prev E k) \/ (snd k = v_output /\ has_prev E k /\ has_next E k)
  end.
Proof.
  intros W Hf. pose proof (find_val _ _ _ Hf) as Hv. pose proof (prev_none g E k nd W Hf) as P.
  pose proof (next_none g E k nd W Hf) as N.
  assert (Hs : stored g k) by (exists nd; exact Hf).
  destruct (has_prev_dec g E k W Hs) as [DP|DP], (has_next_dec g E k W Hs) as [DN|DN];
  (destruct (none (n_prev nd)) eqn:BP; [pose proof (proj1 P eq_refl)|assert (has_prev E k) by (destruct (has_prev_dec g E k W Hs) as [X|X]; [exact X|apply P in X; discriminate])]);
  (destruct (none (n_next nd)) eqn:BN; [pose proof (proj1 N eq_refl)|assert (has_next E k) by (destruct (has_next_dec g E k W Hs) as [X|X]; [exact X|apply N in X; discriminate])]);
  try contradiction;
  unfold check_node; rewrite Hv, BP, BN; cbn [negb];
  destruct (Nat.eqb_spec (snd k) v_input) as [Hi|Hi]; destruct (Nat.eqb_spec (snd k) v_output) as [Ho|Ho];
  unfold good, orphan, dead_end; try (rewrite Hi in *; discriminate);
  try (rewrite Hi in Ho; discriminate); try tauto;
  assert (v_input <> v_output) by discriminate; intuition congruence.
Qed.

(** ** Adding the automatic nodes *)
Lemma add_input_ok g E k : WF g E -> stored g k -> fits g auto_input ->
  exists g', add_input_before k g = (g', Ok tt) /\ WF g' (fun x y => E x y \/ (x = auto_input /\ y = k)) /\
    (forall z, stored g' z <-> stored g z \/ z = auto_input).
Proof.
  intros W Hk F. destruct (add_or_find_ok g E auto_input W F) as (g1 & E1 & W1 & S1 & _).
  destruct (connect_WF g1 E auto_input k W1) as (g2 & E2 & W2 & S2 & _).
  { apply S1. auto. } { apply S1. auto. }
  exists g2. unfold add_input_before, seq_op. rewrite E1. split; [exact E2|]. split; [exact W2|].
  intros z. rewrite S2. apply S1.
Qed.
Lemma add_output_ok g E k : WF g E -> stored g k -> fits g auto_output ->
  exists g', add_output_after k g = (g', Ok tt) /\ WF g' (fun x y => E x y \/ (x = k /\ y = auto_output)) /\
    (forall z, stored g' z <-> stored g z \/ z = auto_output).
Proof.
  intros W Hk F. destruct (add_or_find_ok g E auto_output W F) as (g1 & E1 & W1 & S1 & _).
  destruct (connect_WF g1 E k auto_output W1) as (g2 & E2 & W2 & S2 & _).
  { apply S1. auto. } { apply S1. auto. }
  exists g2. unfold add_output_after, seq_op. rewrite E1. split; [exact E2|]. split; [exact W2|].
  intros z. rewrite S2. apply S1.
Qed.
(** The same, read off a call that succeeded. *)
Lemma fits_dec g k : fits g k \/ exists z, stored g z /\ fst z = fst k /\ z <> k.
Proof.
  destruct (in_dec string_dec (fst k) (map fst g)) as [Hi|Hi].
  - apply names_stored in Hi as [v Hv]. destruct (keq (fst k, v) k) as [Hk|Hk].
    + left. intros z Hz Hf. rewrite <- Hk. apply (stored_inj g); [exact Hz|exact Hv|exact Hf].
    + right. exists (fst k, v). auto.
  - left. intros z Hz Hf. exfalso. apply Hi. rewrite <- Hf. apply stored_names. exact Hz.
Qed.
Lemma add_input_inv g E k g' : WF g E -> stored g k -> add_input_before k g = (g', Ok tt) ->
  WF g' (fun x y => E x y \/ (x = auto_input /\ y = k)) /\ (forall z, stored g' z <-> stored g z \/ z = auto_input).
Proof.
  intros W Hk H. destruct (fits_dec g auto_input) as [F|(z & Hz & Hf & Hne)].
  - destruct (add_input_ok g E k W Hk F) as (g1 & E1 & W1 & S1). rewrite E1 in H. inversion H; subst. auto.
  - unfold add_input_before, seq_op in H. rewrite (add_or_find_clash g auto_input z Hz Hf Hne) in H. discriminate.
Qed.
Lemma add_output_inv g E k g' : WF g E -> stored g k -> add_output_after k g = (g', Ok tt) ->
  WF g' (fun x y => E x y \/ (x = k /\ y = auto_output)) /\ (forall z, stored g' z <-> stored g z \/ z = auto_output).
Proof.
  intros W Hk H. destruct (fits_dec g auto_output) as [F|(z & Hz & Hf & Hne)].
  - destruct (add_output_ok g E k W Hk F) as (g1 & E1 & W1 & S1). rewrite E1 in H. inversion H; subst. auto.
  - unfold add_output_after, seq_op in H. rewrite (add_or_find_clash g auto_output z Hz Hf Hne) in H. discriminate.
Qed.

(** ** Without fixing *)
Lemma check_one_plain fuel g E k : WF g E -> stored g k ->
  fst (check_one fuel false k g) = g /\ (snd (check_one fuel false k g) = Ok tt <-> good E k) /\
  (snd (check_one fuel false k g) = Ok tt \/ snd (check_one fuel false k g) = Raise AssertionError \/
   snd (check_one fuel false k g) = Raise GenericException).
Proof.
  intros W [nd Hf]. pose proof (check_node_spec g E k nd W Hf) as S1.
  destruct fuel; cbn [check_one]; rewrite Hf; unfold good, orphan, dead_end in *; destruct (check_node nd); cbn;
    (split; [reflexivity|]); (split; [|auto]); split; intros H; try discriminate; try tauto;
    assert (v_input <> v_output) by discriminate; exfalso; intuition congruence.
Qed.
Lemma check_all_plain fuel g E : WF g E -> forall l, (forall k, In k l -> stored g k) ->
  fst (for_each l (check_one fuel false) g) = g /\
  (snd (for_each l (check_one fuel false) g) = Ok tt <-> forall k, In k l -> good E k).
Proof.
  intros W. induction l as [|k l IH]; intros H; cbn [for_each].
  - split; [reflexivity|]. split; [intros _ k []|reflexivity].
  - destruct (check_one_plain fuel g E k W (H k (or_introl eq_refl))) as (A & B & C). unfold seq_op.
    destruct (check_one fuel false k g) as [g1 r]. cbn in A, B, C. subst g1.
    destruct IH as [D F]; [intros z Hz; apply H; right; exact Hz|].
    destruct r as [[]|e].
    + split; [exact D|]. rewrite F. split.
      * intros Hl z [<-|Hz]; [apply B; reflexivity|auto].
      * intros Hl z Hz. apply Hl. right. exact Hz.
    + cbn. split; [reflexivity|]. split; [discriminate|]. intros Hl. apply B. apply Hl. left. reflexivity.
Qed.

(** [check()] never changes the graph and succeeds exactly on acyclic graphs whose inputs only
    have successors, whose outputs only have predecessors, and whose other nodes have both. *)
Theorem C157_check : forall cs fuel, deletes_ok empty_graph cs ->
  let g := run cs empty_graph in
  fst (check fuel false g) = g /\ (snd (check fuel false g) = Ok tt <-> acyclic g /\ healthy g).
Proof.
  intros cs fuel Hd g. assert (HG : G g) by (apply run_G; [apply G_empty|exact Hd]).
  pose proof HG as W. unfold check.
  destruct (topo_main g HG) as (ys & r & E & N & I & _ & [(-> & HP & Hc)|(-> & b & Hb)]); rewrite E.
  - assert (Ac : acyclic g) by (apply acyclic_names; assumption).
    destruct (traversal g HG Ac) as (ys' & E' & _ & I'). rewrite E in E'. inversion E'; subst ys'. clear E'.
    destruct (check_all_plain fuel g _ W (map (key_at g) ys)) as [A B].
    { intros k Hk. apply I'. exact Hk. }
    split; [exact A|]. rewrite B. unfold healthy. split.
    + intros H. split; [exact Ac|]. intros k Hk. apply H. apply I'. apply present_stored; [apply HG|exact Hk].
    + intros [_ H] k Hk. apply H. apply present_stored; [apply HG|]. apply I'. exact Hk.
  - cbn. split; [reflexivity|]. split; [discriminate|]. intros [Ac _]. exfalso.
    apply (proj1 (acyclic_names g HG) Ac b). exact Hb.
Qed.
Print Assumptions C157_check.

(** ** With fixing: what a successful call leaves *)
(** [later g0 E0 g E]: [g] is [g0] with edges from the automatic input and to the automatic
    output added. *)
Definition later (g0 : graph) (E0 : key -> key -> Prop) (g : graph) (E : key -> key -> Prop) : Prop :=
  WF g E /\ (forall z, stored g0 z -> stored g z) /\ (forall x y, E0 x y -> E x y) /\
  (forall x y, E x y -> E0 x y \/ (snd x <> v_output /\ snd y <> v_input /\ (x = auto_input \/ y = auto_output))) /\
  (forall z, stored g z -> stored g0 z \/ (z = auto_input /\ has_next E z) \/ (z = auto_output /\ has_prev E z)).
Lemma later_refl g E : WF g E -> later g E g E.
Proof. intros W. split; [exact W|]. split; [auto|]. split; [auto|]. split; auto. Qed.
Lemma later_trans g0 E0 g1 E1 g2 E2 : later g0 E0 g1 E1 -> later g1 E1 g2 E2 -> later g0 E0 g2 E2.
Proof.
  intros (A1 & A2 & A3 & A4 & A5) (B1 & B2 & B3 & B4 & B5). split; [exact B1|]. split; [auto|]. split; [auto|]. split.
  - intros x y H. apply B4 in H as [H|H]; [|auto]. apply A4 in H. exact H.
  - intros z H. apply B5 in H as [H|H]; [|auto]. apply A5 in H as [H|[[H [y Hy]]|[H [y Hy]]]]; [auto| |].
    + right. left. split; [exact H|]. exists y. apply B3. exact Hy.
    + right. right. split; [exact H|]. exists y. apply B3. exact Hy.
Qed.
Lemma check_one_later k : forall fuel g E g', WF g E -> stored g k -> check_one fuel true k g = (g', Ok tt) ->
  exists E', later g E g' E' /\ good E' k.
Proof.
  induction fuel as [|fuel IH]; intros g E g' W Hk H; pose proof Hk as [nd Hf]; cbn [check_one] in H; rewrite Hf in H;
    pose proof (check_node_spec g E k nd W Hf) as S1; destruct (check_node nd); cbn in H; try discriminate;
    try (inversion H; subst; exists E; split; [apply later_refl; exact W|exact S1]).
  - unfold seq_op in H. destruct (add_output_after k g) as [g1 [[]|e]] eqn:E1; [|discriminate].
    destruct (add_output_inv g E k g1 W Hk E1) as [W1 St1].
    destruct (IH _ _ _ W1 (proj2 (St1 k) (or_introl Hk)) H) as (E' & L & Gd). exists E'. split; [|exact Gd].
    eapply later_trans; [|exact L]. split; [exact W1|]. split; [intros z Hz; apply St1; auto|]. split; [auto|]. split.
    + intros x y [Hx|[-> ->]]; [auto|]. right. split; [apply S1|]. split; [discriminate|auto].
    + intros z Hz. apply St1 in Hz as [Hz| ->]; [auto|]. right. right. split; [reflexivity|]. exists k. auto.
  - unfold seq_op in H. destruct (add_input_before k g) as [g1 [[]|e]] eqn:E1; [|discriminate].
    destruct (add_input_inv g E k g1 W Hk E1) as [W1 St1].
    destruct (IH _ _ _ W1 (proj2 (St1 k) (or_introl Hk)) H) as (E' & L & Gd). exists E'. split; [|exact Gd].
    eapply later_trans; [|exact L]. split; [exact W1|]. split; [intros z Hz; apply St1; auto|]. split; [auto|]. split.
    + intros x y [Hx|[-> ->]]; [auto|]. right. split; [discriminate|]. split; [apply S1|auto].
    + intros z Hz. apply St1 in Hz as [Hz| ->]; [auto|]. right. left. split; [reflexivity|]. exists k. auto.
Qed.
Lemma good_later g E g' E' k : later g E g' E' -> good E k -> good E' k.
Proof.
  intros (_ & _ & A & B & _) [G1 G2]. split; split.
  - intros [p Hp]. apply B in Hp as [Hp|Hp]; [apply G1; exists p; exact Hp|apply Hp].
  - intros H. apply G1 in H as [p Hp]. exists p. auto.
  - intros [p Hp]. apply B in Hp as [Hp|Hp]; [apply G2; exists p; exact Hp|apply Hp].
  - intros H. apply G2 in H as [p Hp]. exists p. auto.
Qed.
Lemma check_all_later fuel : forall l g E g', WF g E -> (forall k, In k l -> stored g k) ->
  for_each l (check_one fuel true) g = (g', Ok tt) ->
  exists E', later g E g' E' /\ forall k, In k l -> good E' k.
Proof.
  induction l as [|k l IH]; intros g E g' W Hl H; cbn [for_each] in H.
  - inversion H; subst. exists E. split; [apply later_refl; exact W|intros k []].
  - unfold seq_op in H. destruct (check_one fuel true k g) as [g1 [[]|e]] eqn:E1; [|discriminate].
    destruct (check_one_later k fuel g E g1 W (Hl k (or_introl eq_refl)) E1) as (F & L1 & G1).
    destruct (IH g1 F g') as (E' & L2 & G2); [apply L1| |exact H|].
    { intros z Hz. apply L1. apply Hl. right. exact Hz. }
    exists E'. split; [eapply later_trans; eassumption|]. intros z [<-|Hz]; [eapply good_later; eassumption|auto].
Qed.
Lemma later_healthy g E g' E' : WF g E -> later g E g' E' -> (forall k, stored g k -> good E' k) ->
  forall k, stored g' k -> good E' k.
Proof.
  intros W L H k Hk. pose proof L as (W' & A & B & C & D).
  destruct (D k Hk) as [Hs|[[-> Hn]|[-> Hn]]]; [auto| |].
  - destruct (stored_dec g auto_input) as [Hs|Hs]; [auto|]. split; split; intros X.
    + intros Y. destruct X as [p Hp]. apply C in Hp as [Hp|(_ & Hp & _)]; [|exact (Hp Y)].
      apply Hs. apply W in Hp. apply Hp.
    + exfalso. apply X. reflexivity.
    + discriminate.
    + exact Hn.
  - destruct (stored_dec g auto_output) as [Hs|Hs]; [auto|]. split; split; intros X.
    + discriminate.
    + exact Hn.
    + intros Y. destruct X as [p Hp]. apply C in Hp as [Hp|(Hp & _)]; [|exact (Hp Y)].
      apply Hs. apply W in Hp. apply Hp.
    + exfalso. apply X. reflexivity.
Qed.
(** A chain of edges between ordinary nodes. *)
Lemma later_acyclic g E g' E' : WF g E -> later g E g' E' -> (forall k, stored g' k -> good E' k) ->
  (forall k, ~ clos_trans key E k k) -> forall k, ~ clos_trans key E' k k.
Proof.
  intros W (W' & A & B & C & D) Hg Ha.
  assert (In0 : forall p, ~ E' p auto_input).
  { intros p Hp. pose proof Hp as Hq. apply W' in Hq as [_ Hs]. apply Hg in Hs as [H1 _].
    apply (proj1 H1); [exists p; exact Hp|reflexivity]. }
  assert (Out0 : forall p, ~ E' auto_output p).
  { intros p Hp. pose proof Hp as Hq. apply W' in Hq as [Hs _]. apply Hg in Hs as [_ H1].
    apply (proj1 H1); [exists p; exact Hp|reflexivity]. }
  assert (First : forall x y, clos_trans key E' x y -> exists z, E' x z).
  { intros x y H. induction H as [x y H|x y z H1 IH1 H2 IH2]; eauto. }
  assert (Last : forall x y, clos_trans key E' x y -> exists z, E' z y).
  { intros x y H. induction H as [x y H|x y z H1 IH1 H2 IH2]; eauto. }
  assert (K : forall x y, clos_trans key E' x y -> x = auto_input \/ y = auto_output \/ clos_trans key E x y).
  { intros x y H. induction H as [x y H|x z y H1 IH1 H2 IH2].
    - apply C in H as [H|(_ & _ & [->| ->])]; [right; right; apply t_step; exact H|auto|auto].
    - destruct IH1 as [->|[->|P1]]; [auto| |].
      + apply First in H2 as [w Hw]. destruct (Out0 _ Hw).
      + destruct IH2 as [->|[->|P2]]; [|auto|right; right; eapply t_trans; eassumption].
        apply Last in H1 as [w Hw]. destruct (In0 _ Hw). }
  intros k H. destruct (K k k H) as [->|[->|P]].
  - apply Last in H as [w Hw]. exact (In0 _ Hw).
  - apply First in H as [w Hw]. exact (Out0 _ Hw).
  - exact (Ha k P).
Qed.

(** Whenever [check(fix=True)] returns, the graph has become healthy, is still acyclic, keeps all
    its nodes and edges, and has at most gained the two automatic nodes with edges out of the
    input and into the output. *)
Theorem C157_fixed : forall cs fuel g', deletes_ok empty_graph cs ->
  let g := run cs empty_graph in
  check fuel true g = (g', Ok tt) ->
  consistent g' /\ acyclic g' /\ healthy g' /\
  (forall z, present g z -> present g' z) /\
  (forall x y, lists_next g x y -> lists_next g' x y) /\
  (forall z, present g' z -> present g z \/ z = auto_input \/ z = auto_output) /\
  (forall x y, lists_next g' x y -> lists_next g x y \/ x = auto_input \/ y = auto_output).
Proof.
  intros cs fuel g' Hd g H. assert (HG : G g) by (apply run_G; [apply G_empty|exact Hd]).
  pose proof HG as W. unfold check in H.
  destruct (topo_main g HG) as (ys & r & E & N & I & _ & [(-> & HP & Hc)|(-> & b & Hb)]); rewrite E in H; [|discriminate].
  assert (Ac : acyclic g) by (apply acyclic_names; assumption).
  destruct (traversal g HG Ac) as (ys' & E' & _ & I'). rewrite E in E'. inversion E'; subst ys'. clear E'.
  destruct (check_all_later fuel _ g _ g' W (fun k Hk => proj1 (I' k) Hk) H) as (F & L & Gd).
  pose proof L as (W' & A & B & C & D).
  assert (Hh : forall k, stored g' k -> good F k).
  { apply (later_healthy g _ g' F W L). intros k Hk. apply Gd. apply I'. exact Hk. }
  pose proof (WF_lists _ _ W') as Le.
  assert (N' : NoDup (map fst g')) by exact (WF_names _ _ W').
  split; [apply G_consistent; exact (WF_G _ _ W')|]. split; [|split; [|split; [|split; [|split]]]].
  - intros k Hk. apply (later_acyclic g _ g' F W L Hh Ac k).
    apply (clos_trans_incl (lists_next g')); [|exact Hk]. intros x y Hx. apply t_step. apply Le. exact Hx.
  - intros k Hk. apply present_stored in Hk; [|exact N']. apply Hh in Hk as [G1 G2].
    unfold good, has_prev, has_next. split; [rewrite <- G1|rewrite <- G2]; (split; intros [p Hp]; exists p; apply Le; exact Hp).
  - intros z. rewrite !present_stored by (exact N' || apply HG). apply A.
  - intros x y Hx. apply Le. apply B. exact Hx.
  - intros z. rewrite !present_stored by (exact N' || apply HG). intros Hz. apply D in Hz. intuition.
  - intros x y Hx. apply Le in Hx. apply C in Hx. intuition.
Qed.
Print Assumptions C157_fixed.

(** ** With fixing: when it succeeds, and exactly what it adds *)
Lemma check_one_fix k fuel g E : (2 <= fuel)%nat -> WF g E -> stored g k -> k <> auto_input -> k <> auto_output ->
  fits g auto_input -> fits g auto_output ->
  (snd k = v_input -> ~ has_prev E k) -> (snd k = v_output -> ~ has_next E k) ->
  exists g', check_one fuel true k g = (g', Ok tt) /\
    WF g' (fun x y => E x y \/ (x = auto_input /\ y = k /\ orphan E k) \/ (y = auto_output /\ x = k /\ dead_end E k)) /\
    (forall z, stored g' z <-> stored g z \/ (z = auto_input /\ orphan E k) \/ (z = auto_output /\ dead_end E k)).
Proof.
  intros Hfu W Hk Na No Fi Fo Hi Ho. destruct fuel as [|[|fuel]]; [lia|lia|]. clear Hfu.
  (* a node without successor, in a graph where it has what else it needs *)
  assert (Out : forall g E, WF g E -> stored g k -> fits g auto_output -> (snd k = v_input -> ~ has_prev E k) ->
     (snd k <> v_input -> has_prev E k) -> (snd k = v_output -> ~ has_next E k) -> exists g', check_one (S fuel) true k g = (g', Ok tt) /\
     WF g' (fun x y => E x y \/ (y = auto_output /\ x = k /\ dead_end E k)) /\
     (forall z, stored g' z <-> stored g z \/ (z = auto_output /\ dead_end E k))).
  { clear g E W Hk Fi Fo Hi Ho. intros g E W Hk Fo Hi Hi' Ho. pose proof Hk as [nd Hf].
    pose proof (check_node_spec g E k nd W Hf) as S1. cbn [check_one]. rewrite Hf.
    assert (Dd : dead_end E k \/ ~ dead_end E k).
    { unfold dead_end. destruct (has_next_dec g E k W Hk); [right; tauto|]. destruct (Nat.eq_dec (snd k) v_output); [right; tauto|left; auto]. }
    destruct (check_node nd) eqn:Ec; cbn [negb].
    - exists g. split; [reflexivity|]. assert (~ dead_end E k) by (unfold dead_end, good in *; tauto).
      split; [apply (WF_ext _ _ _ W); intros x y; tauto|]. intros z. tauto.
    - destruct S1 as [Sd _]. destruct (add_output_ok g E k W Hk Fo) as (g1 & E1 & W1 & St1). unfold seq_op at 1. rewrite E1.
      assert (Hk1 : stored g1 k) by (apply St1; auto). pose proof Hk1 as [nd1 Hf1].
      pose proof (check_node_spec g1 _ k nd1 W1 Hf1) as S2.
      assert (Hn : has_next (fun x y => E x y \/ (x = k /\ y = auto_output)) k) by (exists auto_output; auto).
      assert (Hp : has_prev (fun x y => E x y \/ (x = k /\ y = auto_output)) k <-> has_prev E k).
      { split; [intros (p & [Hp|[_ Hp]]); [exists p; exact Hp|contradiction]|intros [p Hp]; exists p; auto]. }
      assert (Hfine : check_node nd1 = Fine).
      { destruct (check_node nd1); [reflexivity|destruct S2 as [[_ S2] _]; contradiction| |].
        - destruct S2 as [S2 S3]. rewrite Hp in S3. tauto.
        - destruct S2 as [[S2 S3]|(S2 & S3 & _)]; [rewrite Hp in S3; tauto|]. destruct Sd as [Sd _]. contradiction. }
      exists g1. split; [destruct fuel; cbn [check_one]; rewrite Hf1, Hfine; reflexivity|]. split.
      + apply (WF_ext _ _ _ W1). intros x y. tauto.
      + intros z. rewrite St1. tauto.
    - destruct S1 as [S1 S2]. tauto.
    - destruct S1 as [[S1 S2]|(S1 & S2 & S3)]; tauto. }
  pose proof Hk as [nd Hf]. pose proof (check_node_spec g E k nd W Hf) as S1.
  assert (Dn : orphan E k \/ ~ orphan E k).
  { unfold orphan. destruct (has_prev_dec g E k W Hk); [right; tauto|]. destruct (Nat.eq_dec (snd k) v_input); [right; tauto|left; auto]. }
  destruct Dn as [Or|Or].
  - assert (Ec : check_node nd = NoInput).
    { pose proof Or as [O1 O2]. destruct (check_node nd); [destruct S1 as [S1 _]; tauto|tauto|reflexivity|tauto]. }
    cbn [check_one]. rewrite Hf, Ec. cbn [negb].
    destruct (add_input_ok g E k W Hk Fi) as (g1 & E1 & W1 & St1). unfold seq_op at 1. rewrite E1.
    assert (Hn : has_next (fun x y => E x y \/ (x = auto_input /\ y = k)) k <-> has_next E k).
    { split; [intros (p & [Hp|[Hp _]]); [exists p; exact Hp|contradiction]|intros [p Hp]; exists p; auto]. }
    destruct (Out g1 _ W1) as (g2 & E2 & W2 & St2).
    { apply St1. auto. }
    { intros z Hz Hq. apply St1 in Hz as [Hz| ->]; [apply Fo; assumption|discriminate Hq]. }
    { intros Hv. destruct Or as [O1 _]. contradiction. }
    { intros _. exists auto_input. auto. }
    { intros Hv. rewrite Hn. auto. }
    exists g2. split; [exact E2|]. assert (Dq : dead_end (fun x y => E x y \/ (x = auto_input /\ y = k)) k <-> dead_end E k) by (unfold dead_end; rewrite Hn; tauto).
    split.
    + apply (WF_ext _ _ _ W2). intros x y. rewrite Dq. tauto.
    + intros z. rewrite St2, St1, Dq. tauto.
  - assert (Hp : snd k <> v_input -> has_prev E k).
    { intros Hv. destruct (has_prev_dec g E k W Hk) as [X|X]; [exact X|]. exfalso. apply Or. split; assumption. }
    pose proof (Out g E W Hk Fo Hi Hp Ho) as (g2 & E2 & W2 & St2).
    assert (E3 : check_one (S (S fuel)) true k g = (g2, Ok tt)).
    { cbn [check_one] in E2 |- *. rewrite Hf in *. destruct (check_node nd) eqn:Ec; cbn [negb] in *; try exact E2.
      - unfold seq_op in E2 |- *. destruct (add_output_after k g) as [g1 [[]|e]] eqn:E1; [|discriminate].
        destruct (add_output_inv g E k g1 W Hk E1) as [W1 St1].
        assert (Hk1 : stored g1 k) by (apply St1; auto). destruct Hk1 as [nd1 Hf1].
        destruct fuel; cbn [check_one] in E2 |- *; rewrite Hf1 in *; destruct (check_node nd1) eqn:Ec1; cbn [negb] in *; try exact E2; try discriminate.
        all: pose proof (check_node_spec g1 _ k nd1 W1 Hf1) as S2; rewrite Ec1 in S2; exfalso.
        + destruct S2 as [[_ S2] _]. apply S2. exists auto_output. auto.
        + destruct S2 as [S2 S3]. destruct S1 as [_ [[S4 _]|[_ [p S4]]]]; [contradiction|]. apply S3. exists p. auto.
      - contradiction. }
    exists g2. split; [exact E3|]. split.
    + apply (WF_ext _ _ _ W2). intros x y. tauto.
    + intros z. rewrite St2. tauto.
Qed.

Definition grown (E : key -> key -> Prop) (P : list key) (x y : key) : Prop :=
  E x y \/ (x = auto_input /\ In y P /\ orphan E y) \/ (y = auto_output /\ In x P /\ dead_end E x).
Lemma check_all_fix fuel g0 E : (2 <= fuel)%nat -> WF g0 E ->
  ~ In (fst auto_input) (map fst g0) -> ~ In (fst auto_output) (map fst g0) ->
  (forall k, stored g0 k -> (snd k = v_input -> ~ has_prev E k) /\ (snd k = v_output -> ~ has_next E k)) ->
  forall l P g, NoDup (P ++ l) -> (forall k, In k (P ++ l) -> stored g0 k) -> WF g (grown E P) ->
  (forall z, stored g z <-> stored g0 z \/ (z = auto_input /\ exists k, In k P /\ orphan E k) \/
                            (z = auto_output /\ exists k, In k P /\ dead_end E k)) ->
  exists g', for_each l (check_one fuel true) g = (g', Ok tt) /\ WF g' (grown E (P ++ l)) /\
    (forall z, stored g' z <-> stored g0 z \/ (z = auto_input /\ exists k, In k (P ++ l) /\ orphan E k) \/
                            (z = auto_output /\ exists k, In k (P ++ l) /\ dead_end E k)).
Proof.
  intros Hfu W0 Ni No Hv. induction l as [|k l IH]; intros P g Nd Hs W St; cbn [for_each].
  - exists g. rewrite app_nil_r. auto.
  - assert (Hk : stored g0 k) by (apply Hs; apply in_app_iff; right; left; reflexivity).
    assert (Nk : k <> auto_input /\ k <> auto_output).
    { split; intros ->; [apply Ni|apply No]; apply stored_names; exact Hk. }
    assert (HkP : ~ In k P) by (apply NoDup_remove_2 in Nd; rewrite in_app_iff in Nd; tauto).
    assert (Ei : forall p, ~ E p auto_input) by (intros p Hp; apply W0 in Hp as [_ Hp]; apply Ni; apply stored_names; exact Hp).
    assert (Eo : forall p, ~ E auto_output p) by (intros p Hp; apply W0 in Hp as [Hp _]; apply No; apply stored_names; exact Hp).
    assert (Hp : has_prev (grown E P) k <-> has_prev E k).
    { split; [intros (p & [H|[(-> & H & _)|(-> & _)]]); [exists p; exact H|contradiction|tauto]|intros [p H]; exists p; left; exact H]. }
    assert (Hn : has_next (grown E P) k <-> has_next E k).
    { split; [intros (p & [H|[(-> & _)|(-> & H & _)]]); [exists p; exact H|tauto|contradiction]|intros [p H]; exists p; left; exact H]. }
    assert (Oq : orphan (grown E P) k <-> orphan E k) by (unfold orphan; rewrite Hp; tauto).
    assert (Dq : dead_end (grown E P) k <-> dead_end E k) by (unfold dead_end; rewrite Hn; tauto).
    destruct (check_one_fix k fuel g (grown E P) Hfu W) as (g1 & E1 & W1 & St1); [apply St; auto|tauto|tauto| | | | |].
    { intros z Hz Hf. apply St in Hz as [Hz|[[Hz _]|[-> _]]]; [|exact Hz|discriminate Hf].
      exfalso. apply Ni. rewrite <- Hf. apply stored_names. exact Hz. }
    { intros z Hz Hf. apply St in Hz as [Hz|[[-> _]|[Hz _]]]; [|discriminate Hf|exact Hz].
      exfalso. apply No. rewrite <- Hf. apply stored_names. exact Hz. }
    { intros Hx. rewrite Hp. apply Hv; assumption. } { intros Hx. rewrite Hn. apply Hv; assumption. }
    unfold seq_op at 1. rewrite E1.
    destruct (IH (P ++ [k]) g1) as (g2 & E2 & W2 & St2).
    + rewrite <- app_assoc. exact Nd.
    + intros z Hz. apply Hs. rewrite <- app_assoc in Hz. exact Hz.
    + apply (WF_ext _ _ _ W1). intros x y. rewrite Oq, Dq. unfold grown. setoid_rewrite in_app_iff. cbn. split.
      * intros [[H|[(-> & H & Ho)|(-> & H & Ho)]]|[(-> & -> & Ho)|(-> & -> & Ho)]]; auto 8.
      * intros [H|[(-> & [H|[<-|[]]] & Ho)|(-> & [H|[<-|[]]] & Ho)]]; auto 8.
    + intros z. rewrite St1, St, Oq, Dq. setoid_rewrite in_app_iff. cbn. split.
      * intros [[H|[(-> & k0 & H & Ho)|(-> & k0 & H & Ho)]]|[(-> & Ho)|(-> & Ho)]]; eauto 10.
      * intros [H|[(-> & k0 & [H|[<-|[]]] & Ho)|(-> & k0 & [H|[<-|[]]] & Ho)]]; eauto 10.
    + exists g2. rewrite <- app_assoc in W2, St2. auto.
Qed.

(** For an acyclic graph that does not use the two names and violates nothing, the call succeeds
    and adds exactly: an edge from the automatic input to every node that lacks a predecessor, an
    edge to the automatic output from every node that lacks a successor, and those of the two
    nodes that are needed. *)
Theorem C157_fix : forall cs fuel, (2 <= fuel)%nat -> deletes_ok empty_graph cs ->
  let g := run cs empty_graph in let E := lists_next g in
  acyclic g ->
  (forall k, present g k -> (snd k = v_input -> ~ has_prev E k) /\ (snd k = v_output -> ~ has_next E k)) ->
  (forall v, ~ present g ("auto_input"%string, v) /\ ~ present g ("auto_output"%string, v)) ->
  exists g', check fuel true g = (g', Ok tt) /\
    (forall x y, lists_next g' x y <-> E x y \/ (x = auto_input /\ present g y /\ orphan E y) \/
                                      (y = auto_output /\ present g x /\ dead_end E x)) /\
    (forall z, present g' z <-> present g z \/ (z = auto_input /\ exists k, present g k /\ orphan E k) \/
                                (z = auto_output /\ exists k, present g k /\ dead_end E k)).
Proof.
  intros cs fuel Hfu Hd g E Ac Hv Hfr. assert (HG : G g) by (apply run_G; [apply G_empty|exact Hd]).
  assert (N : NoDup (map fst g)) by apply HG.
  assert (P : forall k, present g k <-> stored g k) by (intros k; apply present_stored; exact N).
  destruct (traversal g HG Ac) as (ys & Et & Ny & Iy). unfold check. rewrite Et.
  assert (Fr : forall nm, (forall v, ~ present g (nm, v)) -> ~ In nm (map fst g)).
  { intros nm H Hi. apply names_stored in Hi as [v Hi]. apply (H v). apply P. exact Hi. }
  destruct (check_all_fix fuel g E Hfu HG) with (l := map (key_at g) ys) (P := @nil key) (g := g) as (g' & E1 & W1 & S1).
  - apply Fr. intros v. apply Hfr.
  - apply Fr. intros v. apply Hfr.
  - intros k Hk. apply Hv. apply P. exact Hk.
  - exact Ny.
  - intros k Hk. apply Iy. exact Hk.
  - apply (WF_ext _ _ _ HG). intros x y. unfold grown. cbn. fold E. tauto.
  - intros z. split; [auto|]. intros [H|[(_ & k & [] & _)|(_ & k & [] & _)]]. exact H.
  - cbn [app] in *. exists g'. split; [exact E1|]. split.
    + intros x y. rewrite (WF_lists _ _ W1). unfold grown. rewrite !Iy, !P. tauto.
    + intros z. rewrite present_stored by exact (WF_names _ _ W1). rewrite S1, P.
      setoid_rewrite Iy. setoid_rewrite P. tauto.
Qed.
Print Assumptions C157_fix.

(** A misplaced edge is not repaired. *)
Theorem C157_misplaced : forall cs fuel k, deletes_ok empty_graph cs ->
  let g := run cs empty_graph in
  present g k -> (snd k = v_input /\ has_prev (lists_next g) k) \/ (snd k = v_output /\ has_next (lists_next g) k) ->
  snd (check fuel true g) <> Ok tt.
Proof.
  intros cs fuel k Hd g Hk Hbad H. destruct (check fuel true g) as [g' r] eqn:E. cbn in H. subst r.
  destruct (C157_fixed cs fuel g' Hd E) as (_ & _ & Hh & A & B & _). destruct (Hh k (A k Hk)) as [H1 H2].
  destruct Hbad as [[Hv [p Hp]]|[Hv [p Hp]]].
  - apply (proj1 H1); [exists p; apply B; exact Hp|exact Hv].
  - apply (proj1 H2); [exists p; apply B; exact Hp|exact Hv].
Qed.
Print Assumptions C157_misplaced.

(** A network whose first layer has no input node and whose auxiliary branch ends nowhere. *)
Example C157_example :
  let conv := ("conv"%string, 10%nat) in let aux := ("aux"%string, 11%nat) in let out := ("output"%string, v_output) in
  let cs := [AddNode conv; AddNode aux; AddNode out; Connect conv aux; Connect conv out] in
  let g := run cs empty_graph in
  snd (check 2 false g) = Raise GenericException /\
  snd (check 2 true g) = Ok tt /\
  map (fun p => (fst p, n_next (snd p))) (fst (check 2 true g))
  = [("conv", [aux; out]); ("aux", [auto_output]); ("output", []); ("auto_input", [conv]); ("auto_output", [])]%string /\
  snd (check 2 false (fst (check 2 true g))) = Ok tt /\
  snd (check 2 true (run (cs ++ [Connect out aux]) empty_graph)) = Raise AssertionError.
Proof. cbv zeta. repeat split; vm_compute; reflexivity. Qed.
