(** C156: graphs are copied node by node and edge by edge; torch fx graphs become module graphs
    with the same data flow. *)
From Verif Require Import Prelude Graph_Model Graph_Lemmas Graph_Props ModuleGraph_Model ModuleGraph_Lemmas.
Local Open Scope list_scope.

(** * Copying *)
Definition fval (f : key -> outcome key) (k : key) : key := match f k with Ok z => z | Raise _ => k end.

Lemma loop_convert f : forall l, (forall k, In k l -> exists z, f k = Ok z) -> forall g,
  for_each l (fun k => seq_op (lift (f k)) add_or_find) g = for_each (map (fval f) l) add_or_find g.
Proof.
  induction l as [|k l IH]; intros H g; cbn [for_each map]; [reflexivity|].
  destruct (H k (or_introl eq_refl)) as [z Hz]. unfold seq_op, lift, fval. rewrite Hz.
  destruct (add_or_find z g) as [g' [u|e]]; [|reflexivity]. apply IH. intros y Hy. apply H. right. exact Hy.
Qed.

Definition copy_edges (f : key -> outcome key) (old : graph) : graph -> op unit :=
  (fix go (l : graph) : op unit :=
     match l with
     | [] => ret tt
     | (nm, nd) :: r =>
         seq_op (for_each (n_prev nd) (fun pre =>
           if kmem pre (keys old) then
             seq_op (lift (f pre)) (fun p => seq_op (lift (f (nm, n_val nd))) (fun q => connect p q))
           else lift (Raise KeyError)))
         (fun _ => go r)
     end).
Lemma copy_from_eq f old :
  copy_from f old = seq_op (for_each (keys old) (fun k => seq_op (lift (f k)) add_or_find)) (fun _ => copy_edges f old old).
Proof. reflexivity. Qed.

Lemma kmem_true k l : kmem k l = true <-> In k l.
Proof. unfold kmem. destruct (in_dec keq k l); intuition discriminate. Qed.

Lemma copy_edges_ok f old : forall l g E, WF g E ->
  (forall nm nd, In (nm, nd) l -> (exists z, f (nm, n_val nd) = Ok z) /\ stored g (fval f (nm, n_val nd)) /\
     forall p, In p (n_prev nd) -> In p (keys old) /\ (exists z, f p = Ok z) /\ stored g (fval f p)) ->
  exists g', copy_edges f old l g = (g', Ok tt) /\
    WF g' (fun x y => E x y \/ exists nm nd p, In (nm, nd) l /\ In p (n_prev nd) /\
             x = fval f p /\ y = fval f (nm, n_val nd)) /\
    (forall z, stored g' z <-> stored g z) /\ map fst g' = map fst g.
Proof.
  induction l as [|[nm nd] l IH]; intros g E W H.
  - exists g. split; [reflexivity|]. split; [|split; [tauto|reflexivity]].
    apply (WF_ext _ _ _ W). intros x y. split; [auto|]. intros [Hx|(? & ? & ? & [] & _)]; exact Hx.
  - cbn [copy_edges]. destruct (H nm nd (or_introl eq_refl)) as ((z & Hz) & Hs & Hp).
    unfold seq_op at 1.
    rewrite (for_each_ext _ (fun p => connect (fst ((fun p => (fval f p, fval f (nm, n_val nd))) p))
                                              (snd ((fun p => (fval f p, fval f (nm, n_val nd))) p)))).
    2:{ intros p Hi g0. destruct (Hp p Hi) as (Hk & (z' & Hz') & _). apply kmem_true in Hk. rewrite Hk.
        unfold seq_op, lift, fval. rewrite Hz, Hz'. reflexivity. }
    destruct (loop_connect (fun p => (fval f p, fval f (nm, n_val nd))) (n_prev nd) g E W) as (g1 & E1 & W1 & S1 & N1).
    { intros p Hi. cbn. split; [apply Hp; exact Hi|exact Hs]. }
    rewrite E1. destruct (IH g1 _ W1) as (g2 & E2 & W2 & S2 & N2).
    { intros nm' nd' Hi. destruct (H nm' nd' (or_intror Hi)) as (A & B & C). rewrite S1. split; [exact A|].
      split; [exact B|]. intros p Hpi. rewrite S1. apply C. exact Hpi. }
    exists g2. split; [exact E2|]. split; [|split; [intros y; rewrite S2; apply S1|congruence]].
    apply (WF_ext _ _ _ W2). intros x y. split.
    + intros [[Hx|(p & Hi & He)]|(nm' & nd' & p & Hi & Hr)]; [auto| |].
      * inversion He; subst. right. exists nm, nd, p. cbn. auto.
      * right. exists nm', nd', p. cbn. tauto.
    + intros [Hx|(nm' & nd' & p & [Hi|Hi] & Hr)]; [auto| |].
      * inversion Hi; subst. left. right. exists p. destruct Hr as (Hr & -> & ->). auto.
      * right. exists nm', nd', p. auto.
Qed.

Section Copy.
Variable old : graph.
Hypothesis HG : G old.
Variable f : key -> outcome key.
Hypothesis Htot : forall k, present old k -> exists z, f k = Ok z.
Hypothesis Hnam : forall a b a' b', present old a -> present old b -> f a = Ok a' -> f b = Ok b' ->
  fst a' = fst b' -> a' = b'.

Lemma old_names : NoDup (map fst old). Proof. apply HG. Qed.
Lemma in_keys k : In k (keys old) <-> present old k.
Proof. rewrite keys_stored, present_stored by apply old_names. tauto. Qed.
Lemma fval_ok k z : present old k -> (f k = Ok z <-> fval f k = z).
Proof.
  intros H. destruct (Htot k H) as [y Hy]. unfold fval. rewrite Hy. split; intros E; [apply Ok_inj in E; exact E|subst; reflexivity].
Qed.
Lemma entry nm nd : In (nm, nd) old <-> node_of old (nm, n_val nd) nd.
Proof. unfold node_of. cbn. tauto. Qed.

Lemma copy_ok : exists g', copy_from f old empty_graph = (g', Ok tt) /\
  WF g' (fun x y => exists a b, lists_next old a b /\ f a = Ok x /\ f b = Ok y) /\
  (forall z, stored g' z <-> exists a, present old a /\ f a = Ok z) /\
  (NoDup (map fst (map (fval f) (keys old))) -> map fst g' = map fst (map (fval f) (keys old))).
Proof.
  rewrite copy_from_eq. unfold seq_op at 1. rewrite loop_convert.
  2:{ intros k Hk. apply Htot. apply in_keys. exact Hk. }
  destruct (loop_add (map (fval f) (keys old)) empty_graph _ WF_empty) as (g1 & E1 & W1 & S1).
  { intros a b [Ha|Ha]; [destruct (empty_stored _ Ha)|]. intros [Hb|Hb]; [destruct (empty_stored _ Hb)|].
    apply in_map_iff in Ha as (a0 & Ha & Ka), Hb as (b0 & Hb & Kb). apply in_keys in Ka, Kb. intros Hf.
    apply (Hnam a0 b0); auto; apply fval_ok; auto. }
  assert (St : forall z, stored g1 z <-> exists a, present old a /\ f a = Ok z).
  { intros z. rewrite S1, in_map_iff. split.
    - intros [Hc|(a & Ha & Hk)]; [destruct (empty_stored _ Hc)|]. apply in_keys in Hk. exists a.
      split; [exact Hk|]. apply fval_ok; assumption.
    - intros (a & Ha & Hf). right. exists a. split; [apply fval_ok; assumption|apply in_keys; exact Ha]. }
  rewrite E1.
  assert (Hprev : forall nm nd p, In (nm, nd) old -> In p (n_prev nd) -> lists_next old p (nm, n_val nd)).
  { intros nm nd p Hi Hp. apply (proj1 (proj2 (G_consistent _ HG))). exists nd. split; [apply entry; exact Hi|exact Hp]. }
  assert (Hst : forall a, present old a -> stored g1 (fval f a)).
  { intros a Ha. apply St. exists a. split; [exact Ha|]. apply fval_ok; auto. }
  destruct (copy_edges_ok f old old g1 _ W1) as (g2 & E2 & W2 & S2 & N2).
  { intros nm nd Hi. assert (Hp : present old (nm, n_val nd)) by (exists nd; apply entry; exact Hi).
    split; [apply Htot; exact Hp|]. split; [apply Hst; exact Hp|]. intros p Hpi.
    pose proof (Hprev nm nd p Hi Hpi) as Hl. apply (proj2 (proj2 (G_consistent _ HG))) in Hl as [Hl _].
    split; [apply in_keys; exact Hl|]. split; [apply Htot; exact Hl|apply Hst; exact Hl]. }
  exists g2. split; [exact E2|]. split; [|split].
  - apply (WF_ext _ _ _ W2). intros x y. split.
    + intros [[]|(nm & nd & p & Hi & Hp & -> & ->)]. pose proof (Hprev nm nd p Hi Hp) as Hl.
      exists p, (nm, n_val nd). split; [exact Hl|]. apply (proj2 (proj2 (G_consistent _ HG))) in Hl as [Ha Hb].
      split; apply fval_ok; auto.
    + intros (a & b & Hl & Ha & Hb). right. pose proof Hl as Hl'.
      apply (proj2 (proj2 (G_consistent _ HG))) in Hl' as [Pa Pb].
      apply (proj1 (proj2 (G_consistent _ HG))) in Hl as (nd & Hnd & Hi). destruct b as [nm v].
      destruct Hnd as [Hin Hv]. cbn in Hin, Hv. subst v.
      exists nm, nd, a. split; [exact Hin|]. split; [exact Hi|]. split; symmetry; apply fval_ok; auto.
  - intros z. rewrite S2. apply St.
  - intros N. rewrite N2. pose proof (loop_add_names (map (fval f) (keys old)) empty_graph _ WF_empty N) as H.
    rewrite E1 in H. cbn [fst] in H. apply H. intros k _ [].
Qed.
End Copy.

(** [copy_from]: if the converter accepts every node and gives nodes of the same name the same
    content, the copy consists of the converted nodes, and has an edge exactly where the nodes
    converted from have one. *)
Theorem C156_copy : forall cs f, deletes_ok empty_graph cs ->
  let g := run cs empty_graph in
  (forall k, present g k -> exists z, f k = Ok z) ->
  (forall a b a' b', present g a -> present g b -> f a = Ok a' -> f b = Ok b' -> fst a' = fst b' -> a' = b') ->
  exists g', copy_from f g empty_graph = (g', Ok tt) /\ consistent g' /\
    (forall z, present g' z <-> exists a, present g a /\ f a = Ok z) /\
    (forall x y, lists_next g' x y <-> exists a b, lists_next g a b /\ f a = Ok x /\ f b = Ok y).
Proof.
  intros cs f Hd g Ht Hn. assert (HG : G g) by (apply run_G; [apply G_empty|exact Hd]).
  destruct (copy_ok g HG f Ht Hn) as (g' & E & W & S1 & _). exists g'. split; [exact E|].
  split; [apply G_consistent; exact (WF_G _ _ W)|]. split; [|apply (WF_lists _ _ W)].
  intros z. rewrite present_stored by exact (WF_names _ _ W). apply S1.
Qed.
Print Assumptions C156_copy.

(** Nodes of one name with different contents are refused. *)
Lemma for_each_app (b : key -> op unit) : forall l l' g, for_each (l ++ l') b g = seq_op (for_each l b) (fun _ => for_each l' b) g.
Proof.
  induction l as [|x l IH]; intros l' g; cbn [for_each app]; [reflexivity|]. unfold seq_op.
  destruct (b x g) as [g' [u|e]]; [|reflexivity]. rewrite IH. reflexivity.
Qed.
Lemma loop_add_only : forall l g g', for_each l add_or_find g = (g', Ok tt) ->
  (forall z, In z l -> stored g' z) /\ (forall z, stored g z -> stored g' z).
Proof.
  induction l as [|k l IH]; intros g g' H; cbn [for_each] in H.
  - inversion H; subst. split; [intros z []|auto].
  - unfold seq_op in H. destruct (add_or_find k g) as [g1 [u|e]] eqn:E1; [|discriminate].
    destruct (IH _ _ H) as [A B].
    assert (Hk : stored g1 k /\ forall z, stored g z -> stored g1 z).
    { unfold add_or_find in E1. destruct (find_node g k) as [nd|] eqn:Ef.
      - inversion E1; subst. split; [exists nd; exact Ef|auto].
      - unfold add_node in E1. destruct (get g (fst k)) eqn:Eg; [discriminate|]. inversion E1; subst. split.
        + exists (new_node (snd k)). unfold find_node. rewrite get_app, Eg. cbn. rewrite String.eqb_refl. cbn.
          rewrite Nat.eqb_refl. reflexivity.
        + intros z [nd Hz]. exists nd. unfold find_node in *. rewrite get_app.
          destruct (get g (fst z)); [exact Hz|discriminate]. }
    split; [intros z [<-|Hz]; [apply B; exact (proj1 Hk)|apply A; exact Hz]|intros z Hz; apply B; apply (proj2 Hk); exact Hz].
Qed.
Lemma loop_add_raise : forall l g g' e, for_each l add_or_find g = (g', Raise e) -> e = GenericException.
Proof.
  induction l as [|k l IH]; intros g g' e H; cbn [for_each] in H; [discriminate|]. unfold seq_op in H.
  destruct (add_or_find k g) as [g1 [u|e']] eqn:E1; [exact (IH _ _ _ H)|]. inversion H; subst.
  unfold add_or_find, add_node in E1. destruct (find_node g k); [discriminate|]. destruct (get g (fst k)); [|discriminate].
  inversion E1. reflexivity.
Qed.
Theorem C156_clash : forall cs f a b a' b', deletes_ok empty_graph cs ->
  let g := run cs empty_graph in
  (forall k, present g k -> exists z, f k = Ok z) ->
  present g a -> present g b -> f a = Ok a' -> f b = Ok b' -> fst a' = fst b' -> a' <> b' ->
  snd (copy_from f g empty_graph) = Raise GenericException.
Proof.
  intros cs f a b a' b' Hd g Ht Ha Hb Ea Eb Hf Hne.
  assert (HG : G g) by (apply run_G; [apply G_empty|exact Hd]).
  rewrite copy_from_eq. unfold seq_op at 1. rewrite loop_convert.
  2:{ intros k Hk. apply Ht. apply in_keys; assumption. }
  destruct (for_each (map (fval f) (keys g)) add_or_find empty_graph) as [g1 [[]|e]] eqn:E1.
  - exfalso. apply loop_add_only in E1 as [A _]. apply Hne. apply (stored_inj g1); [apply A|apply A|exact Hf].
    + apply in_map_iff. exists a. split; [apply fval_ok with (old := g); auto|apply in_keys; assumption].
    + apply in_map_iff. exists b. split; [apply fval_ok with (old := g); auto|apply in_keys; assumption].
  - apply loop_add_raise in E1. subst. reflexivity.
Qed.
Print Assumptions C156_clash.

(** * Torch graphs *)

(** The nodes of a torch graph have distinct names and take their inputs from the graph. *)
Definition torch_ok (t : list (key * list key)) : Prop :=
  NoDup (map (fun e => fst (fst e)) t) /\
  forall k ins p, In (k, ins) t -> In p ins -> In p (map fst t).
(** [p] is an input of [k]. *)
Definition feeds (t : list (key * list key)) (p k : key) : Prop := exists ins, In (k, ins) t /\ In p ins.

Definition torch_edges : list (key * list key) -> op unit :=
  (fix go (l : list (key * list key)) : op unit :=
     match l with
     | [] => ret tt
     | (k, ins) :: r =>
         seq_op (for_each ins (fun p =>
           seq_op (add_or_find p) (fun _ => seq_op (add_or_find k) (fun _ => connect p k))))
         (fun _ => go r)
     end).

Lemma inputs_ok k : forall ins g E, WF g E -> stored g k -> (forall p, In p ins -> stored g p) ->
  exists g', for_each ins (fun p => seq_op (add_or_find p) (fun _ => seq_op (add_or_find k) (fun _ => connect p k))) g = (g', Ok tt) /\
    WF g' (fun x y => E x y \/ (y = k /\ In x ins)) /\
    (forall z, stored g' z <-> stored g z) /\ map fst g' = map fst g.
Proof.
  induction ins as [|p ins IH]; intros g E W Hk Hp; cbn [for_each].
  - exists g. split; [reflexivity|]. split; [|split; [tauto|reflexivity]].
    apply (WF_ext _ _ _ W). cbn. tauto.
  - assert (A : forall z, stored g z -> add_or_find z g = (g, Ok tt)).
    { intros z [nd Hz]. unfold add_or_find. rewrite Hz. reflexivity. }
    destruct (connect_WF g E p k W (Hp p (or_introl eq_refl)) Hk) as (g1 & E1 & W1 & S1 & N1).
    unfold seq_op at 1 2 3. rewrite (A p (Hp p (or_introl eq_refl))), (A k Hk), E1.
    destruct (IH g1 _ W1) as (g2 & E2 & W2 & S2 & N2).
    { apply S1. exact Hk. } { intros z Hz. apply S1. apply Hp. right. exact Hz. }
    exists g2. split; [exact E2|]. split; [|split; [intros z; rewrite S2; apply S1|congruence]].
    apply (WF_ext _ _ _ W2). intros x y. cbn. intuition (subst; auto).
Qed.
Lemma torch_edges_ok : forall t g E, WF g E ->
  (forall k ins, In (k, ins) t -> stored g k /\ forall p, In p ins -> stored g p) ->
  exists g', torch_edges t g = (g', Ok tt) /\ WF g' (fun x y => E x y \/ feeds t x y) /\
    (forall z, stored g' z <-> stored g z) /\ map fst g' = map fst g.
Proof.
  induction t as [|[k ins] t IH]; intros g E W H.
  - exists g. split; [reflexivity|]. split; [|split; [tauto|reflexivity]].
    apply (WF_ext _ _ _ W). intros x y. split; [auto|]. intros [Hx|(? & [] & _)]; exact Hx.
  - cbn [torch_edges]. destruct (H k ins (or_introl eq_refl)) as [Hk Hp].
    destruct (inputs_ok k ins g E W Hk Hp) as (g1 & E1 & W1 & S1 & N1). unfold seq_op at 1. rewrite E1.
    destruct (IH g1 _ W1) as (g2 & E2 & W2 & S2 & N2).
    { intros k' ins' Hi. destruct (H k' ins' (or_intror Hi)) as [A B]. split; [apply S1; exact A|].
      intros p Hpi. apply S1. apply B. exact Hpi. }
    exists g2. split; [exact E2|]. split; [|split; [intros z; rewrite S2; apply S1|congruence]].
    apply (WF_ext _ _ _ W2). intros x y. unfold feeds. split.
    + intros [[Hx|[-> Hx]]|(i & Hi & Hx)]; [auto|right; exists ins; cbn; auto|right; exists i; cbn; auto].
    + intros [Hx|(i & [Hi|Hi] & Hx)]; [auto|inversion Hi; subst; auto|right; exists i; auto].
Qed.
Lemma torch_ok_graph t : torch_ok t -> exists g, parse_torch_graph t empty_graph = (g, Ok tt) /\
  WF g (feeds t) /\ (forall z, stored g z <-> In z (map fst t)) /\ map fst g = map (fun e => fst (fst e)) t.
Proof.
  intros [N H]. change (parse_torch_graph t) with (seq_op (for_each (map fst t) add_or_find) (fun _ => torch_edges t)).
  assert (N' : NoDup (map fst (map fst t))) by (rewrite map_map; exact N).
  assert (Inj : forall a b, In a (map fst t) -> In b (map fst t) -> fst a = fst b -> a = b).
  { clear H. revert N'. generalize (map fst t). induction l as [|x l IH]; intros N0 a b [] Hb Hf.
    - subst x. destruct Hb as [Hb|Hb]; [exact Hb|]. inversion N0; subst. exfalso. apply H1. rewrite Hf. apply in_map. exact Hb.
    - destruct Hb as [Hb|Hb]; [|inversion N0; subst; auto]. subst x. inversion N0; subst. exfalso. apply H2. rewrite <- Hf. apply in_map. exact H. }
  destruct (loop_add (map fst t) empty_graph _ WF_empty) as (g1 & E1 & W1 & S1).
  { intros a b [Ha|Ha]; [destruct (empty_stored _ Ha)|]. intros [Hb|Hb]; [destruct (empty_stored _ Hb)|].
    apply Inj; assumption. }
  assert (St : forall z, stored g1 z <-> In z (map fst t)).
  { intros z. rewrite S1. split; [intros [Hc|Hc]; [destruct (empty_stored _ Hc)|exact Hc]|auto]. }
  unfold seq_op at 1. rewrite E1. destruct (torch_edges_ok t g1 _ W1) as (g2 & E2 & W2 & S2 & N2).
  { intros k ins Hi. split; [apply St; apply (in_map fst) in Hi; exact Hi|]. intros p Hp. apply St. exact (H k ins p Hi Hp). }
  exists g2. split; [exact E2|]. split; [|split].
  - apply (WF_ext _ _ _ W2). intros x y. tauto.
  - intros z. rewrite S2. apply St.
  - rewrite N2. pose proof (loop_add_names (map fst t) empty_graph _ WF_empty N') as Hn. rewrite E1 in Hn. cbn [fst] in Hn.
    rewrite Hn; [apply map_map|]. intros k _ [].
Qed.

(** What a torch node becomes: its name is kept, calls become their target, graph inputs and
    outputs become placeholders. *)
Definition content (o : fxop) : option nat :=
  match o with
  | FFunction v | FMethod v | FModule v => Some v
  | FPlaceholder => Some v_input
  | FOutput => Some v_output
  | FGetAttr => Some v_get_attr
  | FOther => None
  end.

(** A torch graph whose nodes are all of a known kind becomes a module graph with the same nodes
    in the same order, and an edge wherever one node is an input of another. *)
Theorem C156_fx : forall t op_of, torch_ok t ->
  (forall k, In k (map fst t) -> content (op_of (snd k)) <> None) ->
  exists g g', parse_torch_graph t empty_graph = (g, Ok tt) /\ fx_to_graph op_of g = (g', Ok tt) /\
    consistent g' /\
    map fst g' = map (fun e => fst (fst e)) t /\
    (forall nm v, present g' (nm, v) <-> exists i, In (nm, i) (map fst t) /\ content (op_of i) = Some v) /\
    (forall x y, lists_next g' x y <-> exists i j, feeds t (fst x, i) (fst y, j) /\
       content (op_of i) = Some (snd x) /\ content (op_of j) = Some (snd y)).
Proof.
  intros t op_of Ht Hk. destruct (torch_ok_graph t Ht) as (g & E & W & S1 & N1). pose proof (WF_G _ _ W) as HG.
  assert (Nf : forall k z, node_converter op_of k = Ok z <-> fst z = fst k /\ content (op_of (snd k)) = Some (snd z)).
  { intros [n i] [m v]. unfold node_converter, content. cbn [fst snd].
    destruct (op_of i); split; intros H; try discriminate;
      try (apply Ok_inj in H; inversion H; subst; auto; fail);
      try (destruct H as [H1 H2]; inversion H2; subst; reflexivity). }
  assert (P : forall a, present g a <-> In a (map fst t)).
  { intros a. rewrite present_stored by exact (WF_names _ _ W). apply S1. }
  assert (Tot : forall k, present g k -> exists z, node_converter op_of k = Ok z).
  { intros k Hp. apply P in Hp. specialize (Hk k Hp). destruct (content (op_of (snd k))) as [v|] eqn:Ec; [|congruence].
    exists (fst k, v). apply Nf. auto. }
  destruct (copy_ok g HG (node_converter op_of) Tot) as (g' & E' & W' & S' & N').
  { intros a b a' b' Ha Hb Fa Fb Hf. assert (a = b); [|subst; congruence].
    rewrite P in Ha, Hb. rewrite <- S1 in Ha, Hb. apply (stored_inj g a b Ha Hb).
    apply Nf in Fa as [Fa _], Fb as [Fb _]. congruence. }
  exists g, g'. split; [exact E|]. split; [exact E'|]. split; [apply G_consistent; exact (WF_G _ _ W')|]. split; [|split].
  - assert (Hn : map fst (map (fval (node_converter op_of)) (keys g)) = map fst g).
    { unfold keys. rewrite !map_map. apply map_ext_in. intros [nm nd] Hi. cbn.
      assert (Hp : present g (nm, n_val nd)) by (exists nd; split; [exact Hi|reflexivity]).
      destruct (Tot _ Hp) as [z Hz]. unfold fval. rewrite Hz. apply Nf in Hz as [Hz _]. exact Hz. }
    rewrite N', Hn; [exact N1|rewrite Hn; exact (WF_names _ _ W)].
  - intros nm v. rewrite present_stored by exact (WF_names _ _ W'). rewrite S'. split.
    + intros ([n i] & Ha & Hf). apply Nf in Hf as [Hn Hc]. cbn in Hn, Hc. subst n. exists i. split; [apply P; exact Ha|exact Hc].
    + intros (i & Hi & Hc). exists (nm, i). split; [apply P; exact Hi|]. apply Nf. auto.
  - intros x y. rewrite (WF_lists _ _ W'). split.
    + intros ([n i] & [m j] & Hl & Fa & Fb). apply (WF_lists _ _ W) in Hl. apply Nf in Fa as [Fa Ca], Fb as [Fb Cb].
      cbn in *. subst. exists i, j. auto.
    + intros (i & j & Hl & Ca & Cb). exists (fst x, i), (fst y, j). split; [apply (WF_lists _ _ W); exact Hl|].
      split; apply Nf; auto.
Qed.
Print Assumptions C156_fx.

Example C156_example :
  let t := [(("x", 10), []); (("conv", 11), [("x", 10)]); (("add", 12), [("conv", 11); ("x", 10)]); (("output", 13), [("add", 12)])]%string%nat in
  let op_of (i : nat) := match i with 10 => FPlaceholder | 11 => FModule 20 | 12 => FFunction 21 | _ => FOutput end%nat in
  torch_ok t /\
  (let g := fst (parse_torch_graph t empty_graph) in
   map (fun p => (fst p, n_val (snd p), n_prev (snd p))) (fst (fx_to_graph op_of g))
   = [("x", 3, []); ("conv", 20, [("x", 3)]); ("add", 21, [("conv", 20); ("x", 3)]); ("output", 4, [("add", 21)])]%string%nat /\
   (* two nodes of one name *)
   snd (copy_from (fun k => Ok ("same"%string, snd k)) g empty_graph) = Raise GenericException).
Proof.
  cbv zeta. split; [|split; vm_compute; reflexivity]. split.
  - repeat constructor; cbn; intuition discriminate.
  - cbn. intros k ins p H Hp. repeat (destruct H as [H|H]; [inversion H; subst; cbn in Hp; intuition (subst; auto)|]). destruct H.
Qed.
