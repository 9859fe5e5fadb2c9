(** C122 - removing fake-quantize nodes and the constants they use from an ONNX graph. *)
From Coq Require Import String Permutation.
From Verif Require Import Prelude Onnx_Model Onnx_Lemmas Onnx_Props Onnx2_Props Onnx3_Props Export_Model Export_Props.
Local Open Scope string_scope.
Local Open Scope list_scope.
Local Open Scope Z_scope.

(** ** Specification *)
(** Constant [c] is an input of [n]; the number of inputs of [n] that are [c]. *)
Definition feeds (c n : onode) : Prop := o_op c = "Constant" /\ exists i, In i (o_in n) /\ In i (o_out c).
Definition inputs_from (c n : onode) : nat := length (filter (fun i => mem i (o_out c)) (o_in n)).
(** [c] is used by no node that stays. *)
Definition spare (nodes : list onode) (c : onode) : Prop := forall n o, In n nodes -> ~ quantizer n -> In o (o_out c) -> ~ In o (o_in n).
Record proper (nodes : list onode) : Prop := {
  pr_names : NoDup (map o_name nodes);
  pr_outs : NoDup (flat_map o_out nodes);
  pr_const : forall n, In n nodes -> o_op n = "Constant" -> o_in n = [] /\ exists o, o_out n = [o] }.
Definition graph_of (nodes : list onode) : omodel unit := {| m_node := nodes; m_init := []; m_in := []; m_out := [] |}.
(** The step of the exporters. *)
Definition strip (nodes : list onode) : outcome (list onode) :=
  remove_symbolic_related (collect_symbolic_nodes nodes)
    (collect_symbolic_constant_inputs (map_output_and_node unit (graph_of nodes)) (collect_symbolic_nodes nodes)) nodes.

(** ** Proof *)
Lemma onode_dec (a b : onode) : {a = b} + {a <> b}.
Proof. destruct (same_node a b) eqn:E; [left|right; intros ->]; [apply (same_node_eq unit (fun _ _ _ => []) a b); exact E|rewrite (proj2 (same_node_eq unit (fun _ _ _ => []) b b) eq_refl) in E; discriminate E]. Qed.
(** What the growing list ends as. *)
Fixpoint fresh_of (seen : list string) (l : list onode) : list onode :=
  match l with [] => [] | c :: r => if mem (o_name c) seen then fresh_of seen r else c :: fresh_of (seen ++ [o_name c]) r end.
Lemma iter_done : forall q fuel seen out, (forall c, In c q -> In (o_name c) seen) -> (length q <= fuel)%nat -> collect_iter fuel q seen out = (seen, out).
Proof.
  induction q as [|c q IH]; intros fuel seen out H L; [destruct fuel; reflexivity|]. cbn [length] in L. destruct fuel as [|f]; [lia|]. cbn [collect_iter]. rewrite (proj2 (mem_in _ _) (H c (or_introl eq_refl))). apply IH; [intros x I; apply H; right; exact I|lia].
Qed.
Lemma iter_spec : forall l q fuel seen out, (forall c, In c q -> In (o_name c) seen) -> (2 * length l + length q <= fuel)%nat ->
  collect_iter fuel (l ++ q) seen out = (seen ++ map o_name (fresh_of seen l), out ++ fresh_of seen l).
Proof.
  induction l as [|c l IH]; intros q fuel seen out H L; cbn [app fresh_of map].
  - rewrite !app_nil_r. apply iter_done; [exact H|cbn in L; lia].
  - cbn [length] in L. destruct fuel as [|f]; [lia|]. cbn [collect_iter]. destruct (mem (o_name c) seen) eqn:M; [apply IH; [exact H|lia]|].
    rewrite <- app_assoc. rewrite IH; [rewrite <- !app_assoc; reflexivity| |rewrite app_length; cbn [length]; lia].
    intros x I. apply in_app_or in I as [I|[<-|[]]]; apply in_or_app; [left; auto|right; left; reflexivity].
Qed.
Lemma collect_last o2n : forall pre n seen result, exists seen', collect_constants o2n (pre ++ [n]) seen result = get_constant_inputs o2n n ++ fresh_of seen' (get_constant_inputs o2n n) /\
  forall nm, In nm seen' <-> In nm seen \/ In nm (map o_name (flat_map (get_constant_inputs o2n) pre)).
Proof.
  assert (I1 : forall l seen, collect_iter (S (2 * length l)) l seen l = (seen ++ map o_name (fresh_of seen l), l ++ fresh_of seen l)).
  { intros l seen. pose proof (iter_spec l [] (S (2 * length l)) seen l) as H. rewrite app_nil_r in H. apply H; [intros c []|cbn [length]; lia]. }
  assert (I2 : forall l seen nm, In nm (seen ++ map o_name (fresh_of seen l)) <-> In nm seen \/ In nm (map o_name l)).
  { induction l as [|c l IH]; intros seen nm; cbn [fresh_of map]; [rewrite app_nil_r; cbn; tauto|]. destruct (mem (o_name c) seen) eqn:M.
    - apply mem_in in M. rewrite IH. cbn [In]. split; [tauto|intros [H|[<-|H]]; auto].
    - cbn [map]. specialize (IH (seen ++ [o_name c]) nm). rewrite <- app_assoc in IH. cbn [app] in IH. rewrite IH, in_app_iff. cbn [In]. tauto. }
  induction pre as [|x pre IH]; intros n seen result.
  - exists seen. cbn [app collect_constants]. rewrite I1. split; [reflexivity|]. cbn. tauto.
  - cbn [app collect_constants]. rewrite I1. destruct (IH n (seen ++ map o_name (fresh_of seen (get_constant_inputs o2n x))) (get_constant_inputs o2n x ++ fresh_of seen (get_constant_inputs o2n x))) as (seen' & E & S1).
    exists seen'. split; [exact E|]. intros nm. rewrite S1, I2. cbn [flat_map]. rewrite map_app, in_app_iff. tauto.
Qed.

Lemma filter_twice {A} (f g : A -> bool) l : filter f (filter g l) = filter (fun x => g x && f x) l.
Proof. induction l as [|x l IH]; [reflexivity|]. cbn [filter]. destruct (g x); cbn [filter andb]; [destruct (f x); rewrite IH; reflexivity|exact IH]. Qed.
Section Strip.
Variable nodes : list onode.
Hypothesis P : proper nodes.
Let o2n := map_output_and_node unit (graph_of nodes).
Let gci := get_constant_inputs o2n.
Lemma o2n_get i : match get o2n i with Some c => In c nodes /\ In i (o_out c) | None => forall c, In c nodes -> ~ In i (o_out c) end.
Proof.
  destruct (get o2n i) as [c|] eqn:G.
  - assert (Inv : forall ns d, incl ns nodes -> (forall k x, get d k = Some x -> In x nodes /\ In k (o_out x)) ->
      forall k x, get (fold_left (fun d n => fold_left (fun d o => put d o n) (o_out n) d) ns d) k = Some x -> In x nodes /\ In k (o_out x)).
    { induction ns as [|n ns IH]; intros d Hn Hd; [exact Hd|]. cbn [fold_left]. apply IH; [intros y I; apply Hn; right; exact I|]. intros k x. rewrite (fold_put_get (fun o => o) (fun _ => n)) by reflexivity.
      destruct (find (fun b => String.eqb b k) (o_out n)) as [b|] eqn:F; [|apply Hd]. apply find_some in F as [I E]. apply String.eqb_eq in E. subst b. intros E. apply some_inj in E. subst x. split; [apply Hn; left; reflexivity|exact I]. }
    apply (Inv nodes []); [apply incl_refl|discriminate|exact G].
  - intros c I J. apply get_none in G. apply G. apply has_in. apply (has_out unit (fun _ _ _ => []) (graph_of nodes)). apply in_flat_map. exists c. auto.
Qed.
Lemma gci_in n c : In c (gci n) <-> In c nodes /\ feeds c n.
Proof.
  unfold gci, get_constant_inputs. rewrite in_flat_map. split.
  - intros (i & Hi & J). pose proof (o2n_get i) as G. destruct (get o2n i) as [x|]; [|destruct J]. destruct (String.eqb_spec (o_op x) "Constant") as [Op|_]; [|destruct J]. destruct J as [<-|[]]. destruct G as [G1 G2]. split; [exact G1|]. split; [exact Op|eauto].
  - intros [I [Op (i & Hi & J)]]. exists i. split; [exact Hi|]. pose proof (o2n_get i) as G. destruct (get o2n i) as [x|]; [|exfalso; exact (G c I J)]. destruct G as [G1 G2]. assert (x = c) by (exact (out_unique nodes x c i (pr_outs _ P) G1 I G2 J)). subst x. rewrite Op. cbn. auto.
Qed.
Lemma gci_count n c : In c nodes -> o_op c = "Constant" -> count_occ onode_dec (gci n) c = inputs_from c n.
Proof.
  intros I Op. unfold gci, get_constant_inputs, inputs_from. induction (o_in n) as [|i l IH]; [reflexivity|]. cbn [flat_map filter]. rewrite count_occ_app, IH. pose proof (o2n_get i) as G. destruct (mem i (o_out c)) eqn:M.
  - apply mem_in in M. destruct (get o2n i) as [x|]; [|exfalso; exact (G c I M)]. destruct G as [G1 G2]. assert (x = c) by (exact (out_unique nodes x c i (pr_outs _ P) G1 I G2 M)). subst x. rewrite Op. cbn. destruct (onode_dec c c); [reflexivity|contradiction].
  - destruct (get o2n i) as [x|]; [|reflexivity]. destruct (String.eqb (o_op x) "Constant"); [|reflexivity]. cbn. destruct (onode_dec x c) as [->|_]; [|reflexivity]. destruct G as [_ G2]. apply mem_in in G2. congruence.
Qed.
Lemma name_inj a b : In a nodes -> In b nodes -> o_name a = o_name b -> a = b.
Proof.
  pose proof (pr_names _ P) as N. revert N. generalize nodes. intros l. induction l as [|x l IH]; intros N Ia Ib E; [destruct Ia|]. cbn [map] in N. apply NoDup_cons_iff in N as [N1 N2].
  destruct Ia as [<-|Ia], Ib as [<-|Ib]; [reflexivity| | |auto]; exfalso; apply N1; [rewrite E|rewrite <- E]; apply in_map; assumption.
Qed.
Lemma fresh_count : forall l seen c, incl l nodes -> In c nodes -> count_occ onode_dec (fresh_of seen l) c = if mem (o_name c) seen then 0%nat else if in_dec onode_dec c l then 1%nat else 0%nat.
Proof.
  induction l as [|x l IH]; intros seen c Hl Hc; cbn [fresh_of]; [destruct (mem (o_name c) seen); reflexivity|]. assert (Hl' : incl l nodes) by (intros y I; apply Hl; right; exact I). destruct (mem (o_name x) seen) eqn:M.
  - rewrite IH by assumption. destruct (mem (o_name c) seen) eqn:Mc; [reflexivity|]. destruct (in_dec onode_dec c l) as [I|I], (in_dec onode_dec c (x :: l)) as [J|J]; try reflexivity; [exfalso; apply J; right; exact I|]. destruct J as [->|J]; [congruence|contradiction].
  - cbn [count_occ]. destruct (onode_dec x c) as [->|Ne].
    + rewrite M, IH by assumption. rewrite (proj2 (mem_in (o_name c) (seen ++ [o_name c]))) by (apply in_or_app; right; left; reflexivity). destruct (in_dec onode_dec c (c :: l)) as [J|J]; [reflexivity|exfalso; apply J; left; reflexivity].
    + rewrite IH by assumption. assert (E : mem (o_name c) (seen ++ [o_name x]) = mem (o_name c) seen).
      { destruct (mem (o_name c) seen) eqn:Mc; [apply mem_in; apply mem_in in Mc; apply in_or_app; auto|]. apply mem_not. apply mem_not in Mc. intros J. apply in_app_or in J as [J|[J|[]]]; [exact (Mc J)|]. apply Ne. apply name_inj; [apply Hl; left; reflexivity|exact Hc|exact J]. }
      rewrite E. destruct (mem (o_name c) seen); [reflexivity|]. destruct (in_dec onode_dec c l) as [I|I], (in_dec onode_dec c (x :: l)) as [J|J]; try reflexivity; [exfalso; apply J; right; exact I|]. destruct J as [->|J]; [contradiction|contradiction].
Qed.

(** Removing the constants one by one. *)
Let kept := filter (fun n => negb (is_symbolic n)) nodes.
Definition spareb (c : onode) : bool := negb (existsb (fun n => existsb (fun o => mem o (o_in n)) (o_out c)) kept).
Lemma spareb_iff c : spareb c = true <-> spare nodes c.
Proof.
  unfold spareb, spare, kept. rewrite negb_true_iff. split.
  - intros H n o I Q Ho Hi. assert (X : existsb (fun n => existsb (fun o => mem o (o_in n)) (o_out c)) (filter (fun n => negb (is_symbolic n)) nodes) = true); [|congruence].
    apply existsb_exists. exists n. split; [apply filter_In; split; [exact I|]|apply existsb_exists; exists o; split; [exact Ho|apply mem_in; exact Hi]]. destruct (is_symbolic n) eqn:S0; [apply symbolic_iff in S0; contradiction|reflexivity].
  - intros H. destruct (existsb _ _) eqn:E; [|reflexivity]. exfalso. apply existsb_exists in E as (n & I & E). apply existsb_exists in E as (o & Ho & E). apply mem_in in E. apply filter_In in I as [I S0]. apply (H n o I); auto. intros Q. apply symbolic_iff in Q. rewrite Q in S0. discriminate S0.
Qed.
Lemma standalone_spare (g : onode -> bool) c : In c nodes -> o_op c = "Constant" -> (forall n, In n kept -> g n = false -> o_in n = []) -> is_standalone_constant (filter g kept) c = Ok (spareb c).
Proof.
  intros I Op Hg. destruct (pr_const _ P c I Op) as [_ [o Eo]]. unfold is_standalone_constant, spareb. rewrite Eo. f_equal. f_equal. cbn [existsb].
  revert Hg. induction kept as [|n l IH]; intros Hg; [reflexivity|]. cbn [filter existsb]. rewrite orb_false_r. destruct (g n) eqn:G; cbn [existsb]; [f_equal; apply IH; intros x Ix; apply Hg; right; exact Ix|]. rewrite (Hg n (or_introl eq_refl) G). cbn. apply IH. intros x Ix. apply Hg. right. exact Ix.
Qed.
Lemma remove_one (l : list onode) c : NoDup l -> remove_node c l = if in_dec onode_dec c l then Ok (filter (fun x => if onode_dec x c then false else true) l) else Raise ValueError.
Proof.
  induction l as [|x l IH]; intros N; [reflexivity|]. apply NoDup_cons_iff in N as [N1 N2]. cbn [remove_node filter]. destruct (same_node x c) eqn:E.
  - apply (same_node_eq unit (fun _ _ _ => [])) in E. subst x. destruct (in_dec onode_dec c (c :: l)) as [_|J]; [|exfalso; apply J; left; reflexivity]. destruct (onode_dec c c) as [_|J]; [|contradiction]. f_equal.
    clear -N1. induction l as [|y l IH]; [reflexivity|]. cbn [filter]. destruct (onode_dec y c) as [->|_]; [exfalso; apply N1; left; reflexivity|]. f_equal. apply IH. intros J. apply N1. right. exact J.
  - assert (Ne : x <> c) by (intros ->; rewrite (proj2 (same_node_eq unit (fun _ _ _ => []) c c) eq_refl) in E; discriminate E). rewrite IH by exact N2. destruct (onode_dec x c); [contradiction|].
    destruct (in_dec onode_dec c l) as [I|I], (in_dec onode_dec c (x :: l)) as [J|J]; try reflexivity; [exfalso; apply J; right; exact I|]. destruct J as [J|J]; contradiction.
Qed.
Lemma kept_nodup : NoDup kept.
Proof. apply NoDup_filter, (NoDup_map_inv o_name). exact (pr_names _ P). Qed.
Lemma kept_const c : In c nodes -> o_op c = "Constant" -> In c kept.
Proof. intros I Op. apply filter_In. split; [exact I|]. unfold is_symbolic. rewrite Op. reflexivity. Qed.
Lemma remove_result : forall cs (g : onode -> bool), (forall c, In c cs -> In c nodes /\ o_op c = "Constant") -> (forall n, In n kept -> g n = false -> o_in n = []) ->
  (remove_constants cs (filter g kept) = Raise ValueError /\ ~ (NoDup (filter spareb cs) /\ forall c, In c (filter spareb cs) -> g c = true)) \/
  (exists g', remove_constants cs (filter g kept) = Ok (filter g' kept) /\ NoDup (filter spareb cs) /\ (forall c, In c (filter spareb cs) -> g c = true) /\ forall n, g' n = true <-> g n = true /\ ~ In n (filter spareb cs)).
Proof.
  induction cs as [|c cs IH]; intros g Hc Hg; cbn [remove_constants filter].
  - right. exists g. split; [reflexivity|]. split; [constructor|]. split; [intros c []|]. cbn. tauto.
  - destruct (Hc c (or_introl eq_refl)) as [I Op]. assert (Hc' : forall x, In x cs -> In x nodes /\ o_op x = "Constant") by (intros x Ix; apply Hc; right; exact Ix). rewrite (standalone_spare g c I Op Hg). cbn [bind]. destruct (spareb c) eqn:Sp; [|cbn [bind]; apply IH; assumption].
    rewrite remove_one by (apply NoDup_filter, kept_nodup). destruct (in_dec onode_dec c (filter g kept)) as [J|J]; cbn [bind].
    + apply filter_In in J as [_ Gc]. rewrite filter_twice. set (g1 := fun x => g x && (if onode_dec x c then false else true)).
      assert (E1 : filter (fun x => g x && (if onode_dec x c then false else true)) kept = filter g1 kept) by reflexivity.
      destruct (IH g1 Hc') as [[E N]|(g' & E & N & G & G')].
      * intros n In_n Gn. unfold g1 in Gn. destruct (g n) eqn:Gn'; [|exact (Hg n In_n Gn')]. cbn in Gn. destruct (onode_dec n c) as [->|_]; [|discriminate Gn]. exact (proj1 (pr_const _ P c I Op)).
      * left. split; [exact E|]. intros [N1 H1]. apply N. apply NoDup_cons_iff in N1 as [N1 N2]. split; [exact N2|]. intros x Ix. unfold g1. rewrite (H1 x (or_intror Ix)). destruct (onode_dec x c) as [->|_]; [contradiction|reflexivity].
      * right. exists g'. split; [exact E|]. assert (Nc : ~ In c (filter spareb cs)). { intros Jc. pose proof (G c Jc) as H1. unfold g1 in H1. destruct (onode_dec c c); [rewrite andb_false_r in H1; discriminate H1|contradiction]. }
        split; [constructor; assumption|]. split.
        -- intros x [<-|Ix]; [exact Gc|]. pose proof (G x Ix) as H1. unfold g1 in H1. apply andb_true_iff in H1. tauto.
        -- intros n. rewrite G'. unfold g1. rewrite andb_true_iff. cbn [In]. destruct (onode_dec n c) as [->|Ne]; split; intros H; intuition (try congruence).
    + left. split; [reflexivity|]. intros [_ H1]. apply J. apply filter_In. split; [apply kept_const; assumption|]. apply H1. left. reflexivity.
Qed.
End Strip.

(** ** Theorems *)
(** Claim: the fake-quantize nodes and the constants only they use are removed from every graph. *)
Definition C122_claim : Prop := forall nodes, proper nodes -> exists l, strip nodes = Ok l.
Definition C122_all_claim : Prop := forall nodes l, proper nodes -> strip nodes = Ok l ->
  forall c n, In c l -> In n nodes -> quantizer n -> feeds c n -> ~ spare nodes c.

Section Outcome.
Variable nodes pre : list onode.
Variable last : onode.
Hypothesis P : proper nodes.
(** [last] is the last fake-quantize node of the list and [pre] those before it. *)
Hypothesis Order : filter is_symbolic nodes = pre ++ [last].
Let result := get_constant_inputs (map_output_and_node unit (graph_of nodes)) last.
Lemma strip_list : exists seen, strip nodes = remove_constants (result ++ fresh_of seen result) (filter (fun n => negb (is_symbolic n)) nodes) /\
  forall c, In c nodes -> o_op c = "Constant" -> (mem (o_name c) seen = true <-> exists n, In n pre /\ feeds c n).
Proof.
  unfold strip, collect_symbolic_nodes, collect_symbolic_constant_inputs. rewrite Order. destruct (collect_last (map_output_and_node unit (graph_of nodes)) pre last [] []) as (seen & E & Hs). rewrite E. exists seen. split.
  - unfold remove_symbolic_related. rewrite <- Order. pose proof (remove_filter unit (fun _ _ _ => []) is_symbolic nodes []) as Rm. cbn [app] in Rm. rewrite Rm; [reflexivity|apply (NoDup_map_inv o_name); exact (pr_names _ P)|intros x []].
  - intros c I Op. rewrite mem_in, Hs. cbn [In]. rewrite in_map_iff. split.
    + intros [[]|(x & En & J)]. apply in_flat_map in J as (n & Hn & J). exists n. split; [exact Hn|]. apply (gci_in nodes P) in J as [Ix F]. assert (x = c) by (exact (name_inj nodes P x c Ix I En)). subst x. exact F.
    + intros (n & Hn & F). right. exists c. split; [reflexivity|]. apply in_flat_map. exists n. split; [exact Hn|]. apply (gci_in nodes P). auto.
Qed.
(** A constant is named twice unless the node uses it once and an earlier one uses it too. *)
Definition once (c : onode) : Prop := inputs_from c last = 1%nat /\ exists n, In n pre /\ feeds c n.
Lemma spare_feeds seen c : In c (result ++ fresh_of seen result) -> In c nodes /\ feeds c last.
Proof.
  intros I. apply (gci_in nodes P). apply in_app_or in I as [I|I]; [exact I|]. revert seen I. fold result. induction result as [|x l IH]; intros seen I; [exact I|]. cbn [fresh_of] in I. destruct (mem (o_name x) seen); [right; eapply IH; exact I|]. destruct I as [<-|I]; [left; reflexivity|right; eapply IH; exact I].
Qed.
Lemma twice seen c : In c nodes -> feeds c last -> (mem (o_name c) seen = true <-> exists n, In n pre /\ feeds c n) ->
  ((count_occ onode_dec (result ++ fresh_of seen result) c <= 1)%nat <-> once c).
Proof.
  intros I F Hm. assert (Inc : incl result nodes) by (intros x Ix; exact (proj1 (proj1 (gci_in nodes P last x) Ix))). rewrite count_occ_app, (fresh_count nodes P) by assumption.
  assert (Ec : count_occ onode_dec result c = inputs_from c last) by (exact (gci_count nodes P last c I (proj1 F))). rewrite Ec. assert (Ic : In c result) by (apply (gci_in nodes P); auto). assert (Ge : (1 <= inputs_from c last)%nat) by (rewrite <- Ec; apply (count_occ_In onode_dec); exact Ic).
  destruct (in_dec onode_dec c result) as [_|N]; [|contradiction]. unfold once. destruct (mem (o_name c) seen) eqn:M.
  - split; [intros L; split; [lia|apply Hm; reflexivity]|intros [E _]; rewrite E; lia].
  - split; [lia|intros [_ H]; apply Hm in H; discriminate H].
Qed.
Lemma fresh_outcome : (exists g, strip nodes = Ok (filter g nodes) /\ (forall c, In c nodes -> feeds c last -> spare nodes c -> once c) /\
    forall n, In n nodes -> (g n = true <-> ~ quantizer n /\ ~ (feeds n last /\ spare nodes n))) \/
  (strip nodes = Raise ValueError /\ ~ (forall c, In c nodes -> feeds c last -> spare nodes c -> once c)).
Proof.
  destruct strip_list as (seen & E & Hs). rewrite E. set (R0 := result ++ fresh_of seen result) in *.
  assert (HR : forall c, In c R0 -> In c nodes /\ feeds c last) by (intros c; apply spare_feeds).
  assert (NF : NoDup (filter (spareb nodes) R0) <-> forall c, In c nodes -> feeds c last -> spare nodes c -> once c).
  { assert (Cf : forall c, spareb nodes c = true -> count_occ onode_dec (filter (spareb nodes) R0) c = count_occ onode_dec R0 c).
    { intros c Hc. generalize R0. intros l. induction l as [|x l IH]; [reflexivity|]. cbn [filter count_occ]. destruct (spareb nodes x) eqn:Sx; cbn [count_occ]; destruct (onode_dec x c) as [->|_]; congruence. }
    rewrite (NoDup_count_occ onode_dec). split.
    - intros H c I F Sp. apply (twice seen c I F); [apply Hs; [exact I|exact (proj1 F)]|]. fold R0. etransitivity; [apply Nat.eq_le_incl; symmetry; exact (Cf c (proj2 (spareb_iff nodes c) Sp))|apply H].
    - intros H c. destruct (in_dec onode_dec c (filter (spareb nodes) R0)) as [I|I]; [|rewrite (proj1 (count_occ_not_In onode_dec _ _) I); lia]. apply filter_In in I as [I Sp]. rewrite (Cf c Sp). destruct (HR c I) as [In_c F]. apply (twice seen c In_c F); [apply Hs; [exact In_c|exact (proj1 F)]|]. apply H; [exact In_c|exact F|]. apply spareb_iff. exact Sp. }
  assert (Et : filter (fun n => negb (is_symbolic n)) nodes = filter (fun _ => true) (filter (fun n => negb (is_symbolic n)) nodes)) by (generalize (filter (fun n => negb (is_symbolic n)) nodes); intros l; induction l as [|x l IH]; [reflexivity|cbn [filter]; f_equal; exact IH]). rewrite Et.
  destruct (remove_result nodes P R0 (fun _ => true)) as [[E1 N]|(g' & E1 & N & _ & Hg)].
  - intros c I. destruct (HR c I) as [In_c F]. split; [exact In_c|exact (proj1 F)].
  - discriminate.
  - right. split; [exact E1|]. intros H. apply N. split; [apply NF; exact H|reflexivity].
  - left. exists (fun n => negb (is_symbolic n) && g' n). split; [rewrite E1; f_equal; apply filter_twice|]. split; [apply NF; exact N|].
    intros n I. rewrite andb_true_iff, negb_true_iff, Hg. split.
    + intros [Ns [_ H]]. split; [intros Q; apply symbolic_iff in Q; congruence|]. intros [F Sp]. apply H. apply filter_In. split; [apply in_or_app; left; apply (gci_in nodes P); auto|apply spareb_iff; exact Sp].
    + intros [Nq H]. split; [destruct (is_symbolic n) eqn:S0; [apply symbolic_iff in S0; contradiction|reflexivity]|]. split; [reflexivity|]. intros J. apply filter_In in J as [J Sp]. apply H. split; [exact (proj2 (HR n J))|apply spareb_iff; exact Sp].
Qed.
End Outcome.

(** [last] is the last fake-quantize node, [before] the nodes before it. *)
Definition last_quantizer (nodes before : list onode) (last : onode) : Prop :=
  exists b, nodes = before ++ last :: b /\ quantizer last /\ forall n, In n b -> ~ quantizer n.
Lemma last_filter nodes before last : last_quantizer nodes before last -> filter is_symbolic nodes = filter is_symbolic before ++ [last].
Proof.
  intros (b & E & Q & H). rewrite E, filter_app. cbn [filter]. rewrite (proj2 (symbolic_iff last) Q). do 2 f_equal. clear -H. induction b as [|n b IH]; [reflexivity|]. cbn [filter]. destruct (is_symbolic n) eqn:S0; [exfalso; exact (H n (or_introl eq_refl) (proj1 (symbolic_iff n) S0))|]. apply IH. intros x I. apply H. right. exact I.
Qed.
Lemma last_exists nodes : (forall n, In n nodes -> ~ quantizer n) \/ exists before last, last_quantizer nodes before last.
Proof.
  induction nodes as [|n l IH]; [left; intros n []|]. destruct IH as [H|(a & x & b & E & Q & H)].
  - destruct (is_symbolic n) eqn:S0; [right; exists [], n, l; split; [reflexivity|]; split; [apply symbolic_iff; exact S0|exact H]|]. left. intros x [<-|I]; [intros Q; apply symbolic_iff in Q; congruence|exact (H x I)].
  - right. exists (n :: a), x, b. rewrite E. auto.
Qed.
(** The step succeeds exactly if each constant that is an input of the last fake-quantize node and
    of no other node that stays is one input of it, and an input of an earlier fake-quantize node;
    then it removes all fake-quantize nodes and these constants. Otherwise it raises ValueError. *)
Definition used_before (before : list onode) (c : onode) : Prop := exists n, In n before /\ quantizer n /\ feeds c n.
Lemma used_before_iff before c : used_before before c <-> exists n, In n (filter is_symbolic before) /\ feeds c n.
Proof. split; intros (n & H); exists n; rewrite filter_In, symbolic_iff in *; tauto. Qed.
Theorem C122_removed_partial nodes before last : proper nodes -> last_quantizer nodes before last ->
  (forall c, In c nodes -> feeds c last -> spare nodes c -> inputs_from c last = 1%nat /\ used_before before c) ->
  exists g, strip nodes = Ok (filter g nodes) /\ forall n, In n nodes -> (g n = true <-> ~ quantizer n /\ ~ (feeds n last /\ spare nodes n)).
Proof.
  intros P L H. apply last_filter in L. destruct (fresh_outcome nodes _ last P L) as [(g & E & _ & Hg)|[_ N]]; [exists g; split; assumption|exfalso; apply N]. intros c I F Sp. destruct (H c I F Sp) as [H1 H2]. split; [exact H1|apply used_before_iff; exact H2].
Qed.
Theorem C122_fails nodes before last c : proper nodes -> last_quantizer nodes before last ->
  In c nodes -> feeds c last -> spare nodes c -> (inputs_from c last <> 1%nat \/ ~ used_before before c) ->
  strip nodes = Raise ValueError.
Proof.
  intros P L I F Sp H. apply last_filter in L. destruct (fresh_outcome nodes _ last P L) as [(g & _ & C & _)|[E _]]; [exfalso|exact E]. destruct (C c I F Sp) as [E1 E2]. apply used_before_iff in E2. destruct H as [H|H]; contradiction.
Qed.
(** Without fake-quantize nodes nothing happens. *)
Theorem C122_none nodes : proper nodes -> (forall n, In n nodes -> ~ quantizer n) -> strip nodes = Ok nodes.
Proof.
  intros P H. unfold strip, collect_symbolic_nodes. assert (E : filter is_symbolic nodes = []). { clear P. induction nodes as [|n l IH]; [reflexivity|]. cbn [filter]. destruct (is_symbolic n) eqn:S0; [exfalso; apply symbolic_iff in S0; exact (H n (or_introl eq_refl) S0)|]. apply IH. intros x I. apply H. right. exact I. } rewrite E. reflexivity.
Qed.

(** ** Examples *)
Definition cst (k : string) : onode := {| o_name := ("C" ++ k)%string; o_op := "Constant"; o_attr := 0; o_in := []; o_out := [k] |}.
Definition fq (k x s z : string) : onode := {| o_name := k; o_op := "LearnablePerTensorAffine"; o_attr := 0; o_in := [x; s; z; "lo"; "hi"]; o_out := [(k ++ "_out")%string] |}.
Definition opn (k x : string) : onode := {| o_name := k; o_op := "Relu"; o_attr := 0; o_in := [x]; o_out := [(k ++ "_out")%string] |}.
Ltac proper_ex := constructor; [repeat constructor; cbn; intuition discriminate|repeat constructor; cbn; intuition discriminate|intros n I Op; cbn in I; repeat (destruct I as [<-|I]; [cbn in *; first [discriminate Op|split; [reflexivity|eexists; reflexivity]]|]); destruct I].
(** One quantizer whose zero point comes from a Constant node: the export fails. *)
Definition ex_single : list onode := [cst "z"; fq "q" "x" "s" "z"; opn "r" "q_out"].
Theorem C122_refuted : ~ C122_claim.
Proof.
  intros H. destruct (H ex_single) as [l E]; [proper_ex|]. assert (F : strip ex_single = Raise ValueError) by (vm_compute; reflexivity). rewrite F in E. discriminate E.
Qed.
Example C122_single : strip ex_single = Raise ValueError.
Proof.
  apply (C122_fails ex_single [cst "z"] (fq "q" "x" "s" "z") (cst "z")); [proper_ex| |left; reflexivity|split; [reflexivity|exists "z"; cbn; tauto]| |right; intros (n & [<-|[]] & Q & _); unfold quantizer in Q; cbn in Q; intuition discriminate].
  { exists [opn "r" "q_out"]. split; [reflexivity|]. split; [unfold quantizer; cbn; tauto|]. intros n [<-|[]] Q. unfold quantizer in Q. cbn in Q. intuition discriminate. }
  intros n o I Q Ho Hi. destruct Ho as [<-|[]]. cbn in I. destruct I as [<-|[<-|[<-|[]]]]; cbn in Hi; [exact Hi| |destruct Hi as [E|[]]; discriminate E]. apply Q. unfold quantizer. cbn. tauto.
Qed.
(** Two quantizers with one zero point, the first with its own scale: that scale is left over. *)
Definition ex_shared : list onode := [cst "z"; cst "s1"; fq "q1" "x" "s1" "z"; opn "r" "q1_out"; fq "q2" "r_out" "s2" "z"; opn "t" "q2_out"].
Theorem C122_all_refuted : ~ C122_all_claim.
Proof.
  intros H. apply (H ex_shared [cst "s1"; opn "r" "q1_out"; opn "t" "q2_out"]) with (c := cst "s1") (n := fq "q1" "x" "s1" "z"); [proper_ex|vm_compute; reflexivity|cbn; tauto|cbn; tauto|unfold quantizer; cbn; tauto|split; [reflexivity|exists "s1"; cbn; tauto]|].
  intros n o I Q Ho Hi. destruct Ho as [<-|[]]. cbn in I. destruct I as [<-|[<-|[<-|[<-|[<-|[<-|[]]]]]]]; cbn in Hi; try (intuition discriminate); apply Q; unfold quantizer; cbn; tauto.
Qed.
Example C122_shared : strip ex_shared = Ok [cst "s1"; opn "r" "q1_out"; opn "t" "q2_out"] /\
  exists g, strip ex_shared = Ok (filter g ex_shared) /\ forall n, In n ex_shared -> (g n = true <-> ~ quantizer n /\ ~ (feeds n (fq "q2" "r_out" "s2" "z") /\ spare ex_shared n)).
Proof.
  split; [vm_compute; reflexivity|]. apply (C122_removed_partial ex_shared [cst "z"; cst "s1"; fq "q1" "x" "s1" "z"; opn "r" "q1_out"]); [proper_ex| |].
  { exists [opn "t" "q2_out"]. split; [reflexivity|]. split; [unfold quantizer; cbn; tauto|]. intros n [<-|[]] Q. unfold quantizer in Q. cbn in Q. intuition discriminate. }
  intros c I [Op (i & Hi & Ho)] _. cbn in I. destruct I as [<-|[<-|[<-|[<-|[<-|[<-|[]]]]]]]; try discriminate Op; cbn in Ho; destruct Ho as [<-|[]]; [|cbn in Hi; intuition discriminate].
  split; [reflexivity|]. exists (fq "q1" "x" "s1" "z"). split; [cbn; tauto|]. split; [unfold quantizer; cbn; tauto|]. split; [reflexivity|]. exists "z". cbn. tauto.
Qed.
Example C122_plain : strip [cst "z"; opn "r" "z"] = Ok [cst "z"; opn "r" "z"].
Proof. apply C122_none; [proper_ex|]. intros n I Q. cbn in I. unfold quantizer in Q. cbn in Q. destruct I as [<-|[<-|[]]]; cbn in Q; intuition discriminate. Qed.
Print Assumptions C122_removed_partial.
Print Assumptions C122_fails.
Print Assumptions C122_none.
Print Assumptions C122_refuted.
Print Assumptions C122_all_refuted.
