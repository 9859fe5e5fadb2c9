(** C123 - exporting a fake-quantized graph for OpenVINO. *)
From Coq Require Import String Permutation Ascii.
From Verif Require Import Prelude Onnx_Model Onnx_Lemmas Onnx_Props Onnx2_Props Onnx3_Props Export_Model Export_Props Export2_Props.
Local Open Scope string_scope.
Local Open Scope list_scope.
Local Open Scope Z_scope.

(** ** Specification *)
Section Ov.
Variable V : Type.
Variable exec : string -> nat -> list V -> list V.
Variable attr_range : onode -> option (outcome (V * V)).
Variable levels : V -> V -> nat.
Variable rank : V -> nat.
Variable bounds : V -> V -> V -> V -> list Z -> outcome (V * V).
Implicit Type m : omodel V.
(** A fake-quantize node of tensor [x] with constant parameters and one output. *)
Definition parameters (data : string -> option V) (n : onode) (x : string) (ws wz : V) (mid : list V) (wlo whi : V) : Prop :=
  exists s z lo hi rest o, o_in n = x :: s :: z :: rest ++ [lo; hi] /\ o_out n = [o] /\
    data s = Some ws /\ data z = Some wz /\ known V data rest = Some mid /\ data lo = Some wlo /\ data hi = Some whi.
(** The shape used for the range of per-channel parameters. *)
Definition range_shape m (data : list (string * V)) (n : onode) : list Z :=
  weight_shape V rank (m_node _ m) (map_input_and_node V m) (map_output_and_node V m) data n.
(** FakeQuantize over [ends n] does what the node [n] does. *)
Definition representable m data (ends : onode -> V * V) (n : onode) : Prop :=
  exists x ws wz mid wlo whi, parameters (get data) n x ws wz mid wlo whi /\
    bounds ws wz wlo whi (range_shape m data n) = Ok (ends n) /\
    forall v, exec "FakeQuantize" (levels wlo whi) [v; fst (ends n); snd (ends n); fst (ends n); snd (ends n)] = exec (o_op n) (o_attr n) (v :: ws :: wz :: mid ++ [wlo; whi]).
Definition tensor_of (n : onode) : string := hd "" (o_in n).
Definition new_names (x : string) : list string := [(x ++ "_input_min")%string; (x ++ "_input_max")%string; (x ++ "_output_min")%string; (x ++ "_output_max")%string].
(** Names made by the exporter are not in use. *)
Definition unused_names m : Prop := forall n k, In n (m_node _ m) -> quantizer n -> In k (new_names (tensor_of n)) ->
  ~ In k (m_in _ m ++ flat_map o_out (m_node _ m) ++ map fst (m_init _ m)).
(** The constants that are removed are those of [C122_removed_partial]. *)
Definition shared_constants (nodes : list onode) : Prop := forall before last, last_quantizer nodes before last ->
  forall c, In c nodes -> feeds c last -> spare nodes c -> inputs_from c last = 1%nat /\ used_before before c.
(** An output of the graph comes from a node that is fed by another node. *)
Definition fed m (o : string) : Prop := exists n, In n (m_node _ m) /\ In o (o_out n) /\
  (quantizer n /\ produced V m (tensor_of n) \/ ~ quantizer n /\ exists i, In i (o_in n) /\ produced V m i).

(** ** Proof *)
Lemma split_suffix a b s t : length (list_ascii_of_string s) = length (list_ascii_of_string t) -> (a ++ s)%string = (b ++ t)%string -> a = b /\ s = t.
Proof.
  intros L H. apply (f_equal list_ascii_of_string) in H. rewrite !chars_app in H.
  assert (G : forall (p q u v : list ascii), length u = length v -> p ++ u = q ++ v -> p = q /\ u = v).
  { clear. induction p as [|c p IH]; intros [|d q] u v L H; cbn [app] in H; [auto| | |].
    - apply (f_equal (@length ascii)) in H. rewrite L in H. cbn [length] in H. rewrite app_length in H. lia.
    - apply (f_equal (@length ascii)) in H. rewrite <- L in H. cbn [length] in H. rewrite app_length in H. lia.
    - injection H as <- H. destruct (IH q u v L H) as [<- <-]. auto. }
  destruct (G _ _ _ _ L H) as [A B]. split; apply chars_inj; assumption.
Qed.
Lemma in_new x k : In k (new_names x) <-> k = (x ++ "_input_min")%string \/ k = (x ++ "_input_max")%string \/ k = (x ++ "_output_min")%string \/ k = (x ++ "_output_max")%string.
Proof. cbn. intuition auto. Qed.
(** The end a new name stands for. *)
Lemma same_end x y j k : nth_error (new_names x) j = nth_error (new_names y) k -> (j < 4)%nat -> (k < 4)%nat -> x = y /\ j = k.
Proof.
  intros H Lj Lk. destruct j as [|[|[|[|j]]]]; [| | | |lia]; destruct k as [|[|[|[|k]]]]; try lia; cbn [nth_error new_names] in H; apply some_inj in H;
  try (split; [|reflexivity]; exact (proj1 (split_suffix x y _ _ eq_refl H)));
  exfalso; apply (f_equal list_ascii_of_string) in H; rewrite !chars_app in H; apply (f_equal (@rev ascii)) in H; rewrite !rev_app_distr in H; cbn in H; discriminate H.
Qed.

Section Replace.
Variable m : omodel V.
Variable feed : string -> V.
Variable const_value : onode -> option V.
Variable data : list (string * V).
Variable ends : onode -> V * V.
Variable e1 : env V.
Notation nodes := (m_node _ m).
Hypothesis Ops : operators V exec const_value (fun _ => false).
Hypothesis D : distinct V m.
Hypothesis U : unused_names m.
Hypothesis Pc : forall n, In n nodes -> o_op n = "Constant" -> o_in n = [] /\ exists o, o_out n = [o].
Hypothesis Px : forall n c, In n nodes -> quantizer n -> In c nodes -> o_op c = "Constant" -> ~ In (tensor_of n) (o_out c).
Hypothesis Dt : forall k v, get data k = Some v -> constant V const_value m k v.
Hypothesis Rp : forall n, In n nodes -> quantizer n -> representable m data ends n.
Hypothesis Ag : forall n n', In n nodes -> In n' nodes -> quantizer n -> quantizer n' -> tensor_of n = tensor_of n' -> ends n = ends n'.
Hypothesis Sc : shared_constants nodes.
Hypothesis Rn : run V exec (start V m feed) nodes = Some e1.
Lemma proper_nodes : proper nodes.
Proof. split; [exact (ds_names _ _ D)|exact (Nd V m D)|exact Pc]. Qed.
Lemma stripped : exists g, strip nodes = Ok (filter g nodes) /\ (forall n, In n nodes -> quantizer n -> g n = false) /\
  (forall n, In n nodes -> ~ quantizer n -> g n = false -> o_op n = "Constant" /\ spare nodes n).
Proof.
  destruct (last_exists nodes) as [H|(before & last & L)].
  - exists (fun _ => true). split; [|split; [intros n I Q; exfalso; exact (H n I Q)|discriminate]]. rewrite C122_none by (exact proper_nodes || exact H). f_equal. clear. induction nodes as [|x l IH]; [reflexivity|]. cbn [filter]. f_equal. exact IH.
  - destruct (C122_removed_partial nodes before last proper_nodes L (Sc before last L)) as (g & E & Hg). exists g. split; [exact E|]. split.
    + intros n I Q. destruct (g n) eqn:G; [|reflexivity]. exfalso. apply (Hg n I) in G. exact (proj1 G Q).
    + intros n I Q G. assert (X : ~ ~ (feeds n last /\ spare nodes n)). { intros N. assert (G' : g n = true) by (apply (Hg n I); auto). congruence. }
      destruct (spareb nodes n) eqn:Sp; [apply spareb_iff in Sp|exfalso; apply X; intros [_ Y]; apply spareb_iff in Y; congruence].
      split; [|exact Sp]. destruct (String.eqb_spec (o_op n) "Constant") as [Op|Op]; [exact Op|exfalso]. apply X. intros [[F _] _]. contradiction.
Qed.
Section Graph2.
Variable g : onode -> bool.
Hypothesis Hs : strip nodes = Ok (filter g nodes).
Hypothesis Hq : forall n, In n nodes -> quantizer n -> g n = false.
Hypothesis Hc : forall n, In n nodes -> ~ quantizer n -> g n = false -> o_op n = "Constant" /\ spare nodes n.
Let syms := filter is_symbolic nodes.
Lemma sym_in n : In n syms <-> In n nodes /\ quantizer n.
Proof. unfold syms. rewrite filter_In, symbolic_iff. reflexivity. Qed.
Lemma sym_dec n : quantizer n \/ ~ quantizer n.
Proof. destruct (is_symbolic n) eqn:S0; [left; apply symbolic_iff; exact S0|right; intros Q; apply symbolic_iff in Q; congruence]. Qed.
(** The node put in place of [n]. *)
Definition backend (wl : nat) (n : onode) : onode := {| o_name := o_name n; o_op := "FakeQuantize"; o_attr := wl; o_in := tensor_of n :: new_names (tensor_of n); o_out := o_out n |}.
Definition level_of (n : onode) : nat := match parse_qparams V attr_range data n with Ok (_, _, _, Some (lo, hi)) => levels lo hi | _ => 0%nat end.
Let bk (n : onode) : onode := backend (level_of n) n.
Definition inits (ns : list onode) : list (string * V) := flat_map (fun n => combine (new_names (tensor_of n)) [fst (ends n); snd (ends n); fst (ends n); snd (ends n)]) ns.
Lemma parsed n x ws wz mid wlo whi : parameters (get data) n x ws wz mid wlo whi -> parse_qparams V attr_range data n = Ok (x, ws, wz, Some (wlo, whi)).
Proof.
  intros (s & z & lo & hi & rest & o & Ei & Eo & Es & Ez & Em & El & Eh). unfold parse_qparams. rewrite Ei. unfold lookup. rewrite Es, Ez. cbn [bind]. destruct (rest ++ [lo; hi]) as [|y r] eqn:Er; [destruct rest; discriminate Er|]. rewrite <- Er. cbn [length].
  assert (N2 : nth (S (S (S (length (rest ++ [lo; hi])))) - 2) (x :: s :: z :: rest ++ [lo; hi]) "" = lo).
  { change (x :: s :: z :: rest ++ [lo; hi]) with ((x :: s :: z :: rest) ++ [lo; hi]). rewrite app_length. cbn [length]. rewrite app_nth2 by (cbn [length]; lia). cbn [length]. replace (S (S (S (length rest + 2))) - 2 - S (S (S (length rest))))%nat with 0%nat by lia. reflexivity. }
  assert (N1 : nth (S (S (S (length (rest ++ [lo; hi])))) - 1) (x :: s :: z :: rest ++ [lo; hi]) "" = hi).
  { change (x :: s :: z :: rest ++ [lo; hi]) with ((x :: s :: z :: rest) ++ [lo; hi]). rewrite app_length. cbn [length]. rewrite app_nth2 by (cbn [length]; lia). cbn [length]. replace (S (S (S (length rest + 2))) - 1 - S (S (S (length rest))))%nat with 1%nat by lia. reflexivity. }
  rewrite N2, N1, El, Eh. reflexivity.
Qed.
Lemma built ns : incl ns syms -> ov_build V attr_range levels bounds (range_shape m data) data ns = Ok (map bk ns, inits ns).
Proof.
  induction ns as [|n ns IH]; intros H; [reflexivity|]. cbn [ov_build map]. assert (I : In n syms) by (apply H; left; reflexivity). apply sym_in in I as [I Q]. destruct (Rp n I Q) as (x & ws & wz & mid & wlo & whi & P & B & _).
  pose proof (parsed _ _ _ _ _ _ _ P) as Ep. rewrite Ep. cbn [bind]. destruct P as (s & z & lo & hi & rest & o & Ei & Eo & _). unfold ov_backend. rewrite Eo. cbn [bind]. rewrite B. cbn [bind]. rewrite IH by (intros y Iy; apply H; right; exact Iy). cbn [bind fst snd].
  assert (Ex : tensor_of n = x) by (unfold tensor_of; rewrite Ei; reflexivity). assert (Lv : level_of n = levels wlo whi) by (unfold level_of; rewrite Ep; reflexivity). unfold bk at 2, backend. rewrite Lv, Ex, Eo. cbn [inits flat_map]. rewrite Ex. reflexivity.
Qed.
Lemma insert_keys : forall new inserted init, exists l, insert_initializers V inserted new init = init ++ l /\ NoDup (map fst l) /\ (forall k, In k (map fst l) -> ~ In k inserted) /\
  forall k, ~ In k inserted -> get l k = get new k.
Proof.
  induction new as [|[k v] r IH]; intros inserted init; cbn [insert_initializers fst].
  - exists []. rewrite app_nil_r. split; [reflexivity|]. split; [constructor|]. split; [intros k []|reflexivity].
  - destruct (mem k inserted) eqn:M.
    + destruct (IH inserted init) as (l & E & N & F & G). exists l. split; [exact E|]. split; [exact N|]. split; [exact F|]. intros k' Hk. rewrite G by exact Hk. cbn [get]. destruct (String.eqb_spec k k') as [->|]; [apply mem_in in M; contradiction|reflexivity].
    + destruct (IH (k :: inserted) (init ++ [(k, v)])) as (l & E & N & F & G). exists ((k, v) :: l). split; [rewrite E, <- app_assoc; reflexivity|]. apply mem_not in M. cbn [map fst]. split; [|split].
      * constructor; [|exact N]. intros J. apply (F k J). left. reflexivity.
      * intros k' [<-|J]; [exact M|]. intros J'. apply (F k' J). right. exact J'.
      * intros k' Hk. cbn [get]. destruct (String.eqb_spec k k') as [->|Ne]; [reflexivity|]. apply G. intros [J|J]; contradiction.
Qed.
Lemma inits_in ns k v : In (k, v) (inits ns) <-> exists n j, In n ns /\ (j < 4)%nat /\ nth_error (new_names (tensor_of n)) j = Some k /\ nth_error [fst (ends n); snd (ends n); fst (ends n); snd (ends n)] j = Some v.
Proof.
  unfold inits. rewrite in_flat_map. split.
  - intros (n & I & J). exists n. cbn in J. destruct J as [J|[J|[J|[J|[]]]]]; injection J as <- <-; [exists 0%nat|exists 1%nat|exists 2%nat|exists 3%nat]; (split; [exact I|]; split; [lia|]; split; reflexivity).
  - intros (n & j & I & L & Ek & Ev). exists n. split; [exact I|]. destruct j as [|[|[|[|j]]]]; [| | | |lia]; cbn in Ek, Ev; apply some_inj in Ek, Ev; subst; cbn; tauto.
Qed.
Lemma inits_get n j k v : In n syms -> (j < 4)%nat -> nth_error (new_names (tensor_of n)) j = Some k -> nth_error [fst (ends n); snd (ends n); fst (ends n); snd (ends n)] j = Some v -> get (inits syms) k = Some v.
Proof.
  intros I L Ek Ev. assert (J : In (k, v) (inits syms)) by (apply inits_in; exists n, j; auto).
  assert (Fn : forall v', In (k, v') (inits syms) -> v' = v).
  { intros v' J'. apply inits_in in J' as (n' & j' & I' & L' & Ek' & Ev'). rewrite <- Ek in Ek'. apply same_end in Ek' as [Et ->]; [|exact L'|exact L]. apply sym_in in I as [I Q], I' as [I' Q']. rewrite (Ag n' n I' I Q' Q Et) in Ev'. congruence. }
  revert J Fn. clear. generalize (inits syms). intros l. induction l as [|[a b] l IH]; intros J Fn; [destruct J|]. cbn [get]. destruct (String.eqb_spec a k) as [->|Ne]; [f_equal; apply Fn; left; reflexivity|]. apply IH; [destruct J as [J|J]; [injection J as -> _; contradiction|exact J]|]. intros v' J'. apply Fn. right. exact J'.
Qed.
Lemma inits_none k : get (inits syms) k = None <-> forall n, In n syms -> ~ In k (new_names (tensor_of n)).
Proof.
  rewrite get_none. split.
  - intros H n I J. apply H. apply In_nth_error in J as [j Ej]. assert (L : (j < 4)%nat) by (change 4%nat with (length (new_names (tensor_of n))); apply nth_error_Some; congruence).
    destruct (nth_error [fst (ends n); snd (ends n); fst (ends n); snd (ends n)] j) as [v|] eqn:Ev; [|apply nth_error_None in Ev; cbn in Ev; lia].
    apply in_map_iff. exists (k, v). split; [reflexivity|]. apply inits_in. exists n, j. auto.
  - intros H J. apply in_map_iff in J as ([k' v] & <- & J). apply inits_in in J as (n & j & I & _ & Ek & _). cbn [fst] in *. exact (H n I (nth_error_In _ _ Ek)).
Qed.
(** The new graph. *)
Lemma new_init : exists l, insert_initializers V [] (inits syms) (m_init _ m) = m_init _ m ++ l /\ NoDup (map fst l) /\ forall k, get l k = get (inits syms) k.
Proof. destruct (insert_keys (inits syms) [] (m_init _ m)) as (l & E & N & _ & G). exists l. split; [exact E|]. split; [exact N|]. intros k. apply G. intros []. Qed.
Variable l0 : list (string * V).
Hypothesis El0 : insert_initializers V [] (inits syms) (m_init _ m) = m_init _ m ++ l0.
Hypothesis Nl0 : NoDup (map fst l0).
Hypothesis Gl0 : forall k, get l0 k = get (inits syms) k.
Let m2 : omodel V := with_init V (with_nodes V m (filter g nodes ++ map bk syms)) (m_init _ m ++ l0).
Definition swap2 (n : onode) : list onode := if is_symbolic n then [bk n] else if g n then [n] else [].
Let l2 := flat_map swap2 nodes.
Lemma perm3 : Permutation l2 (m_node _ m2).
Proof.
  change (m_node _ m2) with (filter g nodes ++ map bk syms). unfold l2, syms. assert (G : forall l, incl l nodes -> Permutation (flat_map swap2 l) (filter g l ++ map bk (filter is_symbolic l))); [|apply G, incl_refl].
  induction l as [|n l IH]; intros H; [constructor|]. cbn [flat_map filter]. assert (IH' : Permutation (flat_map swap2 l) (filter g l ++ map bk (filter is_symbolic l))) by (apply IH; intros y Iy; apply H; right; exact Iy). unfold swap2 at 1. destruct (is_symbolic n) eqn:S0; cbn [app map].
  - rewrite (Hq n (H n (or_introl eq_refl)) (proj1 (symbolic_iff n) S0)). cbn [app]. rewrite IH'. apply Permutation_middle.
  - destruct (g n); cbn [app]; [constructor|]; exact IH'.
Qed.
Lemma in_l2 n' : In n' l2 <-> (exists n, In n syms /\ n' = bk n) \/ (In n' nodes /\ ~ quantizer n' /\ g n' = true).
Proof.
  unfold l2. rewrite in_flat_map. split.
  - intros (n & I & J). unfold swap2 in J. destruct (is_symbolic n) eqn:S0.
    + destruct J as [<-|[]]. left. exists n. split; [apply filter_In; auto|reflexivity].
    + destruct (g n) eqn:G; [|destruct J]. destruct J as [<-|[]]. right. split; [exact I|]. split; [|exact G]. intros Q. apply symbolic_iff in Q. congruence.
  - intros [(n & I & ->)|(I & Q & G)].
    + apply filter_In in I as [I S0]. exists n. split; [exact I|]. unfold swap2. rewrite S0. left. reflexivity.
    + exists n'. split; [exact I|]. unfold swap2. destruct (is_symbolic n') eqn:S0; [apply symbolic_iff in S0; contradiction|]. rewrite G. left. reflexivity.
Qed.
Lemma outs_l2 o : In o (flat_map o_out l2) -> In o (flat_map o_out nodes).
Proof.
  intros H. apply in_flat_map in H as (n' & I & J). apply in_l2 in I as [(n & I & ->)|(I & _)]; apply in_flat_map; [exists n; split; [apply sym_in in I; tauto|exact J]|exists n'; auto].
Qed.
Lemma new_unused n k : In n syms -> In k (new_names (tensor_of n)) -> ~ In k (m_in _ m) /\ ~ In k (flat_map o_out nodes) /\ ~ In k (map fst (m_init _ m)).
Proof. intros I J. apply sym_in in I as [I Q]. pose proof (U n k I Q J) as H. rewrite !in_app_iff in H. tauto. Qed.
Lemma new_unknown n k : In n syms -> In k (new_names (tensor_of n)) -> e1 k = None.
Proof.
  intros I J. destruct (new_unused n k I J) as (A & B & C). rewrite (proj1 (solved V exec m feed e1 D Rn)) by exact B. destruct (start V m feed k) eqn:S0; [|reflexivity]. exfalso. assert (S1 : start V m feed k <> None) by congruence. apply (start_some V exec) in S1 as [H|H]; contradiction.
Qed.
Definition env2 : env V := fun k => match get (inits syms) k with Some v => Some v | None => e1 k end.
Lemma env2_old k v : e1 k = Some v -> env2 k = Some v.
Proof.
  intros E. unfold env2. destruct (get (inits syms) k) as [w|] eqn:G; [|exact E]. exfalso. apply get_in in G. apply inits_in in G as (n & j & I & _ & Ek & _). rewrite (new_unknown n k I (nth_error_In _ _ Ek)) in E. discriminate E.
Qed.
Lemma env2_out o : In o (flat_map o_out nodes) -> env2 o = e1 o.
Proof.
  intros H. unfold env2. destruct (get (inits syms) o) as [w|] eqn:G; [|reflexivity]. exfalso. apply get_in in G. apply inits_in in G as (n & j & I & _ & Ek & _). exact (proj1 (proj2 (new_unused n o I (nth_error_In _ _ Ek))) H).
Qed.
Lemma inputs_known n vs : known V e1 (o_in n) = Some vs -> known V env2 (o_in n) = Some vs.
Proof. intros K. rewrite <- K. apply known_ext. intros i Hi. destruct (known_get _ _ _ _ K i Hi) as [v Ev]. rewrite Ev. apply env2_old. exact Ev. Qed.
Lemma solved2 n' : In n' l2 -> solves V exec env2 n'.
Proof.
  intros I. apply in_l2 in I as [(n & I & ->)|(I & _)].
  - pose proof I as Is. apply sym_in in I as [I Q]. destruct (proj2 (solved V exec m feed e1 D Rn) n I) as (vs & K & G). destruct (Rp n I Q) as (x & ws & wz & mid & wlo & whi & P & B & L). pose proof (parsed _ _ _ _ _ _ _ P) as Ep.
    destruct P as (s & z & lo & hi & rest & o & Ei & Eo & Es & Ez & Em & El & Eh). assert (Pc' : forall n, In n nodes -> o_op n = "Constant" -> o_in n = []) by (intros y Iy Op; exact (proj1 (Pc y Iy Op))).
    pose proof (constant_value V exec const_value _ m feed e1 Ops D Rn Pc') as CV. assert (Ks : e1 s = Some ws) by (apply CV, Dt, Es). assert (Kz : e1 z = Some wz) by (apply CV, Dt, Ez).
    rewrite Ei in K. cbn [known] in K. destruct (e1 x) as [wx|] eqn:Kx; [|discriminate K]. rewrite Ks, Kz in K. destruct (known V e1 (rest ++ [lo; hi])) as [wr|] eqn:Kr; [|discriminate K]. apply some_inj in K. subst vs.
    assert (Kw : wr = mid ++ [wlo; whi]).
    { assert (Ka : forall l l' w, known V (get data) l = Some w -> known V e1 (l ++ l') = match known V e1 l' with Some w' => Some (w ++ w') | None => None end).
      { induction l as [|i l IHl]; intros l' w Kl; [cbn in Kl; apply some_inj in Kl; subst w; cbn [app]; destruct (known V e1 l'); reflexivity|]. cbn [known app] in *. destruct (get data i) as [wi|] eqn:Gi; [|discriminate Kl]. rewrite (CV i wi (Dt i wi Gi)). destruct (known V (get data) l) as [wl|]; [|discriminate Kl]. apply some_inj in Kl. subst w. rewrite (IHl l' wl eq_refl). destruct (known V e1 l'); reflexivity. }
      rewrite (Ka rest [lo; hi] mid Em) in Kr. cbn [known] in Kr. rewrite (CV lo wlo (Dt _ _ El)), (CV hi whi (Dt _ _ Eh)) in Kr. apply some_inj in Kr. symmetry. exact Kr. }
    subst wr. assert (Ex : tensor_of n = x) by (unfold tensor_of; rewrite Ei; reflexivity).
    assert (Nm : forall j k v, (j < 4)%nat -> nth_error (new_names x) j = Some k -> nth_error [fst (ends n); snd (ends n); fst (ends n); snd (ends n)] j = Some v -> env2 k = Some v).
    { intros j k v Lj Ek Ev. unfold env2. rewrite <- Ex in Ek. rewrite (inits_get n j k v Is Lj Ek Ev). reflexivity. }
    exists [wx; fst (ends n); snd (ends n); fst (ends n); snd (ends n)]. unfold bk, backend. cbn [o_in o_out o_op o_attr]. rewrite Ex. split.
    + unfold new_names. cbn [known]. rewrite (env2_old x wx Kx), (Nm 0%nat _ _ ltac:(lia) eq_refl eq_refl), (Nm 1%nat _ _ ltac:(lia) eq_refl eq_refl), (Nm 2%nat _ _ ltac:(lia) eq_refl eq_refl), (Nm 3%nat _ _ ltac:(lia) eq_refl eq_refl). reflexivity.
    + intros k Hk. assert (Lv : level_of n = levels wlo whi) by (unfold level_of; rewrite Ep; reflexivity). rewrite Lv, L, <- (G k Hk). apply env2_out. apply in_flat_map. eauto.
  - destruct (proj2 (solved V exec m feed e1 D Rn) n' I) as (vs & K & G). exists vs. split; [apply inputs_known; exact K|]. intros o Ho. rewrite <- (G o Ho). apply env2_out. apply in_flat_map. eauto.
Qed.
(** Removed constants. *)
Definition dropped (k : string) : Prop := exists c, In c nodes /\ ~ quantizer c /\ g c = false /\ In k (o_out c).
Lemma dropped_unused k n' : dropped k -> In n' l2 -> ~ In k (o_in n').
Proof.
  intros (c & Ic & Qc & Gc & Jc) I J. destruct (Hc c Ic Qc Gc) as [Op Sp]. apply in_l2 in I as [(n & I & ->)|(I & Q & _)].
  - cbn [bk backend o_in] in J. destruct J as [J|J].
    + apply sym_in in I as [I Q]. apply (Px n c I Q Ic Op). rewrite J. exact Jc.
    + apply (proj1 (proj2 (new_unused n k I J))). apply in_flat_map. eauto.
  - exact (Sp n' k I Q Jc J).
Qed.
Lemma kept_out k : In k (flat_map o_out nodes) -> ~ dropped k -> In k (flat_map o_out l2).
Proof.
  intros H N. apply in_flat_map in H as (n & I & J). apply in_flat_map. destruct (sym_dec n) as [Q|Q].
  - exists (bk n). split; [apply in_l2; left; exists n; split; [apply sym_in; auto|reflexivity]|exact J].
  - exists n. split; [|exact J]. apply in_l2. right. split; [exact I|]. split; [exact Q|]. destruct (g n) eqn:G; [reflexivity|]. exfalso. apply N. exists n. auto.
Qed.
Lemma out_start k : In k (flat_map o_out nodes) -> start V m2 feed k = None.
Proof.
  intros H. pose proof (fresh V exec m feed D k H) as F. destruct (start V m2 feed k) eqn:S0; [|reflexivity]. exfalso. assert (S1 : start V m2 feed k <> None) by congruence. apply (start_some V exec) in S1 as [J|J].
  - change (m_init _ m2) with (m_init _ m ++ l0) in J. rewrite map_app, in_app_iff in J. destruct J as [J|J]; [exact (ds_fresh _ _ D k H J)|]. assert (G : get l0 k <> None) by (intros G; apply get_none in G; exact (G J)). rewrite Gl0 in G. apply G. apply inits_none. intros n I K. exact (proj1 (proj2 (new_unused n k I K)) H).
  - exact (proj2 (proj2 (nodup_app _ _ (ds_single _ _ D))) k J H).
Qed.
Lemma get_app {A} (a b : list (string * A)) k : get (a ++ b) k = match get a k with Some v => Some v | None => get b k end.
Proof. induction a as [|[x v] a IH]; [reflexivity|]. cbn [app get]. destruct (String.eqb x k); [reflexivity|exact IH]. Qed.
Lemma start2 k : ~ dropped k -> ~ In k (flat_map o_out l2) -> start V m2 feed k = env2 k.
Proof.
  intros Nd2 No. assert (Nk : ~ In k (flat_map o_out nodes)) by (intros J; apply No, kept_out; assumption). unfold env2, start. change (m_init _ m2) with (m_init _ m ++ l0). change (m_in _ m2) with (m_in _ m). rewrite get_app, Gl0. rewrite (proj1 (solved V exec m feed e1 D Rn)) by exact Nk. unfold start.
  destruct (get (inits syms) k) as [v|] eqn:G; [|destruct (get (m_init _ m) k); reflexivity].
  apply get_in in G. apply inits_in in G as (n & j & I & _ & Ek & _). destruct (new_unused n k I (nth_error_In _ _ Ek)) as (_ & _ & C). apply get_none in C. rewrite C. reflexivity.
Qed.
Lemma forward2 : forward l2.
Proof.
  assert (F : forward nodes).
  { apply forward_split. intros a n b E i Hi J. assert (Ep : nth_error nodes (length a) = Some n) by (rewrite E, nth_error_app2, Nat.sub_diag by lia; reflexivity).
    apply in_flat_map in J as (y & Iy & Jy). apply In_nth_error in Iy as [q Eq]. assert (Ey : nth_error nodes (length a + q) = Some y) by (rewrite E, nth_error_app2 by lia; replace (length a + q - length a)%nat with q by lia; exact Eq).
    pose proof (avail_out V exec m feed D _ y i _ Ey Jy (avail_in V exec m feed e1 Rn _ n i Ep Hi)). lia. }
  unfold l2. assert (Ol : forall l o, In o (flat_map o_out (flat_map swap2 l)) -> In o (flat_map o_out l)).
  { intros l o H. apply in_flat_map in H as (n' & I & J). apply in_flat_map in I as (n & I & K). apply in_flat_map. exists n. split; [exact I|]. unfold swap2 in K. destruct (is_symbolic n); [destruct K as [<-|[]]; exact J|]. destruct (g n); [destruct K as [<-|[]]; exact J|destruct K]. }
  assert (G : forall l, incl l nodes -> forward l -> forward (flat_map swap2 l)); [|apply G; [apply incl_refl|exact F]].
  induction l as [|n l IH]; intros Hl Hf; [exact I|]. cbn [forward] in Hf. destruct Hf as [H1 H2]. assert (Hl' : incl l nodes) by (intros y Iy; apply Hl; right; exact Iy). specialize (IH Hl' H2). cbn [flat_map]. unfold swap2 at 1.
  destruct (is_symbolic n) eqn:S0; [|destruct (g n)]; cbn [app]; [| |exact IH]; cbn [forward]; (split; [|exact IH]); intros i Hi J; cbn [flat_map] in J.
  - assert (Is : In n syms) by (apply filter_In; split; [apply Hl; left; reflexivity|exact S0]). assert (J' : In i (flat_map o_out (n :: l))) by (cbn [flat_map]; apply in_app_or in J as [J|J]; apply in_or_app; [left; exact J|right; apply Ol; exact J]).
    cbn [bk backend o_in] in Hi. destruct Hi as [<-|Hi].
    + apply sym_in in Is as [Is Q]. destruct (Rp n Is Q) as (x & ws & wz & mid & wlo & whi & (s & z & lo & hi & rest & o & Ei & _) & _). apply (H1 (tensor_of n)); [unfold tensor_of; rewrite Ei; left; reflexivity|exact J'].
    + apply (proj1 (proj2 (new_unused n i Is Hi))). apply in_flat_map in J' as (y & Iy & Jy). apply in_flat_map. exists y. split; [apply Hl; exact Iy|exact Jy].
  - apply (H1 i Hi). cbn [flat_map]. apply in_app_or in J as [J|J]; apply in_or_app; [left; exact J|right; apply Ol; exact J].
Qed.
Lemma nodup_drop {A} (a b c : list A) : NoDup (a ++ b ++ c) -> NoDup (a ++ c).
Proof. intros N. induction b as [|x b IH]; [exact N|]. apply IH. cbn [app] in N. apply NoDup_remove_1 in N. exact N. Qed.
Lemma sub_nodup {A} (f : onode -> list A) : (forall n, f (bk n) = f n) -> forall l p, NoDup (p ++ flat_map f l) -> NoDup (p ++ flat_map f (flat_map swap2 l)).
Proof.
  intros Hf. induction l as [|n l IH]; intros p N; [exact N|]. cbn [flat_map] in N |- *. rewrite flat_map_app. unfold swap2 at 1. destruct (is_symbolic n); [|destruct (g n)]; cbn [flat_map app]; rewrite ?app_nil_r, ?Hf.
  - rewrite app_assoc in N |- *. apply IH. exact N.
  - rewrite app_assoc in N |- *. apply IH. exact N.
  - apply IH. eapply nodup_drop. exact N.
Qed.
Lemma distinct3 : distinct V m2.
Proof.
  assert (Fm : forall l : list onode, flat_map (fun n => [o_name n]) l = map o_name l) by (intros l; induction l as [|x l IH]; [reflexivity|cbn; rewrite IH; reflexivity]).
  split.
  - apply (Permutation_NoDup (Permutation_map o_name perm3)). rewrite <- Fm. apply (sub_nodup (fun n => [o_name n]) (fun n => eq_refl) nodes []). cbn [app]. rewrite Fm. exact (ds_names _ _ D).
  - intros i Hi J. apply (ds_apart _ _ D i Hi). apply (Permutation_in _ (Permutation_sym (Permutation_map o_name perm3))) in J. apply in_map_iff in J as (n' & <- & J). apply in_l2 in J as [(n & J & ->)|(J & _)]; [apply sym_in in J as [J _]; exact (in_map o_name _ _ J)|apply in_map; exact J].
  - apply (Permutation_NoDup (Permutation_app_head (m_in _ m) (Permutation_flat_map o_out perm3))). apply sub_nodup; [reflexivity|]. exact (ds_single _ _ D).
  - change (m_init _ m2) with (m_init _ m ++ l0). rewrite map_app. assert (Dj : forall k, In k (map fst l0) -> ~ In k (map fst (m_init _ m))).
    { intros k H. assert (G : get l0 k <> None) by (intros G; apply get_none in G; exact (G H)). rewrite Gl0 in G. destruct (get (inits syms) k) as [v|] eqn:E; [|contradiction]. apply get_in in E. apply inits_in in E as (n & j & I & _ & Ek & _). exact (proj2 (proj2 (new_unused n k I (nth_error_In _ _ Ek)))). }
    pose proof (ds_init _ _ D) as N. revert N Dj Nl0. clear. induction (map fst (m_init V m)) as [|x l IH]; intros N Dj N0; [exact N0|]. cbn [app]. apply NoDup_cons_iff in N as [N1 N2]. constructor; [|apply IH; [exact N2| |exact N0]].
    + intros J. apply in_app_or in J as [J|J]; [contradiction|]. apply (Dj x J). left. reflexivity.
    + intros k H J. apply (Dj k H). right. exact J.
  - intros o Ho J. apply (Permutation_in _ (Permutation_sym (Permutation_flat_map o_out perm3))) in Ho. apply outs_l2 in Ho. pose proof (out_start o Ho) as S0. assert (S1 : start V m2 feed o <> None); [|contradiction]. apply (start_some V exec). left. exact J.
Qed.
Lemma run2 vs : (forall o, In o (m_out _ m) -> fed m o) -> known V e1 (m_out _ m) = Some vs -> computes V exec m2 feed vs.
Proof.
  intros A K. exists l2. split; [exact perm3|]. destruct (replay V exec dropped env2 l2 (start V m2 feed)) as (e' & Rn' & Eq).
  - intros k H n I. exact (dropped_unused k n H I).
  - pose proof (sub_nodup o_out (fun n => eq_refl) nodes []) as H. cbn [app] in H. apply H. exact (Nd V m D).
  - exact solved2.
  - intros o Ho. apply out_start, outs_l2, Ho.
  - exact start2.
  - apply forward_split. exact forward2.
  - unfold evaluate. change (start V (with_nodes V m2 l2) feed) with (start V m2 feed). cbn [with_nodes m_node]. rewrite Rn'. change (m_out V {| m_node := l2; m_init := m_init V m2; m_in := m_in V m2; m_out := m_out V m2 |}) with (m_out V m). rewrite <- K. apply known_ext. intros o Ho. destruct (A o Ho) as (n0 & I0 & J0 & H0). rewrite Eq.
    + apply env2_out, in_flat_map. eauto.
    + intros (c & Ic & Qc & Gc & Jc). assert (c = n0) by (exact (out_unique nodes c n0 o (Nd V m D) Ic I0 Jc J0)). subst c. destruct H0 as [[Q _]|[_ (i & Hi & _)]]; [contradiction|]. destruct (Hc n0 Ic Qc Gc) as [Op _]. rewrite (proj1 (Pc n0 Ic Op)) in Hi. destruct Hi.
Qed.
Lemma produced2 k : In k (flat_map o_out nodes) -> ~ dropped k -> produced V m2 k.
Proof. intros H N. apply (Permutation_in _ (Permutation_flat_map o_out perm3)). apply kept_out; assumption. Qed.
Lemma attached2 : (forall o, In o (m_out _ m) -> fed m o) -> forall o, In o (m_out _ m2) ->
  (forall n, In n (m_node _ m2) -> In o (o_out n) -> ~ isolated V m2 n) /\ (In o (map fst (m_init _ m2)) -> consumed V m2 o).
Proof.
  intros A o Ho. destruct (A o Ho) as (n0 & I0 & J0 & H0). assert (Out : In o (flat_map o_out nodes)) by (apply in_flat_map; eauto). split.
  - intros n I J [Is _]. apply (Permutation_in _ (Permutation_sym perm3)) in I. apply in_l2 in I as [(n1 & I1 & ->)|(I & Q & G)].
    + apply sym_in in I1 as [I1 Q1]. cbn [bk backend o_in o_out] in *. assert (n1 = n0) by (exact (out_unique nodes n1 n0 o (Nd V m D) I1 I0 J J0)). subst n1. destruct H0 as [[_ P]|[Q _]]; [|contradiction].
      apply (Is (tensor_of n0) (or_introl eq_refl)). apply produced2; [exact P|]. intros (c & Ic & Qc & Gc & Jc). destruct (Hc c Ic Qc Gc) as [Op _]. exact (Px n0 c I0 Q1 Ic Op Jc).
    + assert (n = n0) by (exact (out_unique nodes n n0 o (Nd V m D) I I0 J J0)). subst n. destruct H0 as [[Q' _]|[_ (i & Hi & P)]]; [contradiction|]. apply (Is i Hi). apply produced2; [exact P|]. intros (c & Ic & Qc & Gc & Jc). destruct (Hc c Ic Qc Gc) as [_ Sp]. exact (Sp n0 i I0 Q Jc Hi).
  - intros J. exfalso. pose proof (out_start o Out) as S0. assert (S1 : start V m2 feed o <> None); [|contradiction]. apply (start_some V exec). left. exact J.
Qed.
Lemma exported : ov_export V attr_range levels rank bounds m data = optimize V m2.
Proof.
  unfold ov_export. change (collect_symbolic_nodes nodes) with syms. change (weight_shape V rank nodes (map_input_and_node V m) (map_output_and_node V m) data) with (range_shape m data). rewrite built by apply incl_refl. cbn [bind fst snd].
  assert (Es : remove_symbolic_related syms (collect_symbolic_constant_inputs (map_output_and_node V m) syms) nodes = Ok (filter g nodes)) by exact Hs. rewrite Es. cbn [bind]. rewrite El0. reflexivity.
Qed.
End Graph2.
End Replace.

(** ** Theorems *)
(** For graphs whose fake-quantize nodes have constant parameters that FakeQuantize represents,
    tensors quantized more than once being quantized alike, the exported graph computes the same
    outputs; it has no fake-quantize nodes, and no constants that are not used. *)
Theorem C123_same_partial const_value m data ends feed vs :
  operators V exec const_value (fun _ => false) -> distinct V m -> unused_names m ->
  (forall n, In n (m_node _ m) -> o_op n = "Constant" -> o_in n = [] /\ exists o, o_out n = [o]) ->
  (forall n c, In n (m_node _ m) -> quantizer n -> In c (m_node _ m) -> o_op c = "Constant" -> ~ In (tensor_of n) (o_out c)) ->
  (forall k v, get data k = Some v -> constant V const_value m k v) ->
  (forall n, In n (m_node _ m) -> quantizer n -> representable m data ends n) ->
  (forall n n', In n (m_node _ m) -> In n' (m_node _ m) -> quantizer n -> quantizer n' -> tensor_of n = tensor_of n' -> ends n = ends n') ->
  shared_constants (m_node _ m) -> (forall o, In o (m_out _ m) -> fed m o) ->
  evaluate V exec m feed = Some vs ->
  exists m', ov_export V attr_range levels rank bounds m data = Ok m' /\ evaluate V exec m' feed = Some vs /\
    (forall n, In n (m_node _ m') -> ~ quantizer n) /\
    (forall c, In c (m_node _ m') -> o_op c = "Constant" -> exists o, In o (o_out c) /\ consumed V m' o).
Proof.
  intros Ops D U Pc Px Dt Rp Ag Sc A E. unfold evaluate in E. destruct (run _ _ _ _) as [e1|] eqn:Rn; [|discriminate E].
  destruct (stripped m D Pc Sc) as (g & Hs & Hq & Hc). destruct (new_init m ends) as (l0 & El0 & Nl0 & Gl0).
  pose proof (exported m const_value data ends Pc Px Dt Rp Ag g Hs Hq Hc l0 El0) as Eo. pose proof (distinct3 m feed const_value data ends D U Pc Px Dt Rp Ag g Hq Hc l0 Nl0 Gl0) as D2.
  pose proof (run2 m feed const_value data ends e1 Ops D U Pc Px Dt Rp Ag Rn g Hq Hc l0 Gl0 vs A E) as C2. pose proof (attached2 m feed const_value data ends D U Pc Px Dt Rp Ag g Hq Hc l0 Gl0 A) as A2.
  destruct (C119_same_partial V exec _ feed vs D2 C2 A2) as (m' & Om & Ev). exists m'. rewrite Eo. split; [exact Om|]. split; [exact Ev|].
  destruct (C119_kept_partial V exec _ feed vs m' D2 C2 Om) as (K & _). split.
  - intros n I Q. apply K in I as [I _]. cbn [with_init with_nodes m_node] in I. apply in_app_or in I as [I|I].
    + apply filter_In in I as [I G]. rewrite (Hq n I Q) in G. discriminate G.
    + apply in_map_iff in I as (x & <- & _). unfold quantizer in Q. cbn [backend o_op In] in Q. intuition discriminate.
  - intros c I Op. apply K in I as [I Ni]. assert (Ic : In c (m_node _ m)).
    { cbn [with_init with_nodes m_node] in I. apply in_app_or in I as [I|I]; [apply filter_In in I as [I _]; exact I|]. apply in_map_iff in I as (x & <- & _). discriminate Op. }
    destruct (Pc c Ic Op) as [Ei (o & Eo')]. exists o. rewrite Eo'. split; [left; reflexivity|].
    set (m2 := with_init V _ _) in *. assert (Cn : consumed V m2 o).
    { destruct (existsb (fun n => mem o (o_in n)) (m_node _ m2)) eqn:X; [apply existsb_exists in X as (n & In_n & Mn); exists n; split; [exact In_n|apply mem_in; exact Mn]|].
      exfalso. apply Ni. split; [rewrite Ei; intros i []|]. rewrite Eo'. intros k [<-|[]] (n & In_n & Jn). assert (X' : existsb (fun n => mem o (o_in n)) (m_node _ m2) = true); [|congruence]. apply existsb_exists. exists n. split; [exact In_n|apply mem_in; exact Jn]. }
    destruct Cn as (n & In_n & Jn). exists n. split; [|exact Jn]. apply K. split; [exact In_n|]. intros [Is _]. apply (Is o Jn). apply in_flat_map. exists c. rewrite Eo'. split; [exact I|left; reflexivity].
Qed.
End Ov.

(** ** Matrices of integers and the OpenVINO operator: the ends of the range are one number, a row
    (one for each column) or a column (one for each row). *)
Definition end_at (p : tensor) (i j : nat) : Z := match p with [[a]] => a | [row] => nth j row 0 | _ => nth 0 (nth i p []) 0 end.
Definition fq_value (levels l h v : Z) : Z := if v <=? l then l else if h <? v then h else l + nearest (v - l) ((h - l) / (levels - 1)) * ((h - l) / (levels - 1)).
Definition ov_exec (op : string) (a : nat) (vs : list tensor) : list tensor :=
  match vs with
  | [x; l; h; _; _] => if String.eqb op "FakeQuantize" then [entries2 (fun i j v => fq_value (Z.of_nat a) (end_at l i j) (end_at h i j) v) x] else onnx_exec op a vs
  | _ => onnx_exec op a vs
  end.
Definition ov_levels (lo hi : tensor) : nat := Z.to_nat (scalar 0 hi - scalar 0 lo + 1).
(** [(q - z) * s] for the two ends, in the given shape if there are several channels. *)
Definition ov_bounds (s z lo hi : tensor) (shape : list Z) : outcome (tensor * tensor) :=
  match s, z with
  | [ss], [zz] =>
      let side q := let row := map (fun sz => (q - snd sz) * fst sz) (combine ss zz) in
                    match row, shape with [a], _ => [[a]] | _, [_] => [row] | _, _ => map (fun a => [a]) row end in
      Ok (side (scalar 0 lo), side (scalar 0 hi))
  | _, _ => Raise ValueError
  end.
Lemma entries_ext f f' x : (forall i j v, f i j v = f' i j v) -> entries2 f x = entries2 f' x.
Proof. intros H. unfold entries2. apply map_ext. intros [i r]. apply map_ext. intros [j v]. apply H. Qed.
Lemma fq_same s z lo hi v : 0 < s -> lo < hi -> fq_value (hi - lo + 1) ((lo - z) * s) ((hi - z) * s) v = (clamp lo hi (nearest v s + z) - z) * s.
Proof.
  intros Hs Hr. unfold fq_value. replace ((hi - z) * s - (lo - z) * s) with (s * (hi - lo)) by ring. replace (hi - lo + 1 - 1) with (hi - lo) by ring. rewrite Z.div_mul by lia.
  assert (Nb : forall k w, w <= k * s -> nearest w s <= k) by (intros k w H; unfold nearest; assert (L : (2 * w + s) / (2 * s) < k + 1) by (apply Z.div_lt_upper_bound; [lia|nia]); lia).
  assert (Na : forall k w, k * s <= w -> k <= nearest w s) by (intros k w H; unfold nearest; apply Z.div_le_lower_bound; [lia|nia]).
  unfold clamp. destruct (Z.leb_spec v ((lo - z) * s)) as [A|A].
  - pose proof (Nb (lo - z) v A). replace (Z.max lo (Z.min hi (nearest v s + z))) with lo by lia. ring.
  - destruct (Z.ltb_spec ((hi - z) * s) v) as [B|B].
    + pose proof (Na (hi - z) v ltac:(lia)). replace (Z.max lo (Z.min hi (nearest v s + z))) with hi by lia. ring.
    + pose proof (Na (lo - z) v ltac:(lia)). pose proof (Nb (hi - z) v B). replace (Z.max lo (Z.min hi (nearest v s + z))) with (nearest v s + z) by lia.
      assert (E : nearest (v - (lo - z) * s) s = nearest v s - (lo - z)).
      { unfold nearest. replace (2 * (v - (lo - z) * s) + s) with (2 * v + s + (- (lo - z)) * (2 * s)) by ring. rewrite Z.div_add by lia. lia. }
      rewrite E. ring.
Qed.
(** For a per-tensor node the range computed by the exporter gives the same operator. *)
Theorem C123_ranges s z lo hi shape n : 0 < s -> lo < hi -> o_op n = "FixedPerTensorAffine" ->
  exists l h, ov_bounds [[s]] [[z]] [[lo]] [[hi]] shape = Ok (l, h) /\
    forall v, ov_exec "FakeQuantize" (ov_levels [[lo]] [[hi]]) [v; l; h; l; h] = ov_exec (o_op n) (o_attr n) [v; [[s]]; [[z]]; [[lo]]; [[hi]]].
Proof.
  intros Hs Hr Op. exists [[(lo - z) * s]], [[(hi - z) * s]]. split; [destruct shape as [|? [|]]; reflexivity|]. intros v. rewrite Op. cbn. f_equal.
  unfold dq_op, q_op. unfold ov_levels. cbn [scalar]. rewrite Z2Nat.id by lia.
  assert (E : forall f f' (x : tensor), entries2 f (entries2 f' x) = entries2 (fun i j w => f i j (f' i j w)) x).
  { intros f f' x. unfold entries2.
    assert (En : forall A B (h : nat * A -> B) (l : list A) k, enum k (map h (enum k l)) = map (fun p => (fst p, h p)) (enum k l)). { intros A B h l. induction l as [|y l IH]; intros k; [reflexivity|]. cbn [enum map fst]. rewrite IH. reflexivity. }
    rewrite En, map_map. apply map_ext. intros [i r]. cbn [fst snd]. rewrite En, map_map. apply map_ext. intros [j w]. reflexivity. }
  rewrite E. apply entries_ext. intros i j w. cbn [end_at channel]. apply fq_same; assumption.
Qed.

(** The full claim over these matrices. *)
Definition ov_accepted (m : omodel tensor) (data : list (string * tensor)) : Prop :=
  distinct tensor m /\ unused_names tensor m /\
  (forall n, In n (m_node _ m) -> o_op n = "Constant" -> o_in n = [] /\ exists o, o_out n = [o]) /\
  (forall n c, In n (m_node _ m) -> quantizer n -> In c (m_node _ m) -> o_op c = "Constant" -> ~ In (tensor_of n) (o_out c)) /\
  (forall k v, get data k = Some v -> constant tensor (fun _ => None) m k v) /\
  (forall n, In n (m_node _ m) -> quantizer n -> exists x ws wz mid wlo whi, parameters tensor (get data) n x ws wz mid wlo whi) /\
  shared_constants (m_node _ m) /\ (forall o, In o (m_out _ m) -> fed tensor m o).
Definition C123_claim (P : list onode -> Prop) : Prop := forall m data feed vs, ov_accepted m data -> P (m_node _ m) ->
  evaluate tensor ov_exec m feed = Some vs ->
  exists m', ov_export tensor (fun _ => None) ov_levels (fun _ => 2%nat) ov_bounds m data = Ok m' /\ evaluate tensor ov_exec m' feed = Some vs.
Lemma plain_shared nodes : (forall c, In c nodes -> o_op c <> "Constant") -> shared_constants nodes.
Proof. intros H before last _ c I [Op _]. exfalso. exact (H c I Op). Qed.
Definition ov_graph (nodes : list onode) : omodel tensor := {| m_node := nodes;
  m_init := [("w", [[1; 1]; [1; 1]]); ("s", [[1; 4]]); ("one", [[1]]); ("ten", [[10]]); ("z", [[0; 0]]); ("zero", [[0]]); ("axis", [[0]]); ("lo", [[-128]]); ("hi", [[127]])]; m_in := ["x"]; m_out := ["y"] |}.
Ltac nodup_list := lazymatch goal with |- NoDup [] => apply NoDup_nil | _ => apply NoDup_cons; [cbn; intuition discriminate|nodup_list] end.
Ltac ov_distinct := constructor; [cbn; nodup_list|cbn; intuition (subst; discriminate)|cbn; nodup_list|cbn; nodup_list|let o := fresh in let A := fresh in let B := fresh in intros o A B; cbn in A, B; intuition (subst; discriminate)].
(** Weights that are transposed before the product, as those of a linear layer: the shape of the
    weights is not found, so the ranges of the rows are applied to the columns. *)
Definition ex_linear : omodel tensor := ov_graph [nd "fq" "FixedPerChannelAffine" ["w"; "s"; "z"; "axis"; "lo"; "hi"] ["wq"]; nd "t" "Transpose" ["wq"] ["wt"]; nd "mm" "MatMul" ["x"; "wt"] ["y"]].
Theorem C123_axis_refuted : ~ C123_claim (fun nodes => forall n n', In n nodes -> In n' nodes -> quantizer n -> quantizer n' -> tensor_of n = tensor_of n' -> n = n').
Proof.
  intros H. destruct (H ex_linear (m_init _ ex_linear) (fun _ => [[1; 1]]) [[[1; 1]; [1; 1]; [0; 0]]]) as (m' & E & G).
  - split; [ov_distinct|]. split; [|split; [|split; [|split; [|split; [|split]]]]].
    + intros n k I Q J. cbn in I. destruct I as [<-|[<-|[<-|[]]]]; [|unfold quantizer in Q; cbn in Q; intuition discriminate|unfold quantizer in Q; cbn in Q; intuition discriminate]. cbn in J |- *. intuition (subst; discriminate).
    + intros n I Op. cbn in I. destruct I as [<-|[<-|[<-|[]]]]; discriminate Op.
    + intros n c _ _ I Op. cbn in I. destruct I as [<-|[<-|[<-|[]]]]; discriminate Op.
    + intros k v Gk. apply const_init, get_in. exact Gk.
    + intros n I Q. cbn in I. destruct I as [<-|[<-|[<-|[]]]]; [|unfold quantizer in Q; cbn in Q; intuition discriminate|unfold quantizer in Q; cbn in Q; intuition discriminate]. exists "w", [[1; 4]], [[0; 0]], [[[0]]], [[-128]], [[127]], "s", "z", "lo", "hi", ["axis"], "wq". repeat split.
    + apply plain_shared. intros c I Op. cbn in I. destruct I as [<-|[<-|[<-|[]]]]; discriminate Op.
    + intros o [<-|[]]. exists (nd "mm" "MatMul" ["x"; "wt"] ["y"]). split; [cbn; tauto|]. split; [left; reflexivity|]. right. split; [unfold quantizer; cbn; intuition discriminate|]. exists "wt". cbn. tauto.
  - intros n n' I I' Q Q' _. cbn in I, I'. destruct I as [<-|[<-|[<-|[]]]], I' as [<-|[<-|[<-|[]]]]; try reflexivity; unfold quantizer in Q, Q'; cbn in Q, Q'; intuition discriminate.
  - vm_compute. reflexivity.
  - vm_compute in E. apply Ok_inj in E. subst m'. vm_compute in G. discriminate G.
Qed.
(** A tensor quantized with two different scales: both nodes get the range of the first. *)
Definition ex_two : omodel tensor := ov_graph [nd "r" "Relu" ["x"] ["u"]; nd "f1" "FixedPerTensorAffine" ["u"; "one"; "zero"; "lo"; "hi"] ["a"]; nd "f2" "FixedPerTensorAffine" ["u"; "ten"; "zero"; "lo"; "hi"] ["b"]; nd "cat" "Concat" ["a"; "b"] ["y"]].
Theorem C123_names_refuted : ~ C123_claim (fun nodes => forall n, In n nodes -> quantizer n -> o_op n = "FixedPerTensorAffine").
Proof.
  intros H. destruct (H ex_two (m_init _ ex_two) (fun _ => [[3; 1000]]) [[[3; 127]; [0; 1000]]]) as (m' & E & G).
  - split; [ov_distinct|]. split; [|split; [|split; [|split; [|split; [|split]]]]].
    + intros n k I Q J. cbn in I. destruct I as [<-|[<-|[<-|[<-|[]]]]]; try (unfold quantizer in Q; cbn in Q; intuition discriminate); cbn in J |- *; intuition (subst; discriminate).
    + intros n I Op. cbn in I. destruct I as [<-|[<-|[<-|[<-|[]]]]]; discriminate Op.
    + intros n c _ _ I Op. cbn in I. destruct I as [<-|[<-|[<-|[<-|[]]]]]; discriminate Op.
    + intros k v Gk. apply const_init, get_in. exact Gk.
    + intros n I Q. cbn in I. destruct I as [<-|[<-|[<-|[<-|[]]]]]; try (unfold quantizer in Q; cbn in Q; intuition discriminate); [exists "u", [[1]], [[0]], [], [[-128]], [[127]], "one", "zero", "lo", "hi", [], "a"|exists "u", [[10]], [[0]], [], [[-128]], [[127]], "ten", "zero", "lo", "hi", [], "b"]; repeat split.
    + apply plain_shared. intros c I Op. cbn in I. destruct I as [<-|[<-|[<-|[<-|[]]]]]; discriminate Op.
    + intros o [<-|[]]. exists (nd "cat" "Concat" ["a"; "b"] ["y"]). split; [cbn; tauto|]. split; [left; reflexivity|]. right. split; [unfold quantizer; cbn; intuition discriminate|]. exists "a". cbn. tauto.
  - intros n I Q. cbn in I. destruct I as [<-|[<-|[<-|[<-|[]]]]]; try reflexivity; unfold quantizer in Q; cbn in Q; intuition discriminate.
  - vm_compute. reflexivity.
  - vm_compute in E. apply Ok_inj in E. subst m'. vm_compute in G. discriminate G.
Qed.
(** A graph for which the theorem applies. *)
Definition ex_once : omodel tensor := ov_graph [nd "r" "Relu" ["x"] ["u"]; nd "f1" "FixedPerTensorAffine" ["u"; "ten"; "zero"; "lo"; "hi"] ["a"]; nd "r2" "Relu" ["a"] ["y"]].
Example C123_case : exists m', ov_export tensor (fun _ => None) ov_levels (fun _ => 2%nat) ov_bounds ex_once (m_init _ ex_once) = Ok m' /\
  evaluate tensor ov_exec m' (fun _ => [[3; 88; 9000]]) = Some [[[0; 90; 1270]]] /\ evaluate tensor ov_exec ex_once (fun _ => [[3; 88; 9000]]) = Some [[[0; 90; 1270]]] /\
  (forall n, In n (m_node _ m') -> ~ quantizer n) /\ map o_op (m_node _ m') = ["Relu"; "FakeQuantize"; "Relu"].
Proof.
  assert (X : forall n, In n (m_node _ ex_once) -> quantizer n -> n = nd "f1" "FixedPerTensorAffine" ["u"; "ten"; "zero"; "lo"; "hi"] ["a"]).
  { intros n I Q. cbn in I. destruct I as [<-|[<-|[<-|[]]]]; try reflexivity; unfold quantizer in Q; cbn in Q; intuition discriminate. }
  destruct (C123_same_partial tensor ov_exec (fun _ => None) ov_levels (fun _ => 2%nat) ov_bounds (fun _ => None) ex_once (m_init _ ex_once) (fun _ => ([[-1280]], [[1270]])) (fun _ => [[3; 88; 9000]]) [[[0; 90; 1270]]]) as (m' & E & Ev & Nq & _).
  - split; [intros n v Op Cv; discriminate Cv|intros a v; cbn; rewrite app_nil_r; reflexivity|intros a x p rest Z0; discriminate Z0].
  - ov_distinct.
  - intros n k I Q J. rewrite (X n I Q) in J. cbn in J |- *. intuition (subst; discriminate).
  - intros n I Op. cbn in I. destruct I as [<-|[<-|[<-|[]]]]; discriminate Op.
  - intros n c _ _ I Op. cbn in I. destruct I as [<-|[<-|[<-|[]]]]; discriminate Op.
  - intros k v Gk. apply const_init, get_in. exact Gk.
  - intros n I Q. rewrite (X n I Q). exists "u", [[10]], [[0]], [], [[-128]], [[127]]. split; [exists "ten", "zero", "lo", "hi", [], "a"; repeat split|].
    destruct (C123_ranges 10 0 (-128) 127 (range_shape tensor (fun _ => 2%nat) ex_once (m_init _ ex_once) (nd "f1" "FixedPerTensorAffine" ["u"; "ten"; "zero"; "lo"; "hi"] ["a"])) (nd "f1" "FixedPerTensorAffine" ["u"; "ten"; "zero"; "lo"; "hi"] ["a"])) as (l & h & E & L); [lia|lia|reflexivity|].
    assert (Elh : (l, h) = ([[-1280]], [[1270]])) by (vm_compute in E; apply Ok_inj in E; symmetry; exact E). rewrite Elh in E. split; [exact E|]. injection Elh as -> ->. exact L.
  - reflexivity.
  - apply plain_shared. intros c I Op. cbn in I. destruct I as [<-|[<-|[<-|[]]]]; discriminate Op.
  - intros o [<-|[]]. exists (nd "r2" "Relu" ["a"] ["y"]). split; [cbn; tauto|]. split; [left; reflexivity|]. right. split; [unfold quantizer; cbn; intuition discriminate|]. exists "a". cbn. tauto.
  - vm_compute. reflexivity.
  - exists m'. split; [exact E|]. split; [exact Ev|]. split; [vm_compute; reflexivity|]. split; [exact Nq|]. vm_compute in E. apply Ok_inj in E. subst m'. reflexivity.
Qed.
Print Assumptions C123_same_partial.
Print Assumptions C123_ranges.
Print Assumptions C123_axis_refuted.
Print Assumptions C123_names_refuted.
