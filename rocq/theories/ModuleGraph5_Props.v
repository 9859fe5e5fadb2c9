(** C159: the module graph built from traced paths has a node for every layer and concatenation
    of the paths and an edge wherever one directly follows another. *)
From Coq Require Import Relations Permutation Sorted Ascii String List.
From Verif Require Import Prelude Graph_Model Graph_Lemmas Graph_Props ModuleGraph_Model ModuleGraph_Lemmas ModuleGraph_Props ModuleGraph2_Props ModuleGraph3_Props.
From Verif Require Tracer_Model Tracer3_Props Engine_Model Engine_Props.
Local Open Scope list_scope.
Notation pnode := Tracer_Model.pnode.
Notation PConcat := Tracer_Model.PConcat.
Notation pname := Tracer_Model.pname.

(** * What the paths say *)
Definition is_cat (x : pnode) : bool := match x with PConcat _ _ => true | _ => false end.
(** [inside x z]: [z] is [x] or occurs in the branches of the concatenation [x]. *)
Inductive inside : pnode -> pnode -> Prop :=
| inside_refl x : inside x x
| inside_cat id pls pl p y z : In pl pls -> In p pl -> In y p -> inside y z -> inside (PConcat id pls) z.
(** [behind pl x y]: [y] comes directly behind [x] in a path of [pl], or starts a branch of the
    concatenation [x]. *)
Definition next_in (pl : list (list pnode)) (x y : pnode) : Prop := exists l1 l2, In (l1 ++ x :: y :: l2) pl.
Inductive within : pnode -> pnode -> pnode -> Prop :=
| within_head id pls pl y r : In pl pls -> In (y :: r) pl -> within (PConcat id pls) (PConcat id pls) y
| within_next id pls pl x y : In pl pls -> next_in pl x y -> within (PConcat id pls) x y
| within_deep id pls pl p w x y : In pl pls -> In p pl -> In w p -> within w x y -> within (PConcat id pls) x y.
Definition occurs (pl : list (list pnode)) (z : pnode) : Prop := exists p y, In p pl /\ In y p /\ inside y z.
Definition behind (pl : list (list pnode)) (x y : pnode) : Prop :=
  next_in pl x y \/ exists p w, In p pl /\ In w p /\ within w x y.

Section Parse.
Variable name2module : string -> option nat.

(** The node of the graph that stands for a node of a path; [number id] is the number of a
    concatenation. *)
Definition graph_key (number : string -> nat) (x : pnode) : key :=
  match x with
  | PConcat id _ => (numbered "cat_" (number id), v_cat)
  | _ => (pname x, match name2module (pname x) with Some v => v | None => 0%nat end)
  end.
(** Layers are known modules, whose names are not those given to concatenations. *)
Definition valid (x : pnode) : Prop :=
  is_cat x = false -> name2module (pname x) <> None /\ forall i, pname x <> numbered "cat_" i.

(** * Bookkeeping *)
Definition kd (d : list (string * string)) (x : pnode) : key :=
  match x with
  | PConcat id _ => (match cat_get d (unify_cat_name id) with Some n => n | None => EmptyString end, v_cat)
  | _ => (pname x, match name2module (pname x) with Some v => v | None => 0%nat end)
  end.
Definition known (d : list (string * string)) (x : pnode) : Prop :=
  match x with PConcat id _ => cat_get d (unify_cat_name id) <> None | _ => True end.
Definition ext (d d' : list (string * string)) : Prop := exists t, d' = d ++ t.
Lemma ext_refl d : ext d d. Proof. exists []. rewrite app_nil_r. reflexivity. Qed.
Lemma ext_trans a b c : ext a b -> ext b c -> ext a c.
Proof. intros [t ->] [u ->]. exists (t ++ u). rewrite app_assoc. reflexivity. Qed.
Lemma cat_get_app d t k n : cat_get d k = Some n -> cat_get (d ++ t) k = Some n.
Proof. induction d as [|[a b] d IH]; cbn; [discriminate|]. destruct (String.eqb a k); auto. Qed.
Lemma kd_ext d d' x : ext d d' -> known d x -> kd d' x = kd d x.
Proof.
  intros [t ->] H. destruct x as [n|n|n|n|id pls]; try reflexivity. cbn [kd known] in *.
  destruct (cat_get d (unify_cat_name id)) as [n|] eqn:E; [|destruct H; reflexivity]. rewrite (cat_get_app _ _ _ _ E). reflexivity.
Qed.
Lemma known_ext d d' x : ext d d' -> known d x -> known d' x.
Proof.
  intros [t ->] H. destruct x as [n|n|n|n|id pls]; try exact I. cbn [kd known] in *.
  destruct (cat_get d (unify_cat_name id)) as [n|] eqn:E; [|destruct H; reflexivity]. rewrite (cat_get_app _ _ _ _ E). discriminate.
Qed.

Definition Inv (s : st) : Prop :=
  G (s_graph s) /\ s_num s = length (s_cats s) /\
  (forall i e, nth_error (s_cats s) i = Some e -> snd e = numbered "cat_" i) /\
  NoDup (map fst (s_cats s)) /\
  (forall z, stored (s_graph s) z -> (name2module (fst z) = Some (snd z) /\ forall i, fst z <> numbered "cat_" i) \/
                                     exists i, z = (numbered "cat_" i, v_cat)).

(** After a step: the new nodes are those of [O], the new edges are those from [H] to [nexts]
    and those of [A]. *)
Definition post (s s' : st) (nexts : list key) (O H : pnode -> Prop) (A : pnode -> pnode -> Prop) : Prop :=
  Inv s' /\ ext (s_cats s) (s_cats s') /\ (forall x, O x -> known (s_cats s') x) /\
  (forall z, stored (s_graph s') z <-> stored (s_graph s) z \/ exists x, O x /\ z = kd (s_cats s') x) /\
  (forall a b, lists_next (s_graph s') a b <-> lists_next (s_graph s) a b \/
     (exists x, H x /\ a = kd (s_cats s') x /\ In b nexts) \/
     (exists u w, A u w /\ a = kd (s_cats s') w /\ b = kd (s_cats s') u)).

Lemma post_ext s s' nexts O H A O' H' A' : post s s' nexts O H A ->
  (forall x, O x <-> O' x) -> (forall x, H x <-> H' x) -> (forall u w, A u w <-> A' u w) -> post s s' nexts O' H' A'.
Proof.
  intros (I1 & I2 & I3 & I4 & I5) EO EH EA. split; [exact I1|]. split; [exact I2|]. split; [intros x Hx; apply I3, EO; exact Hx|]. split.
  - intros z. rewrite I4. setoid_rewrite EO. tauto.
  - intros a b. rewrite I5. setoid_rewrite EH. setoid_rewrite EA. tauto.
Qed.
(** Two steps one after the other; the second hangs its heads on the node [k] of the first. *)
Lemma post_par s s1 s2 nexts O1 H1 A1 O2 H2 A2 :
  post s s1 nexts O1 H1 A1 -> post s1 s2 nexts O2 H2 A2 -> (forall x, H1 x -> O1 x) -> (forall u w, A1 u w -> O1 u /\ O1 w) ->
  post s s2 nexts (fun x => O1 x \/ O2 x) (fun x => H1 x \/ H2 x) (fun u w => A1 u w \/ A2 u w).
Proof.
  intros (I1 & I2 & I3 & I4 & I5) (J1 & J2 & J3 & J4 & J5) HO AO.
  assert (Kk : forall x, O1 x -> kd (s_cats s2) x = kd (s_cats s1) x) by (intros x Hx; apply kd_ext; [exact J2|apply I3; exact Hx]).
  split; [exact J1|]. split; [eapply ext_trans; eassumption|]. split; [|split].
  - intros x [Hx|Hx]; [eapply known_ext; [exact J2|apply I3; exact Hx]|apply J3; exact Hx].
  - intros z. rewrite J4, I4. split.
    + intros [[Hz|(x & Hx & ->)]|(x & Hx & ->)]; [auto|right; exists x; rewrite Kk by exact Hx; auto|right; exists x; auto].
    + intros [Hz|(x & [Hx|Hx] & ->)]; [auto|left; right; exists x; rewrite Kk by exact Hx; auto|right; exists x; auto].
  - intros a b. rewrite J5, I5. split.
    + intros [[Hz|[(x & Hx & -> & Hb)|(u & w & Ha & -> & ->)]]|[(x & Hx & -> & Hb)|(u & w & Ha & -> & ->)]].
      * auto.
      * right. left. exists x. rewrite Kk by auto. auto.
      * right. right. exists u, w. destruct (AO _ _ Ha). rewrite !Kk by assumption. auto.
      * right. left. exists x. auto.
      * right. right. exists u, w. auto.
    + intros [Hz|[(x & [Hx|Hx] & -> & Hb)|(u & w & [Ha|Ha] & -> & ->)]].
      * auto.
      * left. right. left. exists x. rewrite Kk by auto. auto.
      * right. left. exists x. auto.
      * left. right. right. exists u, w. destruct (AO _ _ Ha). rewrite !Kk by assumption. auto.
      * right. right. exists u, w. auto.
Qed.
Lemma post_seq s s1 s2 nexts y O1 H1 A1 O2 H2 A2 :
  post s s1 nexts O1 H1 A1 -> O1 y -> post s1 s2 [kd (s_cats s1) y] O2 H2 A2 -> (forall x, H1 x -> O1 x) -> (forall u w, A1 u w -> O1 u /\ O1 w) ->
  post s s2 nexts (fun x => O1 x \/ O2 x) H1 (fun u w => A1 u w \/ (u = y /\ H2 w) \/ A2 u w).
Proof.
  intros (I1 & I2 & I3 & I4 & I5) Hy (J1 & J2 & J3 & J4 & J5) HO AO.
  assert (Kk : forall x, O1 x -> kd (s_cats s2) x = kd (s_cats s1) x) by (intros x Hx; apply kd_ext; [exact J2|apply I3; exact Hx]).
  split; [exact J1|]. split; [eapply ext_trans; eassumption|]. split; [|split].
  - intros x [Hx|Hx]; [eapply known_ext; [exact J2|apply I3; exact Hx]|apply J3; exact Hx].
  - intros z. rewrite J4, I4. split.
    + intros [[Hz|(x & Hx & ->)]|(x & Hx & ->)]; [auto|right; exists x; rewrite Kk by exact Hx; auto|right; exists x; auto].
    + intros [Hz|(x & [Hx|Hx] & ->)]; [auto|left; right; exists x; rewrite Kk by exact Hx; auto|right; exists x; auto].
  - intros a b. rewrite J5, I5. split.
    + intros [[Hz|[(x & Hx & -> & Hb)|(u & w & Ha & -> & ->)]]|[(x & Hx & -> & [<-|[]])|(u & w & Ha & -> & ->)]].
      * auto.
      * right. left. exists x. rewrite Kk by auto. auto.
      * right. right. exists u, w. destruct (AO _ _ Ha). rewrite !Kk by assumption. auto.
      * right. right. exists y, x. rewrite (Kk y) by exact Hy. auto.
      * right. right. exists u, w. auto.
    + intros [Hz|[(x & Hx & -> & Hb)|(u & w & [Ha|[[-> Hw]|Ha]] & -> & ->)]].
      * auto.
      * left. right. left. exists x. rewrite Kk by auto. auto.
      * left. right. right. exists u, w. destruct (AO _ _ Ha). rewrite !Kk by assumption. auto.
      * right. left. exists w. rewrite (Kk y) by exact Hy. cbn. auto.
      * right. right. exists u, w. auto.
Qed.
Lemma post_nil s nexts : Inv s -> post s s nexts (fun _ => False) (fun _ => False) (fun _ _ => False).
Proof.
  intros HI. split; [exact HI|]. split; [apply ext_refl|]. split; [intros x []|]. split.
  - intros z. split; [auto|]. intros [H|(x & [] & _)]. exact H.
  - intros a b. split; [auto|]. intros [H|[(x & [] & _)|(u & w & [] & _)]]. exact H.
Qed.

(** * The primitives *)
Lemma connect_nexts_ok s k nexts : Inv s -> stored (s_graph s) k -> (forall n, In n nexts -> stored (s_graph s) n) ->
  exists s', connect_nexts k nexts s = (s', Ok tt) /\ Inv s' /\ s_cats s' = s_cats s /\
    (forall z, stored (s_graph s') z <-> stored (s_graph s) z) /\
    (forall a b, lists_next (s_graph s') a b <-> lists_next (s_graph s) a b \/ (a = k /\ In b nexts)).
Proof.
  intros (I1 & I2 & I3 & I4 & I5) Hk Hn.
  destruct (loop_connect (fun n => (k, n)) nexts (s_graph s) _ I1) as (g' & E & W & S1 & _).
  { intros n Hi. cbn. auto. }
  cbn [fst snd] in E. unfold connect_nexts, on_graph. rewrite E. eexists. split; [reflexivity|]. cbn [s_graph s_cats s_num].
  split; [|split; [reflexivity|split; [exact S1|]]].
  - split; [exact (WF_G _ _ W)|]. split; [exact I2|]. split; [exact I3|]. split; [exact I4|]. cbn. intros z Hz. apply I5, S1. exact Hz.
  - intros a b. rewrite (WF_lists _ _ W). split; [intros [H|(n & Hi & He)]; [auto|inversion He; subst; auto]|].
    intros [H|[-> H]]; [auto|right; exists b; auto].
Qed.
Lemma add_key_ok s k : Inv s -> (forall z, stored (s_graph s) z -> fst z = fst k -> z = k) ->
  ((name2module (fst k) = Some (snd k) /\ forall i, fst k <> numbered "cat_" i) \/ exists i, k = (numbered "cat_" i, v_cat)) ->
  exists s', on_graph (add_or_find k) s = (s', Ok tt) /\ Inv s' /\ s_cats s' = s_cats s /\
    (forall z, stored (s_graph s') z <-> stored (s_graph s) z \/ z = k) /\
    (forall a b, lists_next (s_graph s') a b <-> lists_next (s_graph s) a b).
Proof.
  intros (I1 & I2 & I3 & I4 & I5) F Hk. destruct (add_or_find_ok (s_graph s) _ k I1 F) as (g' & E & W & S1 & _).
  unfold on_graph. rewrite E. eexists. split; [reflexivity|]. cbn [s_graph s_cats s_num].
  split; [|split; [reflexivity|split; [exact S1|exact (WF_lists _ _ W)]]].
  split; [exact (WF_G _ _ W)|]. split; [exact I2|]. split; [exact I3|]. split; [exact I4|]. cbn. intros z Hz.
  apply S1 in Hz as [Hz| ->]; [apply I5; exact Hz|exact Hk].
Qed.

Lemma find_module_ok s x : Inv s -> is_cat x = false -> valid x ->
  exists s', find_module name2module (pname x) s = (s', Ok (kd (s_cats s') x)) /\ Inv s' /\ s_cats s' = s_cats s /\
    (forall z, stored (s_graph s') z <-> stored (s_graph s) z \/ z = kd (s_cats s') x) /\
    (forall a b, lists_next (s_graph s') a b <-> lists_next (s_graph s) a b).
Proof.
  intros HI Hc Hv. destruct (Hv Hc) as [H1 H2]. unfold find_module. destruct (name2module (pname x)) as [v|] eqn:E; [|congruence].
  assert (Ek : forall d, kd d x = (pname x, v)) by (intros d; destruct x; try discriminate Hc; cbn in *; rewrite E; reflexivity).
  destruct (add_key_ok s (pname x, v) HI) as (s1 & E1 & J1 & J2 & J3 & J4).
  { intros z Hz Hf. destruct HI as (_ & _ & _ & _ & I5). destruct (I5 z Hz) as [[Hm _]|(i & ->)].
    - destruct z as [n w]. cbn in *. subst n. rewrite E in Hm. inversion Hm. reflexivity.
    - cbn in Hf. exfalso. exact (H2 i (eq_sym Hf)). }
  { left. cbn. auto. }
  exists s1. unfold sseq. rewrite E1. rewrite Ek. split; [reflexivity|]. auto.
Qed.

Lemma cat_get_in d k n : cat_get d k = Some n -> exists i, nth_error d i = Some (k, n).
Proof.
  induction d as [|[a b] d IH]; cbn; [discriminate|]. destruct (String.eqb_spec a k) as [->|Hne].
  - intros H. inversion H; subst. exists 0%nat. reflexivity.
  - intros H. destruct (IH H) as [i Hi]. exists (S i). exact Hi.
Qed.
Lemma cat_get_none d k : cat_get d k = None -> ~ In k (map fst d).
Proof.
  induction d as [|[a b] d IH]; cbn; [auto|]. destruct (String.eqb_spec a k) as [->|Hne]; [discriminate|]. intros H [Hc|Hc]; [congruence|exact (IH H Hc)].
Qed.

Lemma find_cat_ok s id pls : Inv s ->
  exists s', find_cat id s = (s', Ok (kd (s_cats s') (PConcat id pls))) /\ Inv s' /\ ext (s_cats s) (s_cats s') /\
    known (s_cats s') (PConcat id pls) /\
    (forall z, stored (s_graph s') z <-> stored (s_graph s) z \/ z = kd (s_cats s') (PConcat id pls)) /\
    (forall a b, lists_next (s_graph s') a b <-> lists_next (s_graph s) a b).
Proof.
  intros HI. unfold find_cat. pose proof HI as (I1 & I2 & I3 & I4 & I5).
  assert (Add : forall s1 n i, Inv s1 -> n = numbered "cat_" i ->
     exists s', on_graph (add_or_find (n, v_cat)) s1 = (s', Ok tt) /\ Inv s' /\ s_cats s' = s_cats s1 /\
      (forall z, stored (s_graph s') z <-> stored (s_graph s1) z \/ z = (n, v_cat)) /\
      (forall a b, lists_next (s_graph s') a b <-> lists_next (s_graph s1) a b)).
  { intros s1 n i HI1 ->. apply add_key_ok; [exact HI1| |right; exists i; reflexivity].
    intros z Hz Hf. destruct HI1 as (_ & _ & _ & _ & K5). destruct (K5 z Hz) as [[_ Hm]|(j & ->)]; [destruct (Hm i Hf)|]. cbn [fst] in Hf. rewrite Hf. reflexivity. }
  destruct (cat_get (s_cats s) (unify_cat_name id)) as [n|] eqn:E.
  - destruct (cat_get_in _ _ _ E) as [i Hi]. pose proof (I3 i _ Hi) as Hn. cbn in Hn.
    destruct (Add s n i HI Hn) as (s1 & E1 & J1 & J2 & J3 & J4). exists s1. unfold sseq. rewrite E1.
    assert (Ek : kd (s_cats s1) (PConcat id pls) = (n, v_cat)) by (cbn [kd]; rewrite J2, E; reflexivity).
    rewrite Ek. split; [reflexivity|]. split; [exact J1|]. split; [rewrite J2; apply ext_refl|].
    split; [cbn [known]; rewrite J2, E; discriminate|]. auto.
  - set (n := numbered "cat_" (s_num s)).
    set (s0 := {| s_graph := s_graph s; s_cats := s_cats s ++ [(unify_cat_name id, n)]; s_num := S (s_num s) |}).
    assert (HI0 : Inv s0).
    { split; [exact I1|]. split; [cbn; rewrite app_length, I2; cbn; lia|]. split; [|split; [|exact I5]].
      - intros i e Hi. cbn in Hi. destruct (Nat.lt_ge_cases i (length (s_cats s))) as [Hlt|Hge].
        + rewrite nth_error_app1 in Hi by exact Hlt. exact (I3 i e Hi).
        + rewrite nth_error_app2 in Hi by exact Hge. destruct (i - length (s_cats s))%nat as [|q] eqn:Eq; [|destruct q; discriminate Hi].
          cbn in Hi. inversion Hi; subst. cbn. unfold n. rewrite I2. replace i with (length (s_cats s)) by (clear - Hge Eq; lia). reflexivity.
      - cbn. rewrite map_app. cbn. apply cat_get_none in E. clear - I4 E. induction (map fst (s_cats s)) as [|a l IH]; cbn; [repeat constructor; auto|].
        inversion I4; subst. constructor; [rewrite in_app_iff; cbn in *; intuition|apply IH; [assumption|cbn in E; tauto]]. }
    destruct (Add s0 n (s_num s) HI0 eq_refl) as (s1 & E1 & J1 & J2 & J3 & J4). exists s1. unfold sseq. rewrite E1.
    assert (Eg : cat_get (s_cats s1) (unify_cat_name id) = Some n).
    { rewrite J2. cbn [s0 s_cats]. clear - E. revert E. generalize (unify_cat_name id). intros k E. induction (s_cats s) as [|[a b] d IH]; cbn in *; [rewrite String.eqb_refl; reflexivity|].
      destruct (String.eqb a k); [discriminate|auto]. }
    assert (Ek : kd (s_cats s1) (PConcat id pls) = (n, v_cat)) by (cbn [kd]; rewrite Eg; reflexivity).
    rewrite Ek. split; [reflexivity|]. split; [exact J1|]. split; [rewrite J2; exists [(unify_cat_name id, n)]; reflexivity|].
    split; [cbn [known]; rewrite Eg; discriminate|]. auto.
Qed.

(** * Nodes, paths, lists *)
Definition node_ok (x : pnode) : Prop := (forall z, inside x z -> valid z) -> forall s nexts, Inv s -> (forall n, In n nexts -> stored (s_graph s) n) ->
  exists s', parse_node name2module x nexts s = (s', Ok (kd (s_cats s') x)) /\ post s s' nexts (inside x) (eq x) (within x).

Lemma within_inside x u w : within x u w -> inside x u /\ inside x w.
Proof.
  intros H. induction H as [id pls pl y r H1 H2|id pls pl x y H1 (l1 & l2 & H2)|id pls pl p v x y H1 H2 H3 H4 [IH1 IH2]].
  - split; [constructor|]. eapply inside_cat; [exact H1|exact H2|left; reflexivity|constructor].
  - split; [apply (inside_cat id pls pl (l1 ++ x :: y :: l2) x)|apply (inside_cat id pls pl (l1 ++ x :: y :: l2) y)];
      try assumption; try (apply in_app_iff; right; cbn; auto; fail); constructor.
  - split; eapply inside_cat; eassumption.
Qed.

(** Paths: the nodes occurring, the first node, and the pairs. *)
Definition p_occ (p : list pnode) (z : pnode) : Prop := exists y, In y p /\ inside y z.
Definition p_head (p : list pnode) (z : pnode) : Prop := exists r, p = z :: r.
Definition p_adj (p : list pnode) (x y : pnode) : Prop :=
  (exists l1 l2, p = l1 ++ x :: y :: l2) \/ exists w, In w p /\ within w x y.
Lemma p_adj_occ p u w : p_adj p u w -> p_occ p u /\ p_occ p w.
Proof.
  intros [(l1 & l2 & ->)|(v & Hv & Hw)].
  - split; [exists u|exists w]; (split; [apply in_app_iff; right; cbn; auto|constructor]).
  - apply within_inside in Hw as [H1 H2]. split; exists v; auto.
Qed.
Lemma path_ok : forall p, (forall y, In y p -> node_ok y) -> (forall z, p_occ p z -> valid z) ->
  forall s nexts, Inv s -> (forall n, In n nexts -> stored (s_graph s) n) ->
  exists s', parse_path name2module p nexts s = (s', Ok tt) /\ post s s' nexts (p_occ p) (p_head p) (p_adj p).
Proof.
  induction p as [|y p IH]; intros Hn Hv s nexts HI Hs; cbn [parse_path].
  - exists s. split; [reflexivity|]. apply (post_ext _ _ _ _ _ _ _ _ _ (post_nil s nexts HI)).
    + intros x. split; [intros []|intros (y & [] & _)].
    + intros x. split; [intros []|intros (r & Hr); discriminate].
    + intros u w. split; [intros []|intros [(l1 & l2 & H)|(v & [] & _)]; destruct l1; discriminate].
  - destruct (Hn y (or_introl eq_refl)) with (s := s) (nexts := nexts) as (s1 & E1 & P1); [|exact HI|exact Hs|].
    { intros z Hz. apply Hv. exists y. split; [left; reflexivity|exact Hz]. }
    unfold sseq. rewrite E1. pose proof P1 as (J1 & J2 & J3 & J4 & J5).
    destruct (IH (fun z Hz => Hn z (or_intror Hz))) with (s := s1) (nexts := [kd (s_cats s1) y]) as (s2 & E2 & P2); [|exact J1| |].
    { intros z (v & Hi & Hz). apply Hv. exists v. split; [right; exact Hi|exact Hz]. }
    { intros n [<-|[]]. apply J4. right. exists y. split; [constructor|reflexivity]. }
    exists s2. split; [exact E2|].
    apply (post_ext _ _ _ _ _ _ _ _ _ (post_seq s s1 s2 nexts y _ _ _ _ _ _ P1 (inside_refl y) P2
             (fun x (e : y = x) => eq_ind y (inside y) (inside_refl y) x e) (within_inside y))).
    + intros z. unfold p_occ. split.
      * intros [H|(v & Hi & H)]; [exists y; cbn; auto|exists v; cbn; auto].
      * intros (v & [<-|Hi] & H); [auto|right; exists v; auto].
    + intros z. unfold p_head. split; [intros <-; exists p; reflexivity|intros (r & H); inversion H; reflexivity].
    + intros u w. unfold p_adj, p_head. split.
      * intros [H|[(-> & r & ->)|[(l1 & l2 & ->)|(v & Hi & H)]]].
        -- right. exists y. cbn. auto.
        -- left. exists [], r. reflexivity.
        -- left. exists (y :: l1), l2. reflexivity.
        -- right. exists v. cbn. auto.
      * intros [([|a l1] & l2 & H)|(v & [<-|Hi] & H)].
        -- cbn in H. inversion H; subst. right. left. split; [reflexivity|]. exists l2. reflexivity.
        -- cbn in H. inversion H; subst. right. right. left. exists l1, l2. reflexivity.
        -- auto.
        -- right. right. right. exists v. auto.
Qed.

Definition l_head (pl : list (list pnode)) (z : pnode) : Prop := exists r, In (z :: r) pl.
Lemma list_ok : forall pl, (forall p y, In p pl -> In y p -> node_ok y) -> (forall z, occurs pl z -> valid z) ->
  forall s nexts, Inv s -> (forall n, In n nexts -> stored (s_graph s) n) ->
  exists s', parse_list name2module pl nexts s = (s', Ok tt) /\ post s s' nexts (occurs pl) (l_head pl) (behind pl).
Proof.
  induction pl as [|p pl IH]; intros Hn Hv s nexts HI Hs; cbn [parse_list].
  - exists s. split; [reflexivity|]. apply (post_ext _ _ _ _ _ _ _ _ _ (post_nil s nexts HI)).
    + intros x. split; [intros []|intros (q & y & [] & _)].
    + intros x. split; [intros []|intros (r & [])].
    + intros u w. split; [intros []|intros [(l1 & l2 & [])|(q & v & [] & _)]].
  - destruct (path_ok p (fun y Hy => Hn p y (or_introl eq_refl) Hy)) with (s := s) (nexts := nexts) as (s1 & E1 & P1); [|exact HI|exact Hs|].
    { intros z (y & Hy & Hz). apply Hv. exists p, y. cbn. auto. }
    unfold sseq. rewrite E1. pose proof P1 as (J1 & J2 & J3 & J4 & J5).
    destruct (IH (fun q y Hq => Hn q y (or_intror Hq))) with (s := s1) (nexts := nexts) as (s2 & E2 & P2); [|exact J1| |].
    { intros z (q & y & Hq & Hr). apply Hv. exists q, y. cbn. tauto. }
    { intros n Hi. apply J4. left. apply Hs. exact Hi. }
    exists s2. split; [exact E2|].
    assert (HO : forall x, p_head p x -> p_occ p x).
    { intros x (r & ->). exists x. split; [left; reflexivity|constructor]. }
    apply (post_ext _ _ _ _ _ _ _ _ _ (post_par s s1 s2 nexts _ _ _ _ _ _ P1 P2 HO (p_adj_occ p))).
    + intros z. unfold occurs, p_occ. split.
      * intros [(y & Hy & H)|(q & y & Hq & H)]; [exists p, y; cbn; auto|exists q, y; cbn; tauto].
      * intros (q & y & [<-|Hq] & H); [left; exists y; auto|right; exists q, y; tauto].
    + intros z. unfold l_head, p_head. cbn. split.
      * intros [(r & ->)|(r & Hr)]; exists r; auto.
      * intros (r & [->|Hr]); [left; exists r; reflexivity|right; exists r; exact Hr].
    + intros u w. unfold p_adj, behind, next_in. cbn. split.
      * intros [[(l1 & l2 & ->)|(v & Hi & H)]|[(l1 & l2 & H)|(q & v & Hq & H)]].
        -- left. exists l1, l2. auto.
        -- right. exists p, v. auto.
        -- left. exists l1, l2. auto.
        -- right. exists q, v. tauto.
      * intros [(l1 & l2 & [->|H])|(q & v & [<-|Hq] & H)].
        -- left. left. exists l1, l2. reflexivity.
        -- right. left. exists l1, l2. exact H.
        -- left. right. exists v. tauto.
        -- right. right. exists q, v. tauto.
Qed.

(** The loop over the branches of a concatenation. *)
Fixpoint parse_lists (pls : list (list (list pnode))) (nexts : list key) : sop unit :=
  match pls with
  | [] => sret tt
  | pl :: r => sseq (parse_list name2module pl nexts) (fun _ => parse_lists r nexts)
  end.
Lemma lists_ok : forall pls, (forall pl p y, In pl pls -> In p pl -> In y p -> node_ok y) ->
  (forall pl z, In pl pls -> occurs pl z -> valid z) ->
  forall s nexts, Inv s -> (forall n, In n nexts -> stored (s_graph s) n) ->
  exists s', parse_lists pls nexts s = (s', Ok tt) /\
    post s s' nexts (fun z => exists pl, In pl pls /\ occurs pl z) (fun z => exists pl, In pl pls /\ l_head pl z)
      (fun u w => exists pl, In pl pls /\ behind pl u w).
Proof.
  induction pls as [|pl pls IH]; intros Hn Hv s nexts HI Hs; cbn [parse_lists].
  - exists s. split; [reflexivity|]. apply (post_ext _ _ _ _ _ _ _ _ _ (post_nil s nexts HI)).
    + intros x. split; [intros []|intros (q & [] & _)].
    + intros x. split; [intros []|intros (q & [] & _)].
    + intros u w. split; [intros []|intros (q & [] & _)].
  - destruct (list_ok pl (fun p y => Hn pl p y (or_introl eq_refl)) (fun z => Hv pl z (or_introl eq_refl)) s nexts HI Hs) as (s1 & E1 & P1).
    unfold sseq. rewrite E1. pose proof P1 as (J1 & J2 & J3 & J4 & J5).
    destruct (IH (fun q p y Hq => Hn q p y (or_intror Hq)) (fun q z Hq => Hv q z (or_intror Hq)) s1 nexts J1) as (s2 & E2 & P2).
    { intros n Hi. apply J4. left. apply Hs. exact Hi. }
    exists s2. split; [exact E2|].
    assert (HO : forall x, l_head pl x -> occurs pl x).
    { intros x (r & Hr). exists (x :: r), x. split; [exact Hr|]. split; [left; reflexivity|constructor]. }
    assert (AO : forall u w, behind pl u w -> occurs pl u /\ occurs pl w).
    { intros u w [(l1 & l2 & H)|(q & v & Hq & Hv' & H)].
      - split; [exists (l1 ++ u :: w :: l2), u|exists (l1 ++ u :: w :: l2), w]; (split; [exact H|split; [apply in_app_iff; right; cbn; auto|constructor]]).
      - apply within_inside in H as [H1 H2]. split; exists q, v; auto. }
    apply (post_ext _ _ _ _ _ _ _ _ _ (post_par s s1 s2 nexts _ _ _ _ _ _ P1 P2 HO AO)).
    + intros z. cbn. split; [intros [H|(q & Hq & H)]; eauto|intros (q & [<-|Hq] & H); eauto].
    + intros z. cbn. split; [intros [H|(q & Hq & H)]; eauto|intros (q & [<-|Hq] & H); eauto].
    + intros u w. cbn. split; [intros [H|(q & Hq & H)]; eauto|intros (q & [<-|Hq] & H); eauto].
Qed.
Lemma sseq_ext {X Y} (m m' : sop X) (f f' : X -> sop Y) s : m s = m' s -> (forall a s', f a s' = f' a s') -> sseq m f s = sseq m' f' s.
Proof. intros E F. unfold sseq. rewrite E. destruct (m' s) as [s1 [a|e]]; [apply F|reflexivity]. Qed.
Lemma parse_cat_eq id pls nexts s : parse_node name2module (PConcat id pls) nexts s =
  sseq (find_cat id) (fun k => sseq (connect_nexts k nexts) (fun _ => sseq (parse_lists pls [k]) (fun _ => sret k))) s.
Proof.
  cbn [parse_node]. apply sseq_ext; [reflexivity|]. intros k s1. apply sseq_ext; [reflexivity|]. intros _ s2.
  apply sseq_ext; [|reflexivity]. clear. revert s2. induction pls as [|pl l IH]; intros s0; [reflexivity|]. cbn [parse_lists].
  apply sseq_ext; [|intros _ s1; apply IH]. clear. revert s0. induction pl as [|p q IH]; intros s0; [reflexivity|]. cbn [parse_list].
  apply sseq_ext; [|intros _ s1; apply IH]. clear. revert s0. generalize [k] as n. induction p as [|y r IH]; intros n s0; [reflexivity|]. cbn [parse_path].
  apply sseq_ext; [reflexivity|]. intros c s1. apply IH.
Qed.

Lemma all_nodes_ok : forall x, node_ok x.
Proof.
  induction x as [x Hx|id pls IH] using Tracer3_Props.pnode_ind'; intros Hv s nexts HI Hs.
  - assert (Hc : is_cat x = false) by (destruct x; try reflexivity; discriminate Hx).
    assert (E0 : parse_node name2module x nexts = sseq (find_module name2module (pname x)) (fun k => sseq (connect_nexts k nexts) (fun _ => sret k))).
    { destruct x; try reflexivity. discriminate Hc. }
    rewrite E0. clear E0. destruct (find_module_ok s x HI Hc (Hv x (inside_refl x))) as (s1 & E1 & J1 & J2 & J3 & J4).
    unfold sseq. rewrite E1.
    destruct (connect_nexts_ok s1 (kd (s_cats s1) x) nexts J1) as (s2 & E2 & K1 & K2 & K3 & K4).
    { apply J3. auto. } { intros n Hn. apply J3. left. apply Hs. exact Hn. }
    rewrite E2. exists s2. rewrite K2. split; [reflexivity|].
    assert (Ec : forall d, kd d x = kd (s_cats s1) x) by (intros d; destruct x; try reflexivity; discriminate Hc).
    assert (Ins : forall z, inside x z <-> x = z).
    { intros z. split; [intros H; inversion H; subst; [reflexivity|discriminate Hc]|intros <-; constructor]. }
    split; [exact K1|]. split; [rewrite K2, J2; apply ext_refl|]. split; [|split].
    + intros z Hz. apply Ins in Hz. subst z. destruct x; try exact I. discriminate Hc.
    + intros z. rewrite K3, J3, K2. setoid_rewrite Ins. split.
      * intros [H| ->]; [auto|right; exists x; auto].
      * intros [H|(y & <- & ->)]; auto.
    + intros a b. rewrite K4, J4, K2. split.
      * intros [H|[-> H]]; [auto|right; left; exists x; auto].
      * intros [H|[(y & <- & -> & H)|(u & w & H & _)]]; [auto|auto|]. exfalso. inversion H; subst; discriminate Hc.
  - rewrite parse_cat_eq. destruct (find_cat_ok s id pls HI) as (s1 & E1 & J1 & J2 & Jk & J3 & J4). unfold sseq. rewrite E1.
    set (x := PConcat id pls) in *.
    destruct (connect_nexts_ok s1 (kd (s_cats s1) x) nexts J1) as (s2 & E2 & K1 & K2 & K3 & K4).
    { apply J3. auto. } { intros n Hn. apply J3. left. apply Hs. exact Hn. }
    rewrite E2.
    assert (P1 : post s s2 nexts (eq x) (eq x) (fun _ _ => False)).
    { split; [exact K1|]. split; [rewrite K2; exact J2|]. rewrite K2. split; [intros z <-; exact Jk|]. split.
      - intros z. rewrite K3, J3. split; [intros [H| ->]; [auto|right; exists x; auto]|intros [H|(y & <- & ->)]; auto].
      - intros a b. rewrite K4, J4. split; [intros [H|[-> H]]; [auto|right; left; exists x; auto]|].
        intros [H|[(y & <- & -> & H)|(u & w & [] & _)]]; auto. }
    destruct (lists_ok pls) with (s := s2) (nexts := [kd (s_cats s1) x]) as (s3 & E3 & P3).
    { intros pl p y H1 H2 H3. exact (IH pl H1 p H2 y H3). }
    { intros pl z H1 (p & y & H2 & H3 & H4). apply Hv. eapply inside_cat; eassumption. }
    { exact K1. }
    { intros n [<-|[]]. apply K3, J3. auto. }
    rewrite E3. exists s3. pose proof P3 as (L1 & L2 & L3 & L4 & L5).
    assert (Ek : kd (s_cats s3) x = kd (s_cats s1) x).
    { rewrite <- K2. apply kd_ext; [exact L2|]. rewrite K2. exact Jk. }
    rewrite Ek. split; [reflexivity|]. rewrite <- K2 in P3.
    apply (post_ext _ _ _ _ _ _ _ _ _ (post_seq s s2 s3 nexts x _ _ _ _ _ _ P1 eq_refl P3 (fun z e => e) (fun u w f => False_ind _ f))).
    + intros z. split.
      * intros [<-|(pl & H1 & p & y & H2 & H3 & H4)]; [constructor|eapply inside_cat; eassumption].
      * intros H. inversion H as [y Hy|id' pls' pl p y z' H1 H2 H3 H4]; subst; [auto|]. right. exists pl. split; [exact H1|]. exists p, y. auto.
    + intros z. tauto.
    + intros u w. split.
      * intros [[]|[(-> & pl & H1 & r & H2)|(pl & H1 & [H2|(p & v & H2 & H3 & H4)])]].
        -- eapply within_head; eassumption.
        -- eapply within_next; eassumption.
        -- eapply within_deep; eassumption.
      * intros H. inversion H as [id' pls' pl y r H1 H2|id' pls' pl y z H1 H2|id' pls' pl p v y z H1 H2 H3 H4]; subst.
        -- right. left. split; [reflexivity|]. exists pl. split; [exact H1|]. exists r. exact H2.
        -- right. right. exists pl. split; [exact H1|]. left. exact H2.
        -- right. right. exists pl. split; [exact H1|]. right. exists p, v. auto.
Qed.

Definition start : st := {| s_graph := empty_graph; s_cats := []; s_num := 0 |}.
Lemma start_Inv : Inv start.
Proof.
  split; [exact G_empty|]. split; [reflexivity|]. split; [intros i e H; destruct i; discriminate|]. split; [constructor|].
  intros z Hz. destruct (empty_stored _ Hz).
Qed.
Fixpoint position (d : list (string * string)) (k : string) : nat :=
  match d with [] => 0 | (a, _) :: r => if String.eqb a k then 0 else S (position r k) end%nat.
Lemma position_get : forall d k n, cat_get d k = Some n -> nth_error d (position d k) = Some (k, n).
Proof.
  induction d as [|[a b] d IH]; intros k n H; [discriminate|]. cbn in *. destruct (String.eqb_spec a k) as [->|Hne]; [inversion H; reflexivity|].
  cbn. apply IH. exact H.
Qed.

(** The layers known and not called like a concatenation, the paths give a graph whose nodes are
    the layers and concatenations occurring in them, where concatenations count as one exactly if
    their names unify, and whose edges are the pairs of nodes directly behind each other. *)
Theorem C159_parse : forall pl, (forall z, occurs pl z -> valid z) ->
  exists s number, parse_list name2module pl [] start = (s, Ok tt) /\ consistent (s_graph s) /\
    (forall z, present (s_graph s) z <-> exists x, occurs pl x /\ z = graph_key number x) /\
    (forall a b, lists_next (s_graph s) a b <-> exists x y, behind pl x y /\ b = graph_key number x /\ a = graph_key number y) /\
    (forall i p j q, occurs pl (PConcat i p) -> occurs pl (PConcat j q) ->
       (number i = number j <-> unify_cat_name i = unify_cat_name j)).
Proof.
  intros pl Hv. destruct (list_ok pl (fun p y _ _ => all_nodes_ok y) Hv start [] start_Inv (fun n f => False_ind _ f)) as (s & E & HI & _ & Hk & Hs & He).
  exists s, (fun id => position (s_cats s) (unify_cat_name id)). pose proof HI as (I1 & I2 & I3 & I4 & I5).
  assert (Key : forall x, occurs pl x -> kd (s_cats s) x = graph_key (fun id => position (s_cats s) (unify_cat_name id)) x).
  { intros x Hx. apply Hk in Hx. destruct x as [n|n|n|n|id pls]; try reflexivity. cbn [kd known graph_key] in *.
    destruct (cat_get (s_cats s) (unify_cat_name id)) as [n|] eqn:Ec; [|congruence]. apply position_get in Ec. apply I3 in Ec. cbn in Ec. rewrite Ec. reflexivity. }
  assert (AO : forall u w, behind pl u w -> occurs pl u /\ occurs pl w).
  { intros u w [(l1 & l2 & H)|(q & v & Hq & Hv' & H)].
    - split; [exists (l1 ++ u :: w :: l2), u|exists (l1 ++ u :: w :: l2), w]; (split; [exact H|split; [apply in_app_iff; right; cbn; auto|constructor]]).
    - apply within_inside in H as [H1 H2]. split; exists q, v; auto. }
  split; [exact E|]. split; [apply G_consistent; exact I1|]. split; [|split].
  - intros z. rewrite present_stored by apply I1. rewrite Hs. split.
    + intros [H|(x & Hx & ->)]; [destruct (empty_stored _ H)|]. exists x. split; [exact Hx|]. apply Key. exact Hx.
    + intros (x & Hx & ->). right. exists x. split; [exact Hx|]. symmetry. apply Key. exact Hx.
  - intros a b. rewrite He. split.
    + intros [(nd & [[] _] & _)|[(x & _ & _ & [])|(u & w & H & -> & ->)]]. destruct (AO _ _ H) as [Ou Ow].
      exists u, w. rewrite !Key by assumption. auto.
    + intros (u & w & H & -> & ->). right. right. exists u, w. destruct (AO _ _ H) as [Ou Ow]. rewrite !Key by assumption. auto.
  - intros i p j q Hi Hj. split; [|intros ->; reflexivity]. intros Hn. apply Hk in Hi, Hj. cbn [known] in Hi, Hj.
    destruct (cat_get (s_cats s) (unify_cat_name i)) as [n|] eqn:Ei; [|congruence].
    destruct (cat_get (s_cats s) (unify_cat_name j)) as [m|] eqn:Ej; [|congruence].
    apply position_get in Ei, Ej. rewrite Hn in Ei. rewrite Ei in Ej.
    exact (f_equal (fun o => match o with Some e => fst e | None => EmptyString end) Ej).
Qed.
End Parse.
Print Assumptions C159_parse.

(** Two branches of a network, concatenated: both layers feed the concatenation, which feeds the
    last layer. *)
Example C159_example :
  let mods (n : string) := (if String.eqb n "a" then Some 10 else if String.eqb n "b" then Some 11
                            else if String.eqb n "c" then Some 12 else None)%nat%string in
  let cat := PConcat "concat_1_2" [[[Tracer_Model.PConv "a"]]; [[Tracer_Model.PConv "b"; Tracer_Model.PConv "a"]]]%string in
  let pl := [[Tracer_Model.PLinear "c"; cat]]%string in
  (forall z, occurs pl z -> valid mods z) /\
  map (fun p => (fst p, n_prev (snd p))) (s_graph (fst (parse_list mods pl [] start)))
  = [("c", [("cat_0", 0)]); ("cat_0", [("a", 10); ("b", 11)]); ("a", []); ("b", [("a", 10)])]%string%nat /\
  (* an unknown layer *)
  snd (parse_list mods [[Tracer_Model.PConv "d"]]%string [] start) = Raise AssertionError.
Proof.
  cbv zeta. split; [|split; vm_compute; reflexivity]. intros z (p & y & Hp & Hy & Hz) Hc.
  assert (Hn : forall n, (n = "a" \/ n = "b" \/ n = "c")%string -> forall i, n <> numbered "cat_" i).
  { intros n H i E. destruct H as [->|[->| ->]]; discriminate E. }
  assert (Hl : (pname z = "a" \/ pname z = "b" \/ pname z = "c")%string).
  { destruct Hp as [<-|[]]. destruct Hy as [<-|[<-|[]]].
    - inversion Hz; subst. cbn. auto.
    - inversion Hz as [|id pls pl' p y z' H1 H2 H3 H4]; subst; [discriminate Hc|].
      destruct H1 as [<-|[<-|[]]]; destruct H2 as [<-|[]]; cbn in H3.
      + destruct H3 as [<-|[]]. inversion H4; subst. cbn. auto.
      + destruct H3 as [<-|[<-|[]]]; inversion H4; subst; cbn; auto. }
  split; [|apply Hn; exact Hl]. destruct Hl as [->|[->| ->]]; discriminate.
Qed.

(** * Which concatenations are one node *)
(** The name that parsers.py:120-125 gives to the concatenation of the inputs with these ids. *)
Definition cat_id (ids : list string) : string := ("concat_" ++ String.concat "_" ids)%string.
Lemma str_leb_total : forall a b, str_leb a b = true \/ str_leb b a = true.
Proof.
  induction a as [|x a IH]; intros [|y b]; cbn [str_leb]; auto. rewrite (Ascii.eqb_sym y x). destruct (Ascii.eqb_spec x y) as [->|Hne]; [apply IH|].
  rewrite !Nat.ltb_lt. assert (Ascii.nat_of_ascii x <> Ascii.nat_of_ascii y); [|lia].
  intros H. apply Hne. rewrite <- (Ascii.ascii_nat_embedding x), <- (Ascii.ascii_nat_embedding y), H. reflexivity.
Qed.
Lemma str_leb_antisym : forall a b, str_leb a b = true -> str_leb b a = true -> a = b.
Proof.
  induction a as [|x a IH]; intros [|y b]; cbn [str_leb]; auto; try discriminate. rewrite (Ascii.eqb_sym y x). destruct (Ascii.eqb_spec x y) as [->|Hne].
  - intros H1 H2. f_equal. auto.
  - rewrite !Nat.ltb_lt. lia.
Qed.
Lemma str_leb_trans : forall a b c, str_leb a b = true -> str_leb b c = true -> str_leb a c = true.
Proof.
  induction a as [|x a IH]; intros [|y b] [|z c]; cbn [str_leb]; auto; try discriminate.
  destruct (Ascii.eqb_spec x y) as [->|H1]; destruct (Ascii.eqb_spec y z) as [->|H2]; rewrite ?Ascii.eqb_refl.
  - apply IH.
  - destruct (Ascii.eqb_spec y z); [contradiction|auto].
  - destruct (Ascii.eqb_spec x z); [contradiction|auto].
  - rewrite !Nat.ltb_lt. destruct (Ascii.eqb_spec x z) as [->|H3]; [lia|]. rewrite Nat.ltb_lt. lia.
Qed.
Lemma insert_str_perm x l : Permutation (x :: l) (insert_str x l).
Proof.
  induction l as [|y l IH]; cbn; [apply Permutation_refl|]. destruct (str_leb x y); [apply Permutation_refl|].
  eapply Permutation_trans; [apply perm_swap|]. apply perm_skip. exact IH.
Qed.
Lemma sort_str_perm l : Permutation l (sort_str l).
Proof. induction l as [|x l IH]; cbn; [constructor|]. eapply Permutation_trans; [apply perm_skip; exact IH|apply insert_str_perm]. Qed.
Definition str_le a b := str_leb a b = true.
Lemma insert_str_sorted x l : StronglySorted str_le l -> StronglySorted str_le (insert_str x l).
Proof.
  induction l as [|y l IH]; intros H; cbn; [repeat constructor|]. inversion H as [|? ? Hs Hf]; subst. destruct (str_leb x y) eqn:E.
  - constructor; [exact H|]. constructor; [exact E|]. rewrite Forall_forall in *. intros z Hz. eapply str_leb_trans; [exact E|apply Hf; exact Hz].
  - constructor; [apply IH; exact Hs|]. rewrite Forall_forall in *. intros z Hz. apply (Permutation_in z (Permutation_sym (insert_str_perm x l))) in Hz.
    destruct Hz as [<-|Hz]; [|apply Hf; exact Hz]. destruct (str_leb_total x y) as [H1|H1]; [congruence|exact H1].
Qed.
Lemma sort_str_sorted l : StronglySorted str_le (sort_str l).
Proof. induction l as [|x l IH]; cbn; [constructor|apply insert_str_sorted; exact IH]. Qed.
Lemma sorted_unique : forall l m, StronglySorted str_le l -> StronglySorted str_le m -> Permutation l m -> l = m.
Proof.
  induction l as [|x l IH]; intros [|y m] Hl Hm P; [reflexivity|apply Permutation_nil in P; discriminate P|apply Permutation_sym, Permutation_nil in P; discriminate P|].
  inversion Hl as [|? ? Sl Fl]; inversion Hm as [|? ? Sm Fm]; subst. rewrite Forall_forall in Fl, Fm. assert (x = y).
  { assert (H1 : In x (y :: m)) by (apply (Permutation_in x P); left; reflexivity).
    assert (H2 : In y (x :: l)) by (apply (Permutation_in y (Permutation_sym P)); left; reflexivity).
    destruct H1 as [H1|H1]; [auto|]. destruct H2 as [H2|H2]; [auto|]. apply str_leb_antisym; [apply Fl; exact H2|apply Fm; exact H1]. }
  subst y. f_equal. apply IH; [exact Sl|exact Sm|]. apply Permutation_cons_inv in P. exact P.
Qed.
Definition plain (id : string) : Prop := Engine_Props.no_char "_"%char id.
Lemma split_concat : forall l, l <> [] -> Forall plain l -> Engine_Model.split "_"%char (String.concat "_"%string l) = l.
Proof.
  induction l as [|a l IH]; intros Hn H; [congruence|]. inversion H; subst. destruct l as [|b l].
  - cbn [String.concat]. apply Engine_Props.split_no. assumption.
  - change (String.concat "_"%string (a :: b :: l)) with (a ++ String "_"%char (String.concat "_"%string (b :: l)))%string.
    rewrite Engine_Props.split_app, IH by (discriminate || assumption). rewrite Engine_Props.split_no by assumption. reflexivity.
Qed.
Lemma unify_eq ids : ids <> [] -> Forall plain ids -> unify_cat_name (cat_id ids) = ("cat_" ++ String.concat "_"%string (sort_str ids))%string.
Proof.
  intros Hn H. unfold unify_cat_name, cat_id.
  change ("concat_" ++ String.concat "_"%string ids)%string with ("concat" ++ String "_"%char (String.concat "_"%string ids))%string.
  rewrite Engine_Props.split_app, split_concat by assumption. reflexivity.
Qed.
(** Concatenations count as one exactly if they have the same inputs, in whatever order. *)
Theorem C159_names : forall a b, a <> [] -> b <> [] -> Forall plain a -> Forall plain b ->
  (unify_cat_name (cat_id a) = unify_cat_name (cat_id b) <-> Permutation a b).
Proof.
  intros a b Na Nb Ha Hb. rewrite !unify_eq by assumption. split.
  - intros E. assert (E1 : String.concat "_"%string (sort_str a) = String.concat "_"%string (sort_str b)) by (cbn in E; inversion E; reflexivity).
    assert (Ok' : forall l, l <> [] -> Forall plain l -> sort_str l <> [] /\ Forall plain (sort_str l)).
    { intros l N F. split.
      - intros E0. pose proof (sort_str_perm l) as P. rewrite E0 in P. apply Permutation_sym, Permutation_nil in P. auto.
      - rewrite Forall_forall in *. intros z Hz. apply F. apply (Permutation_in z (Permutation_sym (sort_str_perm l))). exact Hz. }
    destruct (Ok' a Na Ha) as [Na' Ha']. destruct (Ok' b Nb Hb) as [Nb' Hb'].
    apply (f_equal (Engine_Model.split "_"%char)) in E1. rewrite !split_concat in E1 by assumption.
    eapply Permutation_trans; [apply sort_str_perm|]. rewrite E1. apply Permutation_sym, sort_str_perm.
  - intros P. do 2 f_equal. apply sorted_unique; [apply sort_str_sorted|apply sort_str_sorted|].
    eapply Permutation_trans; [apply Permutation_sym, sort_str_perm|]. eapply Permutation_trans; [exact P|apply sort_str_perm].
Qed.
Print Assumptions C159_names.
(** The same two inputs in both orders are one node; with a third input it is another one. *)
Example C159_names_example :
  let s := fst (parse_list (fun _ => None) [[PConcat (cat_id ["12"; "7"]) []; PConcat (cat_id ["12"; "7"; "7"]) []]; [PConcat (cat_id ["7"; "12"]) []]]%string [] start) in
  s_graph s = [("cat_0", {| n_val := 0; n_prev := [("cat_1", 0)]; n_next := [] |}); ("cat_1", {| n_val := 0; n_prev := []; n_next := [("cat_0", 0)] |})]%string%nat.
Proof. reflexivity. Qed.
