(** Properties of Tracer_Model.v. *)
From Verif Require Import Prelude Tracer_Model.
Local Open Scope list_scope.

(** ** Specification *)

(** All routes from a node to an input that needs no gradient, as the layers on them; a route
    ends at a concatenation, which carries the routes of its parts. *)
Fixpoint all_routes (g : gfn) : list path :=
  match g with
  | GNone => [[]]
  | GConv n i gr p => map (cons (conv_node n i gr)) (all_routes p)
  | GLinear n p => map (cons (PLinear n)) (all_routes p)
  | GNorm n p => map (cons (PNorm n)) (all_routes p)
  | GCat id ps => [[PConcat id (map all_routes ps)]]
  | GOther ps => flat_map all_routes ps
  end.

(** Induction over graphs. *)
Section Ind.
Context (Q : gfn -> Prop).
Hypothesis HN : Q GNone.
Hypothesis HC : forall n i gr p, Q p -> Q (GConv n i gr p).
Hypothesis HL : forall n p, Q p -> Q (GLinear n p).
Hypothesis HM : forall n p, Q p -> Q (GNorm n p).
Hypothesis HT : forall id ps, Forall Q ps -> Q (GCat id ps).
Hypothesis HO : forall ps, Forall Q ps -> Q (GOther ps).
Fixpoint gfn_ind' (g : gfn) : Q g :=
  match g with
  | GNone => HN
  | GConv n i gr p => HC n i gr p (gfn_ind' p)
  | GLinear n p => HL n p (gfn_ind' p)
  | GNorm n p => HM n p (gfn_ind' p)
  | GCat id ps => HT id ps ((fix go l : Forall Q l :=
      match l with [] => Forall_nil _ | x :: r => Forall_cons _ (gfn_ind' x) (go r) end) ps)
  | GOther ps => HO ps ((fix go l : Forall Q l :=
      match l with [] => Forall_nil _ | x :: r => Forall_cons _ (gfn_ind' x) (go r) end) ps)
  end.
End Ind.

(** Names of the convolutions and linear layers of a graph. *)
Fixpoint layers (g : gfn) : list string :=
  match g with
  | GNone => []
  | GConv n _ _ p | GLinear n p => n :: layers p
  | GNorm _ p => layers p
  | GCat _ ps | GOther ps => flat_map layers ps
  end.
(** Normalisation layers are marked as visited as well. *)
Fixpoint norms (g : gfn) : list string :=
  match g with
  | GNone => []
  | GConv _ _ _ p | GLinear _ p => norms p
  | GNorm n p => n :: norms p
  | GCat _ ps | GOther ps => flat_map norms ps
  end.

(** No linear layer outside a concatenation. *)
Fixpoint quiet (g : gfn) : bool :=
  match g with
  | GNone => true
  | GConv _ _ _ p | GNorm _ p => quiet p
  | GLinear _ _ => false
  | GCat _ _ => true
  | GOther ps => forallb quiet ps
  end.
(** Linear layers occur only on the last branch of an operation. *)
Fixpoint linear_last (g : gfn) : bool :=
  match g with
  | GNone => true
  | GConv _ _ _ p | GNorm _ p | GLinear _ p => linear_last p
  | GCat _ ps => forallb linear_last ps
  | GOther ps =>
      (fix go (l : list gfn) : bool :=
         match l with
         | [] => true
         | x :: r => linear_last x && (match r with [] => true | _ => quiet x end) && go r
         end) ps
  end.

(** ** The two loops of the tracer *)
Lemma NoDup_app_inv : forall {A} (a b : list A), NoDup (a ++ b) ->
  NoDup a /\ NoDup b /\ forall x, In x a -> In x b -> False.
Proof.
  induction a as [|y a IH]; intros b N.
  - split; [constructor|]. split; [exact N|]. intros x [].
  - inversion N as [|? ? N1 N2]; subst. destruct (IH b N2) as (A1 & A2 & A3).
    split; [constructor; [|exact A1]; intro H; apply N1, in_app_iff; left; exact H|].
    split; [exact A2|]. intros x [->|H] Hb; [apply N1, in_app_iff; right; exact Hb|exact (A3 x H Hb)].
Qed.
Section T.
Context (shared : list string).
Fixpoint cat_loop (ps : list gfn) (v : list string) : list (list path) * list string :=
  match ps with
  | [] => ([], v)
  | p :: r => let '(_, s, v1) := trace shared p [] v in
              let '(ss, v2) := cat_loop r v1 in (s :: ss, v2)
  end.
Fixpoint other_loop (ps : list gfn) (cur : path) (v : list string) : path * list path * list string :=
  match ps with
  | [] => (cur, [], v)
  | p :: r => let '(c1, r1, v1) := trace shared p cur v in
              let '(c2, r2, v2) := other_loop r c1 v1 in (c2, r1 ++ r2, v2)
  end.
Lemma trace_cat : forall id ps cur vis, trace shared (GCat id ps) cur vis =
  let '(subs, v) := cat_loop ps vis in
  (removelast (cur ++ [PConcat id subs]), [cur ++ [PConcat id subs]], v).
Proof. reflexivity. Qed.
Lemma trace_other : forall ps cur vis, trace shared (GOther ps) cur vis = other_loop ps cur vis.
Proof. reflexivity. Qed.

Lemma mem_in : forall n l, mem n l = true <-> In n l.
Proof.
  intros n l. unfold mem. rewrite existsb_exists. split.
  - intros (x & H & E). apply String.eqb_eq in E. subst; exact H.
  - intro H. exists n. split; [exact H|apply String.eqb_refl].
Qed.
Lemma mem_not : forall n l, mem n l = false <-> ~ In n l.
Proof. intros. rewrite <- mem_in. destruct (mem n l); split; congruence. Qed.

(** A graph without linear layers leaves the current path as it was. *)
Lemma quiet_cur : forall g cur vis, quiet g = true -> fst (fst (trace shared g cur vis)) = cur.
Proof.
  induction g as [|n i gr p IH|n p IH|n p IH|id ps IH|ps IH] using gfn_ind'; intros cur vis Hq.
  - reflexivity.
  - cbn [trace]. destruct (mem n vis && negb (mem n shared)).
    + cbn [fst]. apply removelast_last.
    + specialize (IH (cur ++ [conv_node n i gr]) (n :: vis) Hq).
      destruct (trace shared p _ _) as [[c r] v]. cbn [fst] in *. rewrite IH. apply removelast_last.
  - discriminate.
  - cbn [trace]. specialize (IH (cur ++ [PNorm n]) (n :: vis) Hq).
    destruct (trace shared p _ _) as [[c r] v]. cbn [fst] in *. rewrite IH. apply removelast_last.
  - rewrite trace_cat. destruct (cat_loop ps vis). cbn [fst]. apply removelast_last.
  - rewrite trace_other. cbn [quiet] in Hq. revert cur vis.
    induction ps as [|p ps IHl]; intros cur vis; [reflexivity|].
    inversion IH as [|? ? I1 I2]; subst. cbn [forallb] in Hq. apply andb_prop in Hq as [Q1 Q2].
    specialize (IHl I2 Q2). cbn [other_loop]. specialize (I1 cur vis Q1).
    destruct (trace shared p cur vis) as [[c1 r1] v1]. cbn [fst] in I1. subst c1.
    specialize (IHl cur v1). destruct (other_loop ps cur v1) as [[c2 r2] v2]. exact IHl.
Qed.

(** ** Exactness when no layer is met twice *)

(** Layers that the tracer may cut at. *)
Definition once (l : list string) : list string := filter (fun n => negb (mem n shared)) l.
Lemma once_app : forall a b, once (a ++ b) = once a ++ once b.
Proof. intros. apply filter_app. Qed.
Lemma once_in : forall n l, In n (once l) <-> In n l /\ ~ In n shared.
Proof.
  intros. unfold once. rewrite filter_In, negb_true_iff, mem_not. reflexivity.
Qed.

(** The names visited by a trace are those of the graph. *)
Lemma visited_names : forall g cur vis n, In n (snd (trace shared g cur vis)) ->
  In n vis \/ In n (layers g) \/ In n (norms g).
Proof.
  induction g as [|m i gr p IH|m p IH|m p IH|id ps IH|ps IH] using gfn_ind'; intros cur vis n H.
  - left; exact H.
  - cbn [trace] in H. destruct (mem m vis && negb (mem m shared)); [left; exact H|].
    specialize (IH (cur ++ [conv_node m i gr]) (m :: vis) n).
    destruct (trace shared p _ _) as [[c r] v]. cbn [snd] in *. cbn [layers norms In] in *.
    specialize (IH H). cbn [In] in IH. tauto.
  - cbn [trace] in H. destruct (mem m vis && negb (mem m shared)); [left; exact H|].
    specialize (IH _ _ _ H). cbn [layers norms In] in *. tauto.
  - cbn [trace] in H. specialize (IH (cur ++ [PNorm m]) (m :: vis) n).
    destruct (trace shared p _ _) as [[c r] v]. cbn [snd] in *. specialize (IH H).
    cbn [layers norms In] in *. tauto.
  - rewrite trace_cat in H. cbn [layers norms].
    assert (G : In n (snd (cat_loop ps vis))) by (destruct (cat_loop ps vis); exact H). clear H.
    revert vis G. induction ps as [|p ps IHl]; intros vis G; [left; exact G|].
    inversion IH as [|? ? I1 I2]; subst. cbn [cat_loop flat_map] in *.
    specialize (I1 [] vis). destruct (trace shared p [] vis) as [[c s] v1]. cbn [snd] in I1.
    specialize (IHl I2 v1). destruct (cat_loop ps v1) as [ss v2]. cbn [snd] in *.
    rewrite !in_app_iff. specialize (IHl G). destruct IHl as [K|K]; [specialize (I1 _ K)|]; tauto.
  - rewrite trace_other in H. cbn [layers norms].
    revert cur vis H. induction ps as [|p ps IHl]; intros cur vis G; [left; exact G|].
    inversion IH as [|? ? I1 I2]; subst. cbn [other_loop flat_map] in *.
    specialize (I1 cur vis). destruct (trace shared p cur vis) as [[c s] v1]. cbn [snd] in I1.
    specialize (IHl I2 c v1). destruct (other_loop ps c v1) as [[c2 r2] v2]. cbn [snd] in *.
    rewrite !in_app_iff. specialize (IHl G). destruct IHl as [K|K]; [specialize (I1 _ K)|]; tauto.
Qed.

Definition apart (a b : list string) : Prop := forall n, In n a -> In n b -> False.

Lemma trace_exact : forall g cur vis, linear_last g = true ->
  NoDup (once (layers g)) -> apart (once (layers g)) vis -> apart (once (layers g)) (norms g) ->
  snd (fst (trace shared g cur vis)) = map (app cur) (all_routes g).
Proof.
  induction g as [|n i gr p IH|n p IH|n p IH|id ps IH|ps IH] using gfn_ind'; intros cur vis Hl Hn Ha Hm.
  - cbn. rewrite app_nil_r. reflexivity.
  - cbn [trace linear_last layers norms all_routes] in *.
    assert (C : mem n vis && negb (mem n shared) = false).
    { apply andb_false_iff. destruct (mem n shared) eqn:Es; [right; reflexivity|left]. apply mem_not.
      apply mem_not in Es. intro Hv. apply (Ha n); [|exact Hv]. apply once_in. split; [left; reflexivity|exact Es]. }
    rewrite C.
    assert (Nn : ~ In n shared -> ~ In n (once (layers p))).
    { intros Es. cbn [once filter] in Hn. rewrite (proj2 (mem_not n shared) Es) in Hn. cbn [negb] in Hn.
      inversion Hn; assumption. }
    assert (Hn' : NoDup (once (layers p))).
    { cbn [once filter] in Hn. destruct (mem n shared); cbn [negb] in Hn; [exact Hn|inversion Hn; assumption]. }
    assert (Sub : forall x, In x (once (layers p)) -> In x (once (n :: layers p))).
    { intros x Hx. apply once_in in Hx as [H1 H2]. apply once_in. split; [right; exact H1|exact H2]. }
    specialize (IH (cur ++ [conv_node n i gr]) (n :: vis) Hl Hn').
    destruct (trace shared p _ _) as [[c r] v]. cbn [fst snd] in *. rewrite IH.
    + rewrite map_map. apply map_ext. intro q. rewrite <- app_assoc. reflexivity.
    + intros x Hx [->|Hv]; [|exact (Ha x (Sub x Hx) Hv)].
      pose proof Hx as Hx'. apply once_in in Hx' as [_ Hs]. exact (Nn Hs Hx).
    + intros x Hx Hy. exact (Hm x (Sub x Hx) Hy).
  - cbn [trace linear_last layers norms all_routes] in *.
    assert (C : mem n vis && negb (mem n shared) = false).
    { apply andb_false_iff. destruct (mem n shared) eqn:Es; [right; reflexivity|left]. apply mem_not.
      apply mem_not in Es. intro Hv. apply (Ha n); [|exact Hv]. apply once_in. split; [left; reflexivity|exact Es]. }
    rewrite C.
    assert (Nn : ~ In n shared -> ~ In n (once (layers p))).
    { intros Es. cbn [once filter] in Hn. rewrite (proj2 (mem_not n shared) Es) in Hn. cbn [negb] in Hn.
      inversion Hn; assumption. }
    assert (Hn' : NoDup (once (layers p))).
    { cbn [once filter] in Hn. destruct (mem n shared); cbn [negb] in Hn; [exact Hn|inversion Hn; assumption]. }
    assert (Sub : forall x, In x (once (layers p)) -> In x (once (n :: layers p))).
    { intros x Hx. apply once_in in Hx as [H1 H2]. apply once_in. split; [right; exact H1|exact H2]. }
    rewrite (IH (cur ++ [PLinear n]) (n :: vis) Hl Hn').
    + rewrite map_map. apply map_ext. intro q. rewrite <- app_assoc. reflexivity.
    + intros x Hx [->|Hv]; [|exact (Ha x (Sub x Hx) Hv)].
      pose proof Hx as Hx'. apply once_in in Hx' as [_ Hs]. exact (Nn Hs Hx).
    + intros x Hx Hy. exact (Hm x (Sub x Hx) Hy).
  - cbn [trace linear_last layers norms all_routes] in *.
    specialize (IH (cur ++ [PNorm n]) (n :: vis) Hl Hn).
    destruct (trace shared p _ _) as [[c r] v]. cbn [fst snd] in *. rewrite IH.
    + rewrite map_map. apply map_ext. intro q. rewrite <- app_assoc. reflexivity.
    + intros x Hx [->|Hv]; [apply (Hm x Hx); left; reflexivity|exact (Ha x Hx Hv)].
    + intros x Hx Hy. apply (Hm x Hx). right; exact Hy.
  - rewrite trace_cat. cbn [layers norms linear_last all_routes] in *.
    assert (G : fst (cat_loop ps vis) = map all_routes ps).
    { clear cur. revert vis Ha. induction ps as [|p ps IHl]; intros vis Ha; [reflexivity|].
      inversion IH as [|? ? I1 I2]; subst. cbn [flat_map forallb cat_loop map] in *.
      apply andb_prop in Hl as [L1 L2]. rewrite once_app in Hn, Ha, Hm.
      destruct (NoDup_app_inv _ _ Hn) as (N1 & N2 & N3).
      specialize (I1 [] vis L1 N1).
      pose proof (visited_names p [] vis) as Vn.
      destruct (trace shared p [] vis) as [[c s] v1]. cbn [fst snd] in *.
      specialize (IHl I2 L2 N2).
      assert (I1' : s = map (app []) (all_routes p)).
      { apply I1. - intros x Hx Hv. apply (Ha x); [apply in_app_iff; left; exact Hx|exact Hv].
        - intros x Hx Hv. apply (Hm x); apply in_app_iff; left; assumption. }
      specialize (IHl ltac:(intros x Hx Hv; apply (Hm x); apply in_app_iff; right; assumption) v1).
      destruct (cat_loop ps v1) as [ss v2]. cbn [fst] in *. rewrite I1', IHl.
      - f_equal. rewrite <- map_id. apply map_ext. reflexivity.
      - intros x Hx Hv. destruct (Vn x Hv) as [K|[K|K]].
        + apply (Ha x); [apply in_app_iff; right; exact Hx|exact K].
        + apply (N3 x); [|exact Hx]. apply once_in. split; [exact K|]. apply once_in in Hx. tauto.
        + apply (Hm x); apply in_app_iff; [right; exact Hx|left; exact K]. }
    destruct (cat_loop ps vis) as [subs v]. cbn [fst snd] in *. subst subs. reflexivity.
  - rewrite trace_other. cbn [layers norms all_routes] in *.
    revert cur vis Ha. induction ps as [|p ps IHl]; intros cur vis Ha; [reflexivity|].
    inversion IH as [|? ? I1 I2]; subst. cbn [flat_map other_loop] in *.
    change (linear_last (GOther (p :: ps))) with
      (linear_last p && (match ps with [] => true | _ => quiet p end) && linear_last (GOther ps)) in Hl.
    apply andb_prop in Hl as [Hl L3]. apply andb_prop in Hl as [L1 L2].
    rewrite once_app in Hn, Ha, Hm. destruct (NoDup_app_inv _ _ Hn) as (N1 & N2 & N3).
    specialize (I1 cur vis L1 N1). pose proof (visited_names p cur vis) as Vn.
    pose proof (quiet_cur p cur vis) as Qc.
    destruct (trace shared p cur vis) as [[c r1] v1]. cbn [fst snd] in *.
    specialize (IHl I2 L3 N2 ltac:(intros x Hx Hv; apply (Hm x); apply in_app_iff; right; assumption)).
    assert (I1' : r1 = map (app cur) (all_routes p)).
    { apply I1. - intros x Hx Hv. apply (Ha x); [apply in_app_iff; left; exact Hx|exact Hv].
      - intros x Hx Hv. apply (Hm x); apply in_app_iff; left; assumption. }
    rewrite map_app. destruct ps as [|p2 ps].
    + cbn [other_loop fst snd flat_map map]. rewrite I1', !app_nil_r. reflexivity.
    + specialize (Qc L2). subst c. specialize (IHl cur v1).
      destruct (other_loop (p2 :: ps) cur v1) as [[c2 r2] v2]. cbn [fst snd] in *. rewrite I1'. f_equal.
      apply IHl. intros x Hx Hv. destruct (Vn x Hv) as [K|[K|K]].
      * apply (Ha x); [apply in_app_iff; right; exact Hx|exact K].
      * apply (N3 x); [|exact Hx]. apply once_in. split; [exact K|]. apply once_in in Hx. tauto.
      * apply (Hm x); apply in_app_iff; [right; exact Hx|left; exact K].
Qed.
End T.

(** Full claim: when no unshared layer is met twice, the traced paths are the routes. *)
Definition C53_routes_claim : Prop := forall shared g,
  NoDup (once shared (layers g)) -> apart (layers g) (norms g) -> traced shared g = all_routes g.

(** Two linear heads added up: the second path starts with the first head. *)
Theorem C53_routes_refuted : ~ C53_routes_claim.
Proof.
  intro H. specialize (H [] (GOther [GLinear "fc1" GNone; GLinear "fc2" GNone])).
  assert (E : traced [] (GOther [GLinear "fc1" GNone; GLinear "fc2" GNone]) =
              [[PLinear "fc1"]; [PLinear "fc1"; PLinear "fc2"]]) by reflexivity.
  rewrite E in H. discriminate H.
  - cbn. constructor; [intros [K|[]]; discriminate K|]. constructor; [intros []|constructor].
  - intros n _ [].
Qed.

(** It holds when linear layers occur on last branches only. *)
Theorem C53_routes_partial : forall shared g, linear_last g = true ->
  NoDup (once shared (layers g)) -> apart (layers g) (norms g) -> traced shared g = all_routes g.
Proof.
  intros shared g L N A. unfold traced. rewrite trace_exact; try assumption.
  - rewrite <- map_id. apply map_ext. reflexivity.
  - intros x _ [].
  - intros x Hx Hy. apply once_in in Hx as [Hx _]. exact (A x Hx Hy).
Qed.
(** A classifier: loss, linear, residual sum of two branches, one through a norm, and a
    concatenation. *)
Example C53_routes_ex :
  let g := GOther [GLinear "fc" (GOther [GConv "c1" 8 1 (GNorm "bn" GNone);
                     GCat "cat" [GConv "c2" 8 8 GNone; GConv "c3" 3 1 GNone]])] in
  linear_last g = true /\
  traced [] g = [[PLinear "fc"; PConv "c1"; PNorm "bn"];
                 [PLinear "fc"; PConcat "cat" [[[PDepthWise "c2"]]; [[PConv "c3"]]]]].
Proof. split; reflexivity. Qed.
(** A shared layer is traced each time. *)
Example C53_routes_shared_ex :
  let g := GOther [GConv "head" 8 1 (GConv "a" 8 1 GNone); GConv "head" 8 1 (GConv "b" 8 1 GNone)] in
  NoDup (once ["head"%string] (layers g)) /\
  traced ["head"%string] g = [[PConv "head"; PConv "a"]; [PConv "head"; PConv "b"]].
Proof.
  split; [|reflexivity]. cbn. constructor; [intros [K|[]]; discriminate K|]. constructor; [intros []|constructor].
Qed.

Print Assumptions C53_routes_refuted.
Print Assumptions C53_routes_partial.
