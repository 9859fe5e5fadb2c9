(** Neighbouring layers in the traced paths (Tracer_Model.v). *)
From Verif Require Import Prelude Tracer_Model Tracer_Props.
Local Open Scope list_scope.

(** ** Specification *)

Definition key : Type := kind * string.
Definition pkey (x : pnode) : key := (pkind x, pname x).
Definition conv_key (n : string) (i gr : Z) : key := pkey (conv_node n i gr).

(** The first layers met from a node. *)
Fixpoint starts (g : gfn) : list key :=
  match g with
  | GNone => []
  | GConv n i gr _ => [conv_key n i gr]
  | GLinear n _ => [(KLinear, n)]
  | GNorm n _ => [(KNorm, n)]
  | GCat id _ => [(KConcat, id)]
  | GOther ps => flat_map starts ps
  end.
(** Pairs of a layer and one feeding it with no layer in between. *)
Fixpoint edges (g : gfn) : list (key * key) :=
  match g with
  | GNone => []
  | GConv n i gr p => map (pair (conv_key n i gr)) (starts p) ++ edges p
  | GLinear n p => map (pair (KLinear, n)) (starts p) ++ edges p
  | GNorm n p => map (pair (KNorm, n)) (starts p) ++ edges p
  | GCat _ ps | GOther ps => flat_map edges ps
  end.
(** Two layers next to each other in a path or in one inside a concatenation. *)
Inductive neighbours (a b : key) : path -> Prop :=
| nb_here : forall l x y r, pkey x = a -> pkey y = b -> neighbours a b (l ++ x :: y :: r)
| nb_cat : forall l id subs r s q, In s subs -> In q s -> neighbours a b q ->
    neighbours a b (l ++ PConcat id subs :: r).

(** All nodes of a graph; a layer met again is the same node. *)
Fixpoint subs (g : gfn) : list gfn :=
  g :: match g with
       | GNone => []
       | GConv _ _ _ p | GLinear _ p | GNorm _ p => subs p
       | GCat _ ps | GOther ps => flat_map subs ps
       end.
Definition layer_name (g : gfn) : option string :=
  match g with GConv n _ _ _ | GLinear n _ => Some n | _ => None end.
Definition consistent (shared : list string) (g : gfn) : Prop :=
  forall x y n, In x (subs g) -> In y (subs g) -> layer_name x = Some n -> layer_name y = Some n ->
    ~ In n shared -> x = y.

(** ** Soundness: every recorded path follows the graph *)

(** Routes that may stop at a layer. *)
Inductive good : gfn -> path -> Prop :=
| good_none : good GNone []
| good_cut_conv : forall n i gr p, good (GConv n i gr p) [conv_node n i gr]
| good_conv : forall n i gr p q, good p q -> good (GConv n i gr p) (conv_node n i gr :: q)
| good_cut_lin : forall n p, good (GLinear n p) [PLinear n]
| good_lin : forall n p q, good p q -> good (GLinear n p) (PLinear n :: q)
| good_norm : forall n p q, good p q -> good (GNorm n p) (PNorm n :: q)
| good_cat : forall id ps subs, goods ps subs -> good (GCat id ps) [PConcat id subs]
| good_other : forall ps p q, In p ps -> good p q -> good (GOther ps) q
with goods : list gfn -> list (list path) -> Prop :=
| goods_nil : goods [] []
| goods_cons : forall p ps s ss, (forall q, In q s -> good p q) -> goods ps ss -> goods (p :: ps) (s :: ss).

Section T.
Context (shared : list string).

Lemma trace_good : forall g cur vis, linear_last g = true ->
  forall path, In path (snd (fst (trace shared g cur vis))) -> exists q, path = cur ++ q /\ good g q.
Proof.
  induction g as [|n i gr p IH|n p IH|n p IH|id ps IH|ps IH] using gfn_ind'; intros cur vis Hl path Hp.
  - destruct Hp as [<-|[]]. exists []. split; [symmetry; apply app_nil_r|constructor].
  - cbn [trace] in Hp. destruct (mem n vis && negb (mem n shared)).
    + destruct Hp as [<-|[]]. eexists; split; [reflexivity|constructor].
    + specialize (IH (cur ++ [conv_node n i gr]) (n :: vis) Hl path).
      destruct (trace shared p _ _) as [[c r] v]. cbn [fst snd] in *.
      destruct (IH Hp) as (q & -> & Gq). exists (conv_node n i gr :: q).
      split; [rewrite <- app_assoc; reflexivity|constructor; exact Gq].
  - cbn [trace] in Hp. destruct (mem n vis && negb (mem n shared)).
    + destruct Hp as [<-|[]]. eexists; split; [reflexivity|constructor].
    + destruct (IH _ _ Hl path Hp) as (q & -> & Gq). exists (PLinear n :: q).
      split; [rewrite <- app_assoc; reflexivity|constructor; exact Gq].
  - cbn [trace] in Hp. specialize (IH (cur ++ [PNorm n]) (n :: vis) Hl path).
    destruct (trace shared p _ _) as [[c r] v]. cbn [fst snd] in *.
    destruct (IH Hp) as (q & -> & Gq). exists (PNorm n :: q).
    split; [rewrite <- app_assoc; reflexivity|constructor; exact Gq].
  - rewrite trace_cat in Hp.
    assert (G : goods ps (fst (cat_loop shared ps vis))).
    { clear Hp. revert vis. cbn [linear_last] in Hl. induction ps as [|p ps IHl]; intro vis; [constructor|].
      inversion IH as [|? ? I1 I2]; subst. cbn [forallb] in Hl. apply andb_prop in Hl as [L1 L2].
      cbn [cat_loop]. specialize (I1 [] vis L1). destruct (trace shared p [] vis) as [[c s] v1].
      specialize (IHl I2 L2 v1). destruct (cat_loop shared ps v1) as [ss v2]. cbn [fst snd] in *.
      constructor; [|exact IHl]. intros q Hq. destruct (I1 q Hq) as (q' & -> & Gq). exact Gq. }
    destruct (cat_loop shared ps vis) as [ss v]. cbn [fst snd] in *. destruct Hp as [<-|[]].
    eexists; split; [reflexivity|constructor; exact G].
  - rewrite trace_other in Hp.
    assert (G : exists p q, In p ps /\ path = cur ++ q /\ good p q).
    { revert cur vis Hp. induction ps as [|p ps IHl]; intros cur vis Hp; [destruct Hp|].
      inversion IH as [|? ? I1 I2]; subst. cbn [other_loop] in Hp.
      change (linear_last (GOther (p :: ps))) with
        (linear_last p && (match ps with [] => true | _ => quiet p end) && linear_last (GOther ps)) in Hl.
      apply andb_prop in Hl as [Hl L3]. apply andb_prop in Hl as [L1 L2].
      specialize (I1 cur vis L1 path). pose proof (quiet_cur shared p cur vis) as Qc.
      destruct (trace shared p cur vis) as [[c r1] v1]. cbn [fst snd] in *.
      specialize (IHl I2 L3 c v1).
      destruct (other_loop shared ps c v1) as [[c2 r2] v2] eqn:Eo. cbn [fst snd] in *.
      apply in_app_iff in Hp as [Hp|Hp].
      - destruct (I1 Hp) as (q & E & Gq). exists p, q. split; [left; reflexivity|split; assumption].
      - destruct ps as [|p2 ps]; [cbn in Eo; injection Eo as <- <- <-; destruct Hp|].
        specialize (Qc L2). subst c. destruct (IHl Hp) as (p' & q & Hi & E & Gq).
        exists p', q. split; [right; exact Hi|split; assumption]. }
    destruct G as (p & q & Hi & -> & Gq). exists q. split; [reflexivity|econstructor; eassumption].
Qed.
End T.

Lemma good_head : forall g q, good g q -> forall x r, q = x :: r -> In (pkey x) (starts g).
Proof.
  induction g as [|n i gr p IH|n p IH|n p IH|id ps IH|ps IH] using gfn_ind'; intros q G x r E;
    inversion G; subst; try discriminate;
    try (match goal with H : _ :: _ = _ :: _ |- _ => injection H as <- <- end);
    try (left; reflexivity).
  cbn [starts]. apply in_flat_map. rewrite Forall_forall in IH. eexists; split; [eassumption|].
  eapply IH; eauto.
Qed.

Lemma neighbours_cons : forall a b x q, neighbours a b (x :: q) ->
  (exists y r, q = y :: r /\ pkey x = a /\ pkey y = b) \/ neighbours a b q \/
  (exists id subs s q', x = PConcat id subs /\ In s subs /\ In q' s /\ neighbours a b q').
Proof.
  intros a b x q H. inversion H as [l x' y r Ka Kb E|l id ss r s q' Hs Hq Hn E].
  - destruct l as [|z l]; cbn [app] in E; injection E as <- <-.
    + left. exists y, r. repeat split; assumption.
    + right; left. constructor; assumption.
  - destruct l as [|z l]; cbn [app] in E; injection E as <- <-.
    + right; right. exists id, ss, s, q'. repeat split; assumption.
    + right; left. econstructor; eassumption.
Qed.
Lemma neighbours_nil : forall a b, ~ neighbours a b [].
Proof. intros a b H. inversion H as [l ? ? ? ? ? E|l ? ? ? ? ? ? ? ? E]; destruct l; discriminate E. Qed.

Lemma goods_in : forall ps ss, goods ps ss -> forall s, In s ss -> exists p, In p ps /\ forall q, In q s -> good p q.
Proof.
  induction 1 as [|p ps s ss H G IH]; intros t Ht; [destruct Ht|].
  destruct Ht as [<-|Ht]; [exists p; split; [left; reflexivity|exact H]|].
  destruct (IH t Ht) as (p' & Hi & Hp). exists p'. split; [right; exact Hi|exact Hp].
Qed.

Lemma good_edges : forall g q a b, good g q -> neighbours a b q -> In (a, b) (edges g).
Proof.
  induction g as [|n i gr p IH|n p IH|n p IH|id ps IH|ps IH] using gfn_ind'; intros q a b G N;
    inversion G; subst; try (exfalso; exact (neighbours_nil _ _ N)).
  - apply neighbours_cons in N as [(y & r & E & _)|[N|(id & ss & s & q' & E & _)]].
    + discriminate. + exfalso; exact (neighbours_nil _ _ N).
    + unfold conv_node in E; destruct (i =? gr); discriminate.
  - apply neighbours_cons in N as [(y & r & E & Ka & Kb)|[N|(id & ss & s & q' & E & _)]].
    + subst. cbn [edges]. apply in_app_iff; left. apply in_map_iff. exists (pkey y). split; [reflexivity|].
      eapply good_head; [eassumption|reflexivity].
    + cbn [edges]. apply in_app_iff; right. eapply IH; eassumption.
    + unfold conv_node in E; destruct (i =? gr); discriminate.
  - apply neighbours_cons in N as [(y & r & E & _)|[N|(id & ss & s & q' & E & _)]]; try discriminate.
    exfalso; exact (neighbours_nil _ _ N).
  - apply neighbours_cons in N as [(y & r & E & Ka & Kb)|[N|(id & ss & s & q' & E & _)]]; try discriminate.
    + subst. cbn [edges]. apply in_app_iff; left. apply in_map_iff. exists (pkey y). split; [reflexivity|].
      eapply good_head; [eassumption|reflexivity].
    + cbn [edges]. apply in_app_iff; right. eapply IH; eassumption.
  - apply neighbours_cons in N as [(y & r & E & Ka & Kb)|[N|(id & ss & s & q' & E & _)]]; try discriminate.
    + subst. cbn [edges]. apply in_app_iff; left. apply in_map_iff. exists (pkey y). split; [reflexivity|].
      eapply good_head; [eassumption|reflexivity].
    + cbn [edges]. apply in_app_iff; right. eapply IH; eassumption.
  - apply neighbours_cons in N as [(y & r & E & _)|[N|(id' & ss & s & q' & E & Hs & Hq & Hn)]]; try discriminate.
    + exfalso; exact (neighbours_nil _ _ N).
    + injection E as <- <-. match goal with H : goods _ _ |- _ => destruct (goods_in _ _ H s Hs) as (p & Hi & Hp) end.
      cbn [edges]. apply in_flat_map. exists p. split; [exact Hi|].
      rewrite Forall_forall in IH. eapply IH; [exact Hi|exact (Hp _ Hq)|exact Hn].
  - cbn [edges]. apply in_flat_map. rewrite Forall_forall in IH. eexists; split; [eassumption|]. eapply IH; eassumption.
Qed.

(** ** Completeness: every edge is recorded *)
Definition covered (rs : list path) (e : key * key) : Prop := exists p, In p rs /\ neighbours (fst e) (snd e) p.

Lemma neighbours_app : forall a b l q, neighbours a b q -> neighbours a b (l ++ q).
Proof.
  intros a b l q H. inversion H; subst; rewrite app_assoc.
  - apply nb_here; reflexivity.
  - eapply nb_cat; eassumption.
Qed.

(** A route to an input exists; [live]: from every layer. *)
Fixpoint reaches (g : gfn) : bool :=
  match g with
  | GNone => true
  | GConv _ _ _ p | GLinear _ p | GNorm _ p => reaches p
  | GCat _ _ => true
  | GOther ps => existsb reaches ps
  end.
Fixpoint live (g : gfn) : bool :=
  match g with
  | GNone => true
  | GConv _ _ _ p | GLinear _ p | GNorm _ p => reaches p && live p
  | GCat _ ps | GOther ps => forallb live ps
  end.

Section U.
Context (shared : list string).

Lemma other_split : forall ps cur vis p, linear_last (GOther ps) = true -> In p ps ->
  exists v, (forall path, In path (snd (fst (trace shared p cur v))) ->
               In path (snd (fst (other_loop shared ps cur vis)))) /\
            linear_last p = true.
Proof.
  induction ps as [|p0 ps IH]; intros cur vis p Hl Hi; [destruct Hi|].
  change (linear_last (GOther (p0 :: ps))) with
    (linear_last p0 && (match ps with [] => true | _ => quiet p0 end) && linear_last (GOther ps)) in Hl.
  apply andb_prop in Hl as [Hl L3]. apply andb_prop in Hl as [L1 L2].
  cbn [other_loop]. pose proof (quiet_cur shared p0 cur vis) as Qc.
  destruct Hi as [->|Hi].
  - exists vis. split; [|exact L1]. intros path Hp. destruct (trace shared p cur vis) as [[c r1] v1].
    destruct (other_loop shared ps c v1) as [[c2 r2] v2]. cbn [fst snd] in *. apply in_app_iff; left; exact Hp.
  - destruct ps as [|p2 ps]; [destruct Hi|]. specialize (Qc L2).
    destruct (trace shared p0 cur vis) as [[c r1] v1]. cbn [fst snd] in *. subst c.
    destruct (IH cur v1 p L3 Hi) as (v & Hv & Lp). exists v. split; [|exact Lp].
    intros path Hp. specialize (Hv path Hp).
    destruct (other_loop shared (p2 :: ps) cur v1) as [[c2 r2] v2]. cbn [fst snd] in *.
    apply in_app_iff; right; exact Hv.
Qed.

Lemma trace_nonempty : forall g cur vis, linear_last g = true -> reaches g = true ->
  exists path, In path (snd (fst (trace shared g cur vis))).
Proof.
  induction g as [|n i gr p IH|n p IH|n p IH|id ps IH|ps IH] using gfn_ind'; intros cur vis Hl Hr.
  - eexists; left; reflexivity.
  - cbn [trace]. destruct (mem n vis && negb (mem n shared)); [eexists; left; reflexivity|].
    destruct (IH (cur ++ [conv_node n i gr]) (n :: vis) Hl Hr) as (q & Hq).
    destruct (trace shared p _ _) as [[c r] v]. exists q. exact Hq.
  - cbn [trace]. destruct (mem n vis && negb (mem n shared)); [eexists; left; reflexivity|].
    exact (IH (cur ++ [PLinear n]) (n :: vis) Hl Hr).
  - cbn [trace]. destruct (IH (cur ++ [PNorm n]) (n :: vis) Hl Hr) as (q & Hq).
    destruct (trace shared p _ _) as [[c r] v]. exists q. exact Hq.
  - rewrite trace_cat. destruct (cat_loop shared ps vis). eexists; left; reflexivity.
  - rewrite trace_other. cbn [reaches] in Hr. apply existsb_exists in Hr as (p & Hi & Hp).
    destruct (other_split ps cur vis p Hl Hi) as (v & Hv & Lp).
    rewrite Forall_forall in IH. destruct (IH p Hi cur v Lp Hp) as (q & Hq). exists q. exact (Hv q Hq).
Qed.

(** Every first layer is recorded right after the current path. *)
Lemma trace_starts : forall g cur vis k, linear_last g = true -> live g = true -> In k (starts g) ->
  exists x r, pkey x = k /\ In (cur ++ x :: r) (snd (fst (trace shared g cur vis))).
Proof.
  assert (Aux : forall p cur vis x, linear_last p = true -> reaches p = true ->
     exists r, In (cur ++ x :: r) (snd (fst (trace shared p (cur ++ [x]) vis)))).
  { intros p cur vis x Hl Hr. destruct (trace_nonempty p (cur ++ [x]) vis Hl Hr) as (q & Hq).
    destruct (trace_good shared p _ _ Hl q Hq) as (q' & -> & _). exists q'.
    rewrite <- app_assoc in Hq. exact Hq. }
  induction g as [|n i gr p IH|n p IH|n p IH|id ps IH|ps IH] using gfn_ind'; intros cur vis k Hl Hv Hk;
    cbn [starts live linear_last] in *.
  - destruct Hk.
  - destruct Hk as [<-|[]]. apply andb_prop in Hv as [Hr _]. cbn [trace].
    destruct (mem n vis && negb (mem n shared)).
    + exists (conv_node n i gr), []. split; [reflexivity|left; reflexivity].
    + destruct (Aux p cur (n :: vis) (conv_node n i gr) Hl Hr) as (r & Hr').
      destruct (trace shared p _ _) as [[c rs] v]. exists (conv_node n i gr), r. split; [reflexivity|exact Hr'].
  - destruct Hk as [<-|[]]. apply andb_prop in Hv as [Hr _]. cbn [trace].
    destruct (mem n vis && negb (mem n shared)).
    + exists (PLinear n), []. split; [reflexivity|left; reflexivity].
    + destruct (Aux p cur (n :: vis) (PLinear n) Hl Hr) as (r & Hr').
      exists (PLinear n), r. split; [reflexivity|exact Hr'].
  - destruct Hk as [<-|[]]. apply andb_prop in Hv as [Hr _]. cbn [trace].
    destruct (Aux p cur (n :: vis) (PNorm n) Hl Hr) as (r & Hr').
    destruct (trace shared p _ _) as [[c rs] v]. exists (PNorm n), r. split; [reflexivity|exact Hr'].
  - destruct Hk as [<-|[]]. rewrite trace_cat. destruct (cat_loop shared ps vis) as [ss v].
    exists (PConcat id ss), []. split; [reflexivity|left; reflexivity].
  - rewrite trace_other. apply in_flat_map in Hk as (p & Hi & Hk).
    destruct (other_split ps cur vis p Hl Hi) as (v & Hp & Lp).
    rewrite Forall_forall in IH. rewrite forallb_forall in Hv.
    destruct (IH p Hi cur v k Lp (Hv p Hi) Hk) as (x & r & Ex & Hx). exists x, r. split; [exact Ex|exact (Hp _ Hx)].
Qed.
End U.

(** *** Sizes: a node does not occur strictly inside itself *)
Fixpoint size (g : gfn) : nat :=
  match g with
  | GNone => 1
  | GConv _ _ _ p | GLinear _ p | GNorm _ p => S (size p)
  | GCat _ ps | GOther ps => S (list_sum (map size ps))
  end%nat.
Lemma size_in : forall ps p, In p ps -> (size p <= list_sum (map size ps))%nat.
Proof.
  induction ps as [|x ps IH]; intros p H; [destruct H|]. cbn [map list_sum fold_right].
  change (fold_right Nat.add 0%nat (map size ps)) with (list_sum (map size ps)).
  destruct H as [->|H]; [lia|]. specialize (IH p H). lia.
Qed.
Lemma subs_size : forall g x, In x (subs g) -> (size x <= size g)%nat.
Proof.
  induction g as [|n i gr p IH|n p IH|n p IH|id ps IH|ps IH] using gfn_ind'; intros x H;
    cbn [subs] in H; destruct H as [<-|H]; try lia; try (destruct H); cbn [size];
    try (specialize (IH x H); lia);
    apply in_flat_map in H as (p & Hi & Hx); rewrite Forall_forall in IH; specialize (IH p Hi x Hx);
    pose proof (size_in ps p Hi); lia.
Qed.
Lemma subs_refl : forall g, In g (subs g).
Proof. destruct g; left; reflexivity. Qed.
Lemma subs_trans : forall g x y, In x (subs g) -> In y (subs x) -> In y (subs g).
Proof.
  induction g as [|n i gr p IH|n p IH|n p IH|id ps IH|ps IH] using gfn_ind'; intros x y Hx Hy;
    cbn [subs] in Hx; destruct Hx as [<-|Hx]; try exact Hy; try (destruct Hx); cbn [subs]; right;
    try (eapply IH; eassumption);
    apply in_flat_map in Hx as (p & Hi & Hx); rewrite Forall_forall in IH;
    apply in_flat_map; exists p; (split; [exact Hi|]); eapply IH; eassumption.
Qed.
Lemma subs_edges : forall g x e, In x (subs g) -> In e (edges x) -> In e (edges g).
Proof.
  induction g as [|n i gr p IH|n p IH|n p IH|id ps IH|ps IH] using gfn_ind'; intros x e Hx He;
    cbn [subs] in Hx; destruct Hx as [<-|Hx]; try exact He; try (destruct Hx); cbn [edges];
    try (apply in_app_iff; right; eapply IH; eassumption);
    apply in_flat_map in Hx as (p & Hi & Hx); rewrite Forall_forall in IH;
    apply in_flat_map; exists p; (split; [exact Hi|]); eapply IH; eassumption.
Qed.
Lemma layers_subs : forall g n, In n (layers g) -> exists x, In x (subs g) /\ layer_name x = Some n.
Proof.
  induction g as [|m i gr p IH|m p IH|m p IH|id ps IH|ps IH] using gfn_ind'; intros n H; cbn [layers] in H.
  - destruct H.
  - destruct H as [<-|H]; [eexists; split; [apply subs_refl|reflexivity]|].
    destruct (IH n H) as (x & Hx & E). exists x. split; [right; exact Hx|exact E].
  - destruct H as [<-|H]; [eexists; split; [apply subs_refl|reflexivity]|].
    destruct (IH n H) as (x & Hx & E). exists x. split; [right; exact Hx|exact E].
  - destruct (IH n H) as (x & Hx & E). exists x. split; [right; exact Hx|exact E].
  - apply in_flat_map in H as (p & Hi & H). rewrite Forall_forall in IH.
    destruct (IH p Hi n H) as (x & Hx & E). exists x. split; [|exact E]. right. apply in_flat_map. exists p. split; assumption.
  - apply in_flat_map in H as (p & Hi & H). rewrite Forall_forall in IH.
    destruct (IH p Hi n H) as (x & Hx & E). exists x. split; [|exact E]. right. apply in_flat_map. exists p. split; assumption.
Qed.
Lemma norms_not_layer : forall (g : gfn) n, In n (norms g) -> exists p, In (GNorm n p) (subs g).
Proof.
  induction g as [|m i gr p IH|m p IH|m p IH|id ps IH|ps IH] using gfn_ind'; intros n H; cbn [norms] in H.
  - destruct H.
  - destruct (IH n H) as (x & Hx). exists x. right; exact Hx.
  - destruct (IH n H) as (x & Hx). exists x. right; exact Hx.
  - destruct H as [<-|H]; [exists p; left; reflexivity|].
    destruct (IH n H) as (x & Hx). exists x. right; exact Hx.
  - apply in_flat_map in H as (p & Hi & H). rewrite Forall_forall in IH.
    destruct (IH p Hi n H) as (x & Hx). exists x. right. apply in_flat_map. exists p. split; assumption.
  - apply in_flat_map in H as (p & Hi & H). rewrite Forall_forall in IH.
    destruct (IH p Hi n H) as (x & Hx). exists x. right. apply in_flat_map. exists p. split; assumption.
Qed.

(** *** The invariant *)
Section V.
Context (shared : list string) (root : gfn).
Hypothesis Cons : consistent shared root.
Hypothesis Apart : apart (layers root) (norms root).

(** Edges below an already visited, unshared layer of [g]. *)
Definition earlier (vis : list string) (g : gfn) (e : key * key) : Prop :=
  exists x n, In x (subs g) /\ layer_name x = Some n /\ ~ In n shared /\ In n vis /\ In e (edges x).
Definition done (g : gfn) (rs : list path) (vis : list string) : Prop :=
  forall e, In e (edges g) -> covered rs e \/ earlier vis g e.

Lemma covered_mono : forall rs rs' e, (forall p, In p rs -> In p rs') -> covered rs e -> covered rs' e.
Proof. intros rs rs' e H (p & Hi & Hp). exists p. split; [apply H; exact Hi|exact Hp]. Qed.

Lemma layers_mono : forall g x n, In x (subs g) -> In n (layers x) -> In n (layers g).
Proof.
  induction g as [|m i gr p IH|m p IH|m p IH|id ps IH|ps IH] using gfn_ind'; intros x n Hx Hn;
    cbn [subs] in Hx; destruct Hx as [<-|Hx]; try exact Hn; try (destruct Hx); cbn [layers];
    try (right; eapply IH; eassumption); try (eapply IH; eassumption);
    apply in_flat_map in Hx as (p & Hi & Hx); rewrite Forall_forall in IH;
    apply in_flat_map; exists p; (split; [exact Hi|]); eapply IH; eassumption.
Qed.
Lemma norms_mono : forall g x n, In x (subs g) -> In n (norms x) -> In n (norms g).
Proof.
  induction g as [|m i gr p IH|m p IH|m p IH|id ps IH|ps IH] using gfn_ind'; intros x n Hx Hn;
    cbn [subs] in Hx; destruct Hx as [<-|Hx]; try exact Hn; try (destruct Hx); cbn [norms];
    try (right; eapply IH; eassumption); try (eapply IH; eassumption);
    apply in_flat_map in Hx as (p & Hi & Hx); rewrite Forall_forall in IH;
    apply in_flat_map; exists p; (split; [exact Hi|]); eapply IH; eassumption.
Qed.
Lemma layer_in_layers : forall x n, layer_name x = Some n -> In n (layers x).
Proof. intros [] n E; cbn in E; try discriminate; injection E as <-; left; reflexivity. Qed.

(** Two siblings traced one after the other: what the first visited, its records cover. *)
Lemma sibling : forall p1 p2 r1 vis v1 e,
  In p1 (subs root) -> In p2 (subs root) -> done p1 r1 vis ->
  (forall n, In n v1 -> In n vis \/ In n (layers p1) \/ In n (norms p1)) ->
  earlier v1 p2 e -> covered r1 e \/ earlier vis p1 e \/ earlier vis p2 e.
Proof.
  intros p1 p2 r1 vis v1 e S1 S2 D1 Hv (x & n & Hx & En & Hs & Hn & Hex).
  destruct (Hv n Hn) as [K|[K|K]].
  - right; right. exists x, n. repeat split; assumption.
  - destruct (layers_subs p1 n K) as (y & Hy & Ey).
    assert (x = y) by (eapply (Cons x y n); try eassumption; [exact (subs_trans _ _ _ S2 Hx)|exact (subs_trans _ _ _ S1 Hy)]).
    subst y. destruct (D1 e (subs_edges _ _ _ Hy Hex)) as [C|E1]; [left; exact C|right; left; exact E1].
  - exfalso. apply (Apart n).
    + apply (layers_mono root x); [exact (subs_trans _ _ _ S2 Hx)|apply layer_in_layers; exact En].
    + apply (norms_mono root p1); [exact S1|exact K].
Qed.

(** Below an unshared layer there is no other occurrence of it. *)
Lemma no_self : forall g p n e vis, In g (subs root) -> layer_name g = Some n ->
  (forall x, In x (subs p) -> In x (subs g) /\ (size x < size g)%nat) ->
  earlier (n :: vis) p e -> earlier vis g e.
Proof.
  intros g p n e vis Sg En Hp (x & m & Hx & Em & Hs & Hm & He).
  destruct (Hp x Hx) as [Hxg Hsz]. destruct Hm as [<-|Hm].
  - exfalso. assert (x = g) by (eapply (Cons x g n); try eassumption; exact (subs_trans _ _ _ Sg Hxg)).
    subst x. lia.
  - exists x, m. repeat split; assumption.
Qed.

Lemma trace_done : forall g cur vis, In g (subs root) -> linear_last g = true -> live g = true ->
  done g (snd (fst (trace shared g cur vis))) vis.
Proof.
  induction g as [|n i gr p IH|n p IH|n p IH|id ps IH|ps IH] using gfn_ind'; intros cur vis Sg Hl Hv e He.
  - destruct He.
  - assert (Sp : In p (subs root)) by (apply (subs_trans _ _ _ Sg); right; apply subs_refl).
    cbn [trace linear_last live edges] in *. apply andb_prop in Hv as [Hr Hv].
    destruct (mem n vis && negb (mem n shared)) eqn:C.
    + right. apply andb_prop in C as [C1 C2]. apply mem_in in C1. apply negb_true_iff, mem_not in C2.
      exists (GConv n i gr p), n. repeat split; try assumption. apply subs_refl.
    + specialize (IH (cur ++ [conv_node n i gr]) (n :: vis) Sp Hl Hv).
      pose proof (trace_starts shared p (cur ++ [conv_node n i gr]) (n :: vis)) as St.
      destruct (trace shared p _ _) as [[c r] v]. cbn [fst snd] in *.
      apply in_app_iff in He as [He|He].
      * left. apply in_map_iff in He as (k & <- & Hk). destruct (St k Hl Hv Hk) as (x & q & Ex & Hq).
        exists ((cur ++ [conv_node n i gr]) ++ x :: q). split; [exact Hq|].
        rewrite <- app_assoc. apply nb_here; [reflexivity|exact Ex].
      * destruct (IH e He) as [K|K]; [left; exact K|right].
        apply (no_self _ p n); try assumption; try reflexivity.
        intros x Hx. split; [right; exact Hx|]. apply subs_size in Hx. cbn [size]. lia.
  - assert (Sp : In p (subs root)) by (apply (subs_trans _ _ _ Sg); right; apply subs_refl).
    cbn [trace linear_last live edges] in *. apply andb_prop in Hv as [Hr Hv].
    destruct (mem n vis && negb (mem n shared)) eqn:C.
    + right. apply andb_prop in C as [C1 C2]. apply mem_in in C1. apply negb_true_iff, mem_not in C2.
      exists (GLinear n p), n. repeat split; try assumption. apply subs_refl.
    + specialize (IH (cur ++ [PLinear n]) (n :: vis) Sp Hl Hv).
      pose proof (trace_starts shared p (cur ++ [PLinear n]) (n :: vis)) as St.
      apply in_app_iff in He as [He|He].
      * left. apply in_map_iff in He as (k & <- & Hk). destruct (St k Hl Hv Hk) as (x & q & Ex & Hq).
        exists ((cur ++ [PLinear n]) ++ x :: q). split; [exact Hq|].
        rewrite <- app_assoc. apply nb_here; [reflexivity|exact Ex].
      * destruct (IH e He) as [K|K]; [left; exact K|right].
        apply (no_self _ p n); try assumption; try reflexivity.
        intros x Hx. split; [right; exact Hx|]. apply subs_size in Hx. cbn [size]. lia.
  - assert (Sp : In p (subs root)) by (apply (subs_trans _ _ _ Sg); right; apply subs_refl).
    cbn [trace linear_last live edges] in *. apply andb_prop in Hv as [Hr Hv].
    specialize (IH (cur ++ [PNorm n]) (n :: vis) Sp Hl Hv).
    pose proof (trace_starts shared p (cur ++ [PNorm n]) (n :: vis)) as St.
    destruct (trace shared p _ _) as [[c r] v]. cbn [fst snd] in *.
    apply in_app_iff in He as [He|He].
    + left. apply in_map_iff in He as (k & <- & Hk). destruct (St k Hl Hv Hk) as (x & q & Ex & Hq).
      exists ((cur ++ [PNorm n]) ++ x :: q). split; [exact Hq|].
      rewrite <- app_assoc. apply nb_here; [reflexivity|exact Ex].
    + destruct (IH e He) as [K|(x & m & Hx & Em & Hs & Hm & Hex)]; [left; exact K|right].
      destruct Hm as [<-|Hm].
      * exfalso. apply (Apart n).
        -- apply (layers_mono root x); [exact (subs_trans _ _ _ Sp Hx)|apply layer_in_layers; exact Em].
        -- apply (norms_mono root (GNorm n p)); [exact Sg|left; reflexivity].
      * exists x, m. repeat split; try assumption. right; exact Hx.
  - assert (Sp : forall p, In p ps -> In p (subs root)).
    { intros p Hp. apply (subs_trans _ _ _ Sg). right. apply in_flat_map. exists p. split; [exact Hp|apply subs_refl]. }
    rewrite trace_cat. cbn [linear_last live edges] in *.
    assert (G : (exists s, In s (fst (cat_loop shared ps vis)) /\ covered s e) \/
                exists p, In p ps /\ earlier vis p e).
    { clear Sg. revert vis He. induction ps as [|p ps IHl]; intros vis He; [destruct He|].
      inversion IH as [|? ? I1 I2]; subst. cbn [forallb flat_map cat_loop] in *.
      apply andb_prop in Hl as [L1 L2]. apply andb_prop in Hv as [V1 V2].
      specialize (I1 [] vis (Sp p (or_introl eq_refl)) L1 V1).
      pose proof (visited_names shared p [] vis) as Vn.
      destruct (trace shared p [] vis) as [[c s] v1]. cbn [fst snd] in *.
      specialize (IHl I2 L2 V2 (fun q Hq => Sp q (or_intror Hq)) v1).
      destruct (cat_loop shared ps v1) as [ss v2]. cbn [fst snd] in *.
      apply in_app_iff in He as [He|He].
      - destruct (I1 e He) as [K|K]; [left; exists s; split; [left; reflexivity|exact K]|].
        right. exists p. split; [left; reflexivity|exact K].
      - destruct (IHl He) as [(t & Ht & K)|(p2 & Hp2 & K)];
          [left; exists t; split; [right; exact Ht|exact K]|].
        destruct (sibling p p2 s vis v1 e (Sp p (or_introl eq_refl)) (Sp p2 (or_intror Hp2)) I1 Vn K) as [K'|[K'|K']].
        + left; exists s; split; [left; reflexivity|exact K'].
        + right; exists p; split; [left; reflexivity|exact K'].
        + right; exists p2; split; [right; exact Hp2|exact K']. }
    destruct (cat_loop shared ps vis) as [ss v]. cbn [fst snd] in *.
    destruct G as [(s & Hs & q & Hq & Nq)|(p & Hp & x & m & Hx & K)].
    + left. exists (cur ++ [PConcat id ss]). split; [left; reflexivity|]. eapply nb_cat; eassumption.
    + right. exists x, m. split; [|exact K]. right. apply in_flat_map. exists p. split; assumption.
  - assert (Sp : forall p, In p ps -> In p (subs root)).
    { intros p Hp. apply (subs_trans _ _ _ Sg). right. apply in_flat_map. exists p. split; [exact Hp|apply subs_refl]. }
    rewrite trace_other. cbn [live edges] in *.
    assert (G : covered (snd (fst (other_loop shared ps cur vis))) e \/ exists p, In p ps /\ earlier vis p e).
    { clear Sg. revert cur vis He. induction ps as [|p ps IHl]; intros cur vis He; [destruct He|].
      inversion IH as [|? ? I1 I2]; subst. cbn [forallb flat_map other_loop] in *.
      change (linear_last (GOther (p :: ps))) with
        (linear_last p && (match ps with [] => true | _ => quiet p end) && linear_last (GOther ps)) in Hl.
      apply andb_prop in Hl as [Hl L3]. apply andb_prop in Hl as [L1 L2]. apply andb_prop in Hv as [V1 V2].
      specialize (I1 cur vis (Sp p (or_introl eq_refl)) L1 V1).
      pose proof (visited_names shared p cur vis) as Vn.
      destruct (trace shared p cur vis) as [[c s] v1]. cbn [fst snd] in *.
      specialize (IHl I2 L3 V2 (fun q Hq => Sp q (or_intror Hq)) c v1).
      destruct (other_loop shared ps c v1) as [[c2 r2] v2]. cbn [fst snd] in *.
      assert (M1 : forall e, covered s e -> covered (s ++ r2) e).
      { intros e'. apply covered_mono. intros q Hq. apply in_app_iff; left; exact Hq. }
      assert (M2 : forall e, covered r2 e -> covered (s ++ r2) e).
      { intros e'. apply covered_mono. intros q Hq. apply in_app_iff; right; exact Hq. }
      apply in_app_iff in He as [He|He].
      - destruct (I1 e He) as [K|K]; [left; exact (M1 _ K)|]. right. exists p. split; [left; reflexivity|exact K].
      - destruct (IHl He) as [K|(p2 & Hp2 & K)]; [left; exact (M2 _ K)|].
        destruct (sibling p p2 s vis v1 e (Sp p (or_introl eq_refl)) (Sp p2 (or_intror Hp2)) I1 Vn K) as [K'|[K'|K']].
        + left; exact (M1 _ K').
        + right; exists p; split; [left; reflexivity|exact K'].
        + right; exists p2; split; [right; exact Hp2|exact K']. }
    destruct G as [K|(p & Hp & x & m & Hx & K)]; [left; exact K|].
    right. exists x, m. split; [|exact K]. right. apply in_flat_map. exists p. split; assumption.
Qed.
End V.

(** Full claim: the neighbours found are exactly the neighbours in the graph. *)
Definition C53_neighbours_claim : Prop := forall shared g a b,
  live g = true -> consistent shared g -> apart (layers g) (norms g) ->
  ((exists p, In p (traced shared g) /\ neighbours a b p) <-> In (a, b) (edges g)).

Theorem C53_neighbours_refuted : ~ C53_neighbours_claim.
Proof.
  intro H. specialize (H [] (GOther [GLinear "fc1" GNone; GLinear "fc2" GNone]) (KLinear, "fc1"%string) (KLinear, "fc2"%string)).
  destruct H as [H _]; [reflexivity| | |].
  - intros x y n Hx Hy Ex Ey _. cbn in Hx, Hy.
    repeat match goal with H : _ \/ _ |- _ => destruct H as [<-|H] | H : False |- _ => destruct H end;
      cbn in Ex, Ey; congruence.
  - intros n _ [].
  - apply H. exists [PLinear "fc1"; PLinear "fc2"]. split; [right; left; reflexivity|].
    apply (nb_here _ _ [] (PLinear "fc1") (PLinear "fc2") []); reflexivity.
Qed.

(** It holds for every graph shape, however often layers are met, when linear layers occur on
    last branches only. *)
Theorem C53_neighbours_partial : forall shared g a b,
  linear_last g = true -> live g = true -> consistent shared g -> apart (layers g) (norms g) ->
  ((exists p, In p (traced shared g) /\ neighbours a b p) <-> In (a, b) (edges g)).
Proof.
  intros shared g a b Hl Hv Hc Ha. split.
  - intros (p & Hp & Hn). destruct (trace_good shared g [] [] Hl p Hp) as (q & -> & Gq).
    exact (good_edges g q a b Gq Hn).
  - intro He. destruct (trace_done shared g Hc Ha g [] [] (subs_refl g) Hl Hv (a, b) He) as [C|(x & n & _ & _ & _ & [] & _)].
    exact C.
Qed.
(** A residual block: the input convolution is met twice and cut the second time, yet both its
    users and its own input are found. *)
Definition residual : gfn :=
  let stem := GConv "stem" 3 1 (GConv "pre" 3 1 GNone) in GOther [GConv "body" 8 1 stem; stem].
Example C53_neighbours_ex :
  traced [] residual = [[PConv "body"; PConv "stem"; PConv "pre"]; [PConv "stem"]] /\
  linear_last residual = true /\ live residual = true /\ consistent [] residual /\
  edges residual = [((KConv, "body"%string), (KConv, "stem"%string)); ((KConv, "stem"%string), (KConv, "pre"%string));
                    ((KConv, "stem"%string), (KConv, "pre"%string))].
Proof.
  split; [reflexivity|]. split; [reflexivity|]. split; [reflexivity|]. split; [|reflexivity].
  intros x y n Hx Hy Ex Ey _. cbn in Hx, Hy.
  repeat match goal with H : _ \/ _ |- _ => destruct H as [<-|H] | H : False |- _ => destruct H end;
    cbn in Ex, Ey; congruence.
Qed.

(** ** Node kinds *)

(** Full claim: a convolution with a single group is reported as an ordinary convolution. *)
Definition C53_kind_claim : Prop := forall n i, 0 < i -> pkind (conv_node n i 1) = KConv.
Theorem C53_kind_refuted : ~ C53_kind_claim.
Proof. intro H. specialize (H "c"%string 1 ltac:(lia)). discriminate H. Qed.
(** It holds above one input channel; there a convolution is reported as depthwise exactly
    with one group per input channel. *)
Theorem C53_kind_partial : forall n i gr, 1 < i ->
  (gr = 1 -> pkind (conv_node n i gr) = KConv) /\ (pkind (conv_node n i gr) = KDepthWise <-> gr = i).
Proof.
  intros n i gr H. unfold conv_node. destruct (Z.eqb_spec i gr); cbn [pkind]; split; try split; intros; try reflexivity;
    try discriminate; lia.
Qed.
Example C53_kind_ex : pkind (conv_node "c" 8 1) = KConv /\ pkind (conv_node "c" 8 8) = KDepthWise.
Proof. split; reflexivity. Qed.

Print Assumptions C53_neighbours_refuted.
Print Assumptions C53_neighbours_partial.
Print Assumptions C53_kind_refuted.
Print Assumptions C53_kind_partial.
