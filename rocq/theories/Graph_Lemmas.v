From Verif Require Import Prelude Graph_Model.
From Coq Require Import Relations.

Lemma get_upd g nm f nm' :
  get (upd g nm f) nm' = if String.eqb nm nm' then option_map f (get g nm') else get g nm'.
Proof.
  induction g as [|[n nd] r IH]; cbn; [destruct (String.eqb nm nm'); reflexivity|].
  destruct (String.eqb_spec n nm) as [->|Hn]; cbn.
  - destruct (String.eqb_spec nm nm'); reflexivity.
  - rewrite IH. destruct (String.eqb_spec n nm') as [->|]; [|reflexivity].
    destruct (String.eqb_spec nm nm'); [congruence|reflexivity].
Qed.
Lemma names_upd g nm f : map fst (upd g nm f) = map fst g.
Proof.
  induction g as [|[n nd] r IH]; cbn; [reflexivity|]. destruct (String.eqb n nm); cbn; congruence.
Qed.
Lemma get_in g nm nd : get g nm = Some nd -> In (nm, nd) g.
Proof.
  induction g as [|[n d] r IH]; cbn; [discriminate|].
  destruct (String.eqb_spec n nm); intros H; [inversion H; subst; auto|auto].
Qed.
Lemma get_none g nm : get g nm = None <-> ~ In nm (map fst g).
Proof.
  induction g as [|[n d] r IH]; cbn; [tauto|].
  destruct (String.eqb_spec n nm); [subst|rewrite IH]; intuition; try discriminate.
Qed.
Lemma in_get g nm nd : NoDup (map fst g) -> In (nm, nd) g -> get g nm = Some nd.
Proof.
  induction g as [|[n d] r IH]; cbn; intros Hnd Hin; [destruct Hin|].
  inversion Hnd; subst. destruct (String.eqb_spec n nm) as [->|].
  - destruct Hin as [H|H]; [congruence|]. exfalso. apply H1. change nm with (fst (nm, nd)).
    apply in_map. exact H.
  - destruct Hin as [H|H]; [congruence|auto].
Qed.
Lemma get_filter g nm nm' :
  get (filter (fun p => negb (String.eqb (fst p) nm)) g) nm'
  = if String.eqb nm nm' then None else get g nm'.
Proof.
  induction g as [|[n d] r IH]; cbn; [destruct (String.eqb nm nm'); reflexivity|].
  destruct (String.eqb_spec n nm) as [->|]; cbn.
  - rewrite IH. destruct (String.eqb_spec nm nm'); reflexivity.
  - rewrite IH. destruct (String.eqb_spec n nm') as [->|]; [|reflexivity].
    destruct (String.eqb_spec nm nm'); [congruence|reflexivity].
Qed.
Lemma get_app g h nm : get (g ++ h) nm = match get g nm with Some x => Some x | None => get h nm end.
Proof. induction g as [|[n d] r IH]; cbn; [reflexivity|]. destruct (String.eqb n nm); auto. Qed.

(** Views *)
Definition stored (g : graph) (k : key) : Prop := exists nd, find_node g k = Some nd.
Definition succs (g : graph) (k : key) : list key :=
  match find_node g k with Some nd => n_next nd | None => [] end.
Definition preds (g : graph) (k : key) : list key :=
  match find_node g k with Some nd => n_prev nd | None => [] end.

Lemma find_upd g nm f k :
  (forall nd, n_val (f nd) = n_val nd) ->
  find_node (upd g nm f) k
  = if String.eqb nm (fst k) then option_map f (find_node g k) else find_node g k.
Proof.
  intros Hf. unfold find_node. rewrite get_upd. destruct (String.eqb nm (fst k)); [|reflexivity].
  destruct (get g (fst k)); cbn; [|reflexivity]. rewrite Hf. destruct (Nat.eqb _ _); reflexivity.
Qed.
Lemma stored_inj g a b : stored g a -> stored g b -> fst a = fst b -> a = b.
Proof.
  intros [na Ha] [nb Hb] He. unfold find_node in *. rewrite He in Ha.
  destruct (get g (fst b)) as [nd|]; [|discriminate].
  destruct (Nat.eqb_spec (n_val nd) (snd a)); [|discriminate].
  destruct (Nat.eqb_spec (n_val nd) (snd b)); [|discriminate].
  destruct a, b; cbn in *; subst; congruence.
Qed.
Lemma find_upd_key g a f k :
  (forall nd, n_val (f nd) = n_val nd) -> stored g a ->
  find_node (upd g (fst a) f) k = if keq a k then option_map f (find_node g k) else find_node g k.
Proof.
  intros Hf Ha. rewrite find_upd by exact Hf.
  destruct (String.eqb_spec (fst a) (fst k)) as [He|Hn]; destruct (keq a k) as [->|Hk];
    try reflexivity; [|congruence].
  destruct (find_node g k) eqn:E; [|reflexivity]. exfalso. apply Hk.
  apply (stored_inj g); auto. exists n. exact E.
Qed.
Lemma stored_upd g nm f k :
  (forall nd, n_val (f nd) = n_val nd) -> stored (upd g nm f) k <-> stored g k.
Proof.
  intros Hf. unfold stored. rewrite find_upd by exact Hf.
  destruct (String.eqb nm (fst k)); [|tauto].
  destruct (find_node g k); cbn; split; intros [x Hx]; eauto; discriminate.
Qed.

Lemma push_in x y l : In y (push x l) <-> In y l \/ y = x.
Proof.
  unfold push, kmem. destruct (in_dec keq x l).
  - intuition. subst; assumption.
  - rewrite in_app_iff. cbn. intuition.
Qed.
Lemma push_nodup x l : NoDup l -> NoDup (push x l).
Proof.
  intros H. unfold push, kmem. destruct (in_dec keq x l); [exact H|].
  induction l as [|y l IH]; cbn; [repeat constructor; auto|].
  inversion H; subst. constructor.
  - rewrite in_app_iff. cbn. intros [Hc|[Hc|[]]]; [auto|]. subst. apply n. left. reflexivity.
  - apply IH; auto. intros Hc. apply n. right. exact Hc.
Qed.
Lemma remove1_in x y l : NoDup l -> In y (remove1 x l) <-> In y l /\ y <> x.
Proof.
  induction l as [|z l IH]; cbn; intros H; [tauto|]. inversion H; subst.
  destruct (keq z x) as [->|Hz].
  - split; [intros Hy; split; auto; intros ->; contradiction|]. intros [[->|Hy] Hne]; congruence.
  - cbn. rewrite IH by assumption. split; [intros [->|[]]; auto|]. intros [[->|] ?]; auto.
Qed.
Lemma remove1_sub x y l : In y (remove1 x l) -> In y l.
Proof.
  induction l as [|z l IH]; cbn; [tauto|]. destruct (keq z x); cbn; [auto|]. intuition.
Qed.
Lemma remove1_nodup x l : NoDup l -> NoDup (remove1 x l).
Proof.
  induction l as [|z l IH]; cbn; intros H; [constructor|]. inversion H; subst.
  destruct (keq z x); [assumption|]. constructor; [|auto].
  intros Hc. apply remove1_sub in Hc. contradiction.
Qed.

(** [Rep g E]: the successor and predecessor lists of [g] both represent [E]. *)
Definition Rep (g : graph) (E : key -> key -> Prop) : Prop :=
  NoDup (map fst g) /\
  (forall k, NoDup (succs g k) /\ NoDup (preds g k)) /\
  (forall x y, In y (succs g x) <-> E x y) /\
  (forall x y, In x (preds g y) <-> E x y).
Definition WF (g : graph) (E : key -> key -> Prop) : Prop :=
  Rep g E /\ forall x y, E x y -> stored g x /\ stored g y.

Lemma Rep_ext g E F : Rep g E -> (forall x y, E x y <-> F x y) -> Rep g F.
Proof.
  intros (H1 & H2 & H3 & H4) HE. split; [exact H1|]. split; [exact H2|].
  split; intros x y; rewrite <- HE; auto.
Qed.

Lemma succs_upd_next g (a : key) f (k : key) : stored g a ->
  succs (upd g (fst a) (map_next f)) k = if keq a k then f (succs g k) else succs g k.
Proof.
  intros Ha. unfold succs. rewrite find_upd_key by (auto; reflexivity).
  destruct (keq a k) as [->|]; [|reflexivity]. destruct Ha as [nd Hnd]. rewrite Hnd. reflexivity.
Qed.
Lemma succs_upd_prev g (a : key) f (k : key) : succs (upd g (fst a) (map_prev f)) k = succs g k.
Proof.
  unfold succs. rewrite find_upd by reflexivity.
  destruct (String.eqb _ _); [|reflexivity]. destruct (find_node g k); reflexivity.
Qed.
Lemma preds_upd_prev g (a : key) f (k : key) : stored g a ->
  preds (upd g (fst a) (map_prev f)) k = if keq a k then f (preds g k) else preds g k.
Proof.
  intros Ha. unfold preds. rewrite find_upd_key by (auto; reflexivity).
  destruct (keq a k) as [->|]; [|reflexivity]. destruct Ha as [nd Hnd]. rewrite Hnd. reflexivity.
Qed.
Lemma preds_upd_next g (a : key) f (k : key) : preds (upd g (fst a) (map_next f)) k = preds g k.
Proof.
  unfold preds. rewrite find_upd by reflexivity.
  destruct (String.eqb _ _); [|reflexivity]. destruct (find_node g k); reflexivity.
Qed.

Lemma Rep_add_next g E a b : Rep g E -> stored g a -> stored g b ->
  Rep (add_next_node a b g) (fun x y => E x y \/ (x = a /\ y = b)) /\
  forall k, stored (add_next_node a b g) k <-> stored g k.
Proof.
  intros (H1 & H2 & H3 & H4) Ha Hb. unfold add_next_node.
  assert (Hb' : stored (upd g (fst a) (map_next (push b))) b) by (apply stored_upd; [reflexivity|exact Hb]).
  split.
  2:{ intros k. rewrite !stored_upd by reflexivity. tauto. }
  split; [rewrite !names_upd; exact H1|]. split; [|split].
  - intros k. destruct (H2 k) as [N1 N2].
    rewrite succs_upd_prev, succs_upd_next by exact Ha.
    rewrite preds_upd_prev by exact Hb'. rewrite preds_upd_next.
    split; [destruct (keq a k)|destruct (keq b k)]; auto using push_nodup.
  - intros x y. rewrite succs_upd_prev, succs_upd_next by exact Ha.
    destruct (keq a x) as [->|Hx]; [rewrite push_in, H3|rewrite H3]; intuition congruence.
  - intros x y. rewrite preds_upd_prev by exact Hb'. rewrite preds_upd_next.
    destruct (keq b y) as [->|Hy]; [rewrite push_in, H4|rewrite H4]; intuition congruence.
Qed.
Lemma Rep_add_prev g E a b : Rep g E -> stored g a -> stored g b ->
  Rep (add_prev_node b a g) (fun x y => E x y \/ (x = a /\ y = b)) /\
  forall k, stored (add_prev_node b a g) k <-> stored g k.
Proof.
  intros (H1 & H2 & H3 & H4) Ha Hb. unfold add_prev_node.
  assert (Ha' : stored (upd g (fst b) (map_prev (push a))) a) by (apply stored_upd; [reflexivity|exact Ha]).
  split.
  2:{ intros k. rewrite !stored_upd by reflexivity. tauto. }
  split; [rewrite !names_upd; exact H1|]. split; [|split].
  - intros k. destruct (H2 k) as [N1 N2].
    rewrite succs_upd_next by exact Ha'. rewrite succs_upd_prev.
    rewrite preds_upd_next, preds_upd_prev by exact Hb.
    split; [destruct (keq a k)|destruct (keq b k)]; auto using push_nodup.
  - intros x y. rewrite succs_upd_next by exact Ha'. rewrite succs_upd_prev.
    destruct (keq a x) as [->|Hx]; [rewrite push_in, H3|rewrite H3]; intuition congruence.
  - intros x y. rewrite preds_upd_next, preds_upd_prev by exact Hb.
    destruct (keq b y) as [->|Hy]; [rewrite push_in, H4|rewrite H4]; intuition congruence.
Qed.

Lemma connect_ok g E a b : Rep g E -> stored g a -> stored g b ->
  exists g', connect a b g = (g', Ok tt) /\
    Rep g' (fun x y => E x y \/ (x = a /\ y = b)) /\ forall k, stored g' k <-> stored g k.
Proof.
  intros HR Ha Hb. unfold connect. destruct Ha as [na Ea] eqn:HA. destruct Hb as [nb Eb] eqn:HB.
  rewrite Ea, Eb. eexists. split; [reflexivity|].
  destruct (Rep_add_next g E a b HR) as [R1 S1]; [eexists; exact Ea|eexists; exact Eb|].
  destruct (Rep_add_prev _ _ a b R1) as [R2 S2].
  - apply S1. eexists; exact Ea.
  - apply S1. eexists; exact Eb.
  - split.
    + apply (Rep_ext _ _ _ R2). intros x y. tauto.
    + intros k. rewrite S2, S1. tauto.
Qed.

Lemma disconnect_ok g E a b : Rep g E -> stored g a -> stored g b ->
  exists g', disconnect a b g = (g', Ok tt) /\
    Rep g' (fun x y => E x y /\ ~ (x = a /\ y = b)) /\ forall k, stored g' k <-> stored g k.
Proof.
  intros (H1 & H2 & H3 & H4) Ha Hb. unfold disconnect.
  pose proof Ha as [na Ea]. pose proof Hb as [nb Eb]. rewrite Ea, Eb.
  eexists. split; [reflexivity|].
  assert (Hb' : stored (upd g (fst a) (map_next (remove1 b))) b) by (apply stored_upd; [reflexivity|exact Hb]).
  split.
  2:{ intros k. rewrite !stored_upd by reflexivity. tauto. }
  split; [rewrite !names_upd; exact H1|]. split; [|split].
  - intros k. destruct (H2 k) as [N1 N2].
    rewrite succs_upd_prev, succs_upd_next by exact Ha.
    rewrite preds_upd_prev by exact Hb'. rewrite preds_upd_next.
    split; [destruct (keq a k)|destruct (keq b k)]; auto using remove1_nodup.
  - intros x y. rewrite succs_upd_prev, succs_upd_next by exact Ha.
    destruct (keq a x) as [->|Hx].
    + rewrite remove1_in by apply H2. rewrite H3. intuition.
    + rewrite H3. intuition congruence.
  - intros x y. rewrite preds_upd_prev by exact Hb'. rewrite preds_upd_next.
    destruct (keq b y) as [->|Hy].
    + rewrite remove1_in by apply H2. rewrite H4. intuition.
    + rewrite H4. intuition congruence.
Qed.

(** Loops of delete_node. *)
Lemma loop_out k : forall l g E, Rep g E -> stored g k -> (forall y, In y l -> stored g y) ->
  exists g', for_each l (fun nx => disconnect k nx) g = (g', Ok tt) /\
    Rep g' (fun x y => E x y /\ ~ (x = k /\ In y l)) /\ (forall z, stored g' z <-> stored g z).
Proof.
  induction l as [|n l IH]; intros g E HR Hk Hl; cbn [for_each].
  - exists g. split; [reflexivity|]. split; [|tauto]. apply (Rep_ext _ _ _ HR). cbn. tauto.
  - destruct (disconnect_ok g E k n HR Hk (Hl n (or_introl eq_refl))) as (g1 & E1 & R1 & S1).
    unfold seq_op. rewrite E1.
    destruct (IH g1 _ R1) as (g2 & E2 & R2 & S2).
    + apply S1. exact Hk.
    + intros y Hy. apply S1. apply Hl. right. exact Hy.
    + exists g2. split; [exact E2|]. split.
      * apply (Rep_ext _ _ _ R2). intros x y. cbn. intuition (subst; auto).
      * intros z. rewrite S2. apply S1.
Qed.
Lemma loop_in k : forall l g E, Rep g E -> stored g k -> (forall y, In y l -> stored g y) ->
  exists g', for_each l (fun pr => disconnect pr k) g = (g', Ok tt) /\
    Rep g' (fun x y => E x y /\ ~ (y = k /\ In x l)) /\ (forall z, stored g' z <-> stored g z).
Proof.
  induction l as [|n l IH]; intros g E HR Hk Hl; cbn [for_each].
  - exists g. split; [reflexivity|]. split; [|tauto]. apply (Rep_ext _ _ _ HR). cbn. tauto.
  - destruct (disconnect_ok g E n k HR (Hl n (or_introl eq_refl)) Hk) as (g1 & E1 & R1 & S1).
    unfold seq_op. rewrite E1.
    destruct (IH g1 _ R1) as (g2 & E2 & R2 & S2).
    + apply S1. exact Hk.
    + intros y Hy. apply S1. apply Hl. right. exact Hy.
    + exists g2. split; [exact E2|]. split.
      * apply (Rep_ext _ _ _ R2). intros x y. cbn. intuition (subst; auto).
      * intros z. rewrite S2. apply S1.
Qed.
Lemma loop_out_connect k pre : pre <> k ->
  forall l g E, Rep g E -> stored g k -> stored g pre -> (forall y, In y l -> stored g y) ->
  exists g', for_each l (fun nx => seq_op (disconnect k nx) (fun _ => connect pre nx)) g = (g', Ok tt) /\
    Rep g' (fun x y => (E x y /\ ~ (x = k /\ In y l)) \/ (x = pre /\ In y l)) /\
    (forall z, stored g' z <-> stored g z).
Proof.
  intros Hne. induction l as [|n l IH]; intros g E HR Hk Hp Hl; cbn [for_each].
  - exists g. split; [reflexivity|]. split; [|tauto]. apply (Rep_ext _ _ _ HR). cbn. tauto.
  - destruct (disconnect_ok g E k n HR Hk (Hl n (or_introl eq_refl))) as (g1 & E1 & R1 & S1).
    destruct (connect_ok g1 _ pre n R1) as (g2 & E2 & R2 & S2).
    { apply S1. exact Hp. } { apply S1. apply Hl. left. reflexivity. }
    unfold seq_op at 1 2. rewrite E1, E2.
    destruct (IH g2 _ R2) as (g3 & E3 & R3 & S3).
    + apply S2, S1. exact Hk.
    + apply S2, S1. exact Hp.
    + intros y Hy. apply S2, S1. apply Hl. right. exact Hy.
    + exists g3. split; [exact E3|]. split.
      * apply (Rep_ext _ _ _ R3). intros x y. cbn.
        destruct (keq x k); destruct (keq x pre); destruct (keq y n); intuition congruence.
      * intros z. rewrite S3, S2. apply S1.
Qed.
Lemma loop_in_connect k nxt : nxt <> k ->
  forall l g E, Rep g E -> stored g k -> stored g nxt -> (forall y, In y l -> stored g y) ->
  exists g', for_each l (fun pr => seq_op (disconnect pr k) (fun _ => connect pr nxt)) g = (g', Ok tt) /\
    Rep g' (fun x y => (E x y /\ ~ (y = k /\ In x l)) \/ (y = nxt /\ In x l)) /\
    (forall z, stored g' z <-> stored g z).
Proof.
  intros Hne. induction l as [|n l IH]; intros g E HR Hk Hp Hl; cbn [for_each].
  - exists g. split; [reflexivity|]. split; [|tauto]. apply (Rep_ext _ _ _ HR). cbn. tauto.
  - destruct (disconnect_ok g E n k HR (Hl n (or_introl eq_refl)) Hk) as (g1 & E1 & R1 & S1).
    destruct (connect_ok g1 _ n nxt R1) as (g2 & E2 & R2 & S2).
    { apply S1. apply Hl. left. reflexivity. } { apply S1. exact Hp. }
    unfold seq_op at 1 2. rewrite E1, E2.
    destruct (IH g2 _ R2) as (g3 & E3 & R3 & S3).
    + apply S2, S1. exact Hk.
    + apply S2, S1. exact Hp.
    + intros y Hy. apply S2, S1. apply Hl. right. exact Hy.
    + exists g3. split; [exact E3|]. split.
      * apply (Rep_ext _ _ _ R3). intros x y. cbn.
        destruct (keq y k); destruct (keq y nxt); destruct (keq x n); intuition congruence.
      * intros z. rewrite S3, S2. apply S1.
Qed.

Lemma find_filter g (k z : key) : stored g k ->
  find_node (filter (fun p => negb (String.eqb (fst p) (fst k))) g) z
  = if keq k z then None else find_node g z.
Proof.
  intros Hk. unfold find_node at 1. rewrite get_filter.
  destruct (String.eqb_spec (fst k) (fst z)) as [He|Hn]; destruct (keq k z) as [->|Hz];
    try reflexivity; try congruence.
  destruct (find_node g z) eqn:E; [|reflexivity].
  exfalso. apply Hz. apply (stored_inj g); auto. eexists; exact E.
Qed.
Lemma nodup_filter_names (f : string * node -> bool) g : NoDup (map fst g) -> NoDup (map fst (filter f g)).
Proof.
  induction g as [|p r IH]; cbn; intros H; [constructor|]. inversion H; subst.
  destruct (f p); cbn; [|auto]. constructor; [|auto].
  intros Hc. apply H2. apply in_map_iff in Hc as (q & Hq & Hin). apply filter_In in Hin as [Hin _].
  rewrite <- Hq. apply in_map. exact Hin.
Qed.
Lemma pop_ok g E k : Rep g E -> stored g k -> (forall x y, E x y -> x <> k /\ y <> k) ->
  exists g', pop_node (fst k) g = (g', Ok tt) /\ Rep g' E /\
    (forall z, stored g' z <-> stored g z /\ z <> k).
Proof.
  intros (H1 & H2 & H3 & H4) Hk HE. unfold pop_node. eexists. split; [reflexivity|].
  split; [split; [apply nodup_filter_names; exact H1|split; [|split]]|].
  - intros z. unfold succs, preds. rewrite find_filter by exact Hk.
    destruct (keq k z); [split; constructor|]. apply H2.
  - intros x y. unfold succs. rewrite find_filter by exact Hk. destruct (keq k x) as [<-|].
    + split; [intros []|]. intros Hx. destruct (HE _ _ Hx). congruence.
    + apply H3.
  - intros x y. unfold preds. rewrite find_filter by exact Hk. destruct (keq k y) as [<-|].
    + split; [intros []|]. intros Hx. destruct (HE _ _ Hx). congruence.
    + apply H4.
  - intros z. unfold stored. rewrite find_filter by exact Hk. destruct (keq k z) as [<-|Hn].
    + split; [intros [nd Hd]; discriminate|]. intros [_ Hc]. congruence.
    + split; [intros Hs; split; [exact Hs|congruence]|]. intros [Hs _]. exact Hs.
Qed.

(** delete_node on a node that is not its own successor. *)
Lemma delete_ok g E k : WF g E -> stored g k -> ~ E k k ->
  let few := (length (preds g k) <= 1)%nat \/ (length (succs g k) <= 1)%nat in
  (few -> exists g', delete_node k g = (g', Ok tt) /\
     Rep g' (fun x y => x <> k /\ y <> k /\ (E x y \/ (E x k /\ E k y))) /\
     (forall z, stored g' z <-> stored g z /\ z <> k)) /\
  (~ few -> delete_node k g = (g, Raise GenericException)).
Proof.
  intros [HR HS] Hk Hself few. pose proof HR as (H1 & H2 & H3 & H4).
  assert (HP : forall x, In x (preds g k) <-> E x k) by (intros; apply H4).
  assert (HN : forall y, In y (succs g k) <-> E k y) by (intros; apply H3).
  pose proof Hk as [nd Hnd].
  assert (Ep : preds g k = n_prev nd) by (unfold preds; rewrite Hnd; reflexivity).
  assert (En : succs g k = n_next nd) by (unfold succs; rewrite Hnd; reflexivity).
  subst few. rewrite Ep, En in *. unfold delete_node. rewrite Hnd.
  assert (Stp : forall x, In x (n_prev nd) -> stored g x) by (intros x Hx; apply HP in Hx; apply HS in Hx; tauto).
  assert (Stn : forall x, In x (n_next nd) -> stored g x) by (intros x Hx; apply HN in Hx; apply HS in Hx; tauto).
  (* no predecessors *)
  assert (CaseA : n_prev nd = [] -> exists g', seq_op (for_each (n_next nd) (fun nx => disconnect k nx)) (fun _ => pop_node (fst k)) g = (g', Ok tt) /\
     Rep g' (fun x y => x <> k /\ y <> k /\ (E x y \/ (E x k /\ E k y))) /\
     (forall z, stored g' z <-> stored g z /\ z <> k)).
  { intros Hp. assert (HnoP : forall x, ~ E x k) by (intros x Hx; apply HP in Hx; rewrite Hp in Hx; destruct Hx).
    destruct (loop_out k (n_next nd) g E HR Hk Stn) as (g1 & E1 & R1 & S1).
    unfold seq_op. rewrite E1.
    destruct (pop_ok g1 _ k R1) as (g2 & E2 & R2 & S2).
    - apply S1. exact Hk.
    - intros x y [Hxy Hn]. split; intros ->; [|exact (HnoP _ Hxy)]. apply Hn. split; [reflexivity|]. apply HN. exact Hxy.
    - exists g2. split; [exact E2|]. split.
      + apply (Rep_ext _ _ _ R2). intros x y. split.
        * intros [Hxy Hn]. split; [|split; [|auto]].
          -- intros ->. apply Hn. split; [reflexivity|]. apply HN. exact Hxy.
          -- intros ->. exact (HnoP _ Hxy).
        * intros (Hx & Hy & [Hxy|[Hc _]]); [|destruct (HnoP _ Hc)]. split; [exact Hxy|]. tauto.
      + intros z. rewrite S2, S1. tauto. }
  (* no successors *)
  assert (CaseB : n_next nd = [] -> exists g', seq_op (for_each (n_prev nd) (fun pr => disconnect pr k)) (fun _ => pop_node (fst k)) g = (g', Ok tt) /\
     Rep g' (fun x y => x <> k /\ y <> k /\ (E x y \/ (E x k /\ E k y))) /\
     (forall z, stored g' z <-> stored g z /\ z <> k)).
  { intros Hp. assert (HnoN : forall x, ~ E k x) by (intros x Hx; apply HN in Hx; rewrite Hp in Hx; destruct Hx).
    destruct (loop_in k (n_prev nd) g E HR Hk Stp) as (g1 & E1 & R1 & S1).
    unfold seq_op. rewrite E1.
    destruct (pop_ok g1 _ k R1) as (g2 & E2 & R2 & S2).
    - apply S1. exact Hk.
    - intros x y [Hxy Hn]. split; intros ->; [exact (HnoN _ Hxy)|]. apply Hn. split; [reflexivity|]. apply HP. exact Hxy.
    - exists g2. split; [exact E2|]. split.
      + apply (Rep_ext _ _ _ R2). intros x y. split.
        * intros [Hxy Hn]. split; [|split; [|auto]].
          -- intros ->. exact (HnoN _ Hxy).
          -- intros ->. apply Hn. split; [reflexivity|]. apply HP. exact Hxy.
        * intros (Hx & Hy & [Hxy|[_ Hc]]); [|destruct (HnoN _ Hc)]. split; [exact Hxy|]. tauto.
      + intros z. rewrite S2, S1. tauto. }
  (* one predecessor *)
  assert (CaseC : forall pre, n_prev nd = [pre] -> exists g',
     seq_op (disconnect pre k) (fun _ g1 =>
             match find_node g1 k with
             | None => (g1, Raise AssertionError)
             | Some nd1 =>
                 seq_op (for_each (n_next nd1)
                           (fun nx => seq_op (disconnect k nx) (fun _ => connect pre nx)))
                        (fun _ => pop_node (fst k)) g1
             end) g = (g', Ok tt) /\
     Rep g' (fun x y => x <> k /\ y <> k /\ (E x y \/ (E x k /\ E k y))) /\
     (forall z, stored g' z <-> stored g z /\ z <> k)).
  { intros pre Hp. assert (Hpre : forall x, E x k <-> x = pre) by (intros x; rewrite <- HP, Hp; cbn; intuition).
    assert (Hne : pre <> k) by (intros ->; apply Hself, Hpre; reflexivity).
    assert (Hsp : stored g pre) by (apply Stp; rewrite Hp; left; reflexivity).
    destruct (disconnect_ok g E pre k HR Hsp Hk) as (g1 & E1 & R1 & S1).
    unfold seq_op at 1. rewrite E1.
    assert (Hk1 : stored g1 k) by (apply S1; exact Hk). pose proof Hk1 as [nd1 Hnd1]. rewrite Hnd1.
    assert (HN1 : forall y, In y (n_next nd1) <-> E k y).
    { intros y. pose proof R1 as (_ & _ & H3' & _). specialize (H3' k y).
      unfold succs in H3'. rewrite Hnd1 in H3'. rewrite H3'. intuition congruence. }
    destruct (loop_out_connect k pre Hne (n_next nd1) g1 _ R1 Hk1) as (g2 & E2 & R2 & S2).
    { apply S1. exact Hsp. }
    { intros y Hy. apply S1. apply HN1 in Hy. apply HS in Hy. tauto. }
    unfold seq_op at 1. rewrite E2.
    destruct (pop_ok g2 _ k R2) as (g3 & E3 & R3 & S3).
    - apply S2. exact Hk1.
    - intros x y H. rewrite HN1 in H. destruct H as [[[Hxy Hn1] Hn2]|[-> Hy]].
      + split; intros ->; [tauto|]. apply Hpre in Hxy. tauto.
      + split; [exact Hne|]. intros ->. exact (Hself Hy).
    - exists g3. split; [exact E3|]. split.
      + apply (Rep_ext _ _ _ R3). intros x y. rewrite HN1, Hpre. split.
        * intros [[[Hxy Hn1] Hn2]|[-> Hy]].
          -- split; [intros ->; tauto|]. split; [|auto]. intros ->. apply Hpre in Hxy. tauto.
          -- split; [exact Hne|]. split; [|auto]. intros ->. exact (Hself Hy).
        * intros (Hx & Hy & [Hxy|[-> Hky]]); [|auto]. left. intuition.
      + intros z. rewrite S3, S2, S1. tauto. }
  (* one successor *)
  assert (CaseD : forall nxt, n_next nd = [nxt] -> exists g',
     seq_op (disconnect k nxt) (fun _ g1 =>
             match find_node g1 k with
             | None => (g1, Raise AssertionError)
             | Some nd1 =>
                 seq_op (for_each (n_prev nd1)
                           (fun pr => seq_op (disconnect pr k) (fun _ => connect pr nxt)))
                        (fun _ => pop_node (fst k)) g1
             end) g = (g', Ok tt) /\
     Rep g' (fun x y => x <> k /\ y <> k /\ (E x y \/ (E x k /\ E k y))) /\
     (forall z, stored g' z <-> stored g z /\ z <> k)).
  { intros nxt Hp. assert (Hnxt : forall x, E k x <-> x = nxt) by (intros x; rewrite <- HN, Hp; cbn; intuition).
    assert (Hne : nxt <> k) by (intros ->; apply Hself, Hnxt; reflexivity).
    assert (Hsp : stored g nxt) by (apply Stn; rewrite Hp; left; reflexivity).
    destruct (disconnect_ok g E k nxt HR Hk Hsp) as (g1 & E1 & R1 & S1).
    unfold seq_op at 1. rewrite E1.
    assert (Hk1 : stored g1 k) by (apply S1; exact Hk). pose proof Hk1 as [nd1 Hnd1]. rewrite Hnd1.
    assert (HP1 : forall y, In y (n_prev nd1) <-> E y k).
    { intros y. pose proof R1 as (_ & _ & _ & H4'). specialize (H4' y k).
      unfold preds in H4'. rewrite Hnd1 in H4'. rewrite H4'. intuition congruence. }
    destruct (loop_in_connect k nxt Hne (n_prev nd1) g1 _ R1 Hk1) as (g2 & E2 & R2 & S2).
    { apply S1. exact Hsp. }
    { intros y Hy. apply S1. apply HP1 in Hy. apply HS in Hy. tauto. }
    unfold seq_op at 1. rewrite E2.
    destruct (pop_ok g2 _ k R2) as (g3 & E3 & R3 & S3).
    - apply S2. exact Hk1.
    - intros x y H. rewrite HP1 in H. destruct H as [[[Hxy Hn1] Hn2]|[-> Hy]].
      + split; intros ->; [|tauto]. apply Hnxt in Hxy. tauto.
      + split; [|exact Hne]. intros ->. exact (Hself Hy).
    - exists g3. split; [exact E3|]. split.
      + apply (Rep_ext _ _ _ R3). intros x y. rewrite HP1, Hnxt. split.
        * intros [[[Hxy Hn1] Hn2]|[-> Hy]].
          -- split; [|split; [intros ->; tauto|auto]]. intros ->. apply Hnxt in Hxy. tauto.
          -- split; [|split; [exact Hne|auto]]. intros ->. exact (Hself Hy).
        * intros (Hx & Hy & [Hxy|[Hky ->]]); [|auto]. left. intuition.
      + intros z. rewrite S3, S2, S1. tauto. }
  destruct (n_prev nd) as [|p1 [|p2 ps]] eqn:EP.
  - split; [intros _; exact (CaseA eq_refl)|]. cbn. intros Hf. exfalso. apply Hf. left. lia.
  - destruct (n_next nd) as [|n1 ns] eqn:EN.
    + split; [intros _; exact (CaseB eq_refl)|]. cbn. intros Hf. exfalso. apply Hf. left. lia.
    + split; [intros _; exact (CaseC p1 eq_refl)|]. cbn. intros Hf. exfalso. apply Hf. left. lia.
  - destruct (n_next nd) as [|n1 [|n2 ns]] eqn:EN.
    + split; [intros _; exact (CaseB eq_refl)|]. cbn. intros Hf. exfalso. apply Hf. right. lia.
    + split; [intros _; exact (CaseD n1 eq_refl)|]. cbn. intros Hf. exfalso. apply Hf. right. lia.
    + split; [cbn; intros [Hf|Hf]; lia|]. reflexivity.
Qed.

Lemma add_ok g E k : WF g E ->
  (~ In (fst k) (map fst g) -> exists g', add_node k g = (g', Ok tt) /\ WF g' E /\
     (forall z, stored g' z <-> stored g z \/ z = k)) /\
  (In (fst k) (map fst g) -> add_node k g = (g, Raise GenericException)).
Proof.
  intros [(H1 & H2 & H3 & H4) HS]. unfold add_node. split.
  - intros Hn. apply get_none in Hn as Hg. rewrite Hg. eexists. split; [reflexivity|].
    assert (Hf : forall z, find_node (g ++ [(fst k, new_node (snd k))]) z
                 = if keq k z then Some (new_node (snd k)) else find_node g z).
    { intros z. unfold find_node. rewrite get_app. cbn.
      destruct (keq k z) as [<-|Hz].
      - rewrite Hg, String.eqb_refl. cbn. rewrite Nat.eqb_refl. reflexivity.
      - destruct (get g (fst z)) eqn:E1; [reflexivity|].
        destruct (String.eqb_spec (fst k) (fst z)); [|reflexivity]. cbn.
        destruct (Nat.eqb_spec (snd k) (snd z)); [|reflexivity].
        exfalso. apply Hz. destruct k, z; cbn in *; congruence. }
    assert (Hko : find_node g k = None) by (unfold find_node; rewrite Hg; reflexivity).
    assert (Hst : forall z, stored (g ++ [(fst k, new_node (snd k))]) z <-> stored g z \/ z = k).
    { intros z. unfold stored. rewrite Hf. destruct (keq k z) as [<-|Hz].
      - split; eauto.
      - split; [auto|]. intros [Hs|Hs]; [exact Hs|congruence]. }
    assert (Hsu : forall z, succs (g ++ [(fst k, new_node (snd k))]) z = succs g z).
    { intros z. unfold succs. rewrite Hf. destruct (keq k z) as [<-|]; [rewrite Hko|]; reflexivity. }
    assert (Hpr : forall z, preds (g ++ [(fst k, new_node (snd k))]) z = preds g z).
    { intros z. unfold preds. rewrite Hf. destruct (keq k z) as [<-|]; [rewrite Hko|]; reflexivity. }
    split; [|exact Hst]. split.
    + split; [|split; [|split]].
      * rewrite map_app. cbn. clear - H1 Hn.
        induction (map fst g) as [|a l IH]; cbn; [repeat constructor; auto|].
        inversion H1; subst. constructor; [|apply IH; auto; intros Hc; apply Hn; right; auto].
        rewrite in_app_iff. cbn. intros [Hc|[Hc|[]]]; [auto|]. apply Hn. left. auto.
      * intros z. rewrite Hsu, Hpr. apply H2.
      * intros x y. rewrite Hsu. apply H3.
      * intros x y. rewrite Hpr. apply H4.
    + intros x y Hxy. apply HS in Hxy. rewrite !Hst. tauto.
  - intros Hi. destruct (get g (fst k)) eqn:E1; [reflexivity|]. apply get_none in E1. contradiction.
Qed.
