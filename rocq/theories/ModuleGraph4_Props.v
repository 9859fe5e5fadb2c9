(** C158, second part: renaming the placeholder nodes. *)
From Coq Require Import Relations Permutation.
From Verif Require Import Prelude Graph_Model Graph_Lemmas Graph_Props ModuleGraph_Model ModuleGraph_Lemmas ModuleGraph_Props ModuleGraph2_Props ModuleGraph3_Props.
From Verif Require Tracer_Model.
Local Open Scope list_scope.

Section Rename.
Variable is_module : nat -> bool.
Definition placeholder (v : nat) : Prop := v = v_pass \/ v = v_cat \/ v = v_bind.
(** The new name of a placeholder, without its number. *)
Definition prefix_of (v : nat) : string := (if Nat.eqb v v_pass then "pass_" else if Nat.eqb v v_cat then "cat_" else "bind_")%string.

Definition pick (v np nc nb : nat) : nat := if Nat.eqb v v_pass then np else if Nat.eqb v v_cat then nc else nb.
Definition numbers (l : list key) (v : nat) : nat := length (filter (fun k : key => Nat.eqb (snd k) v) l).

Hypothesis modules : forall v, is_module v = true -> ~ placeholder v.

Lemma new_names_ok : forall l np nc nb, (forall k, In k l -> is_module (snd k) = true \/ placeholder (snd k)) ->
  exists m : list (key * key), new_names is_module l np nc nb = Ok m /\ map fst m = l /\
    (forall a b : key, In (a, b) m -> snd b = snd a /\
       ((is_module (snd a) = true /\ b = a) \/
        (placeholder (snd a) /\ exists i, (pick (snd a) np nc nb <= i)%nat /\ fst b = numbered (prefix_of (snd a)) i))) /\
    (forall v, placeholder v -> filter (fun k : key => Nat.eqb (snd k) v) (map snd m)
                                = map (fun i => (numbered (prefix_of v) i, v) : key) (seq (pick v np nc nb) (numbers l v))).
Proof.
  induction l as [|k l IH]; intros np nc nb H; cbn [new_names].
  - exists []. split; [reflexivity|]. split; [reflexivity|]. split; [intros a b []|reflexivity].
  - assert (Hl : forall z, In z l -> is_module (snd z) = true \/ placeholder (snd z)) by (intros z Hz; apply H; right; exact Hz).
    assert (Count : forall v, numbers (k :: l) v = ((if Nat.eqb (snd k) v then 1 else 0) + numbers l v)%nat).
    { intros v. unfold numbers. cbn. destruct (Nat.eqb (snd k) v); reflexivity. }
    destruct (is_module (snd k)) eqn:Em.
    { destruct (IH np nc nb Hl) as (m & E & F & Hm & Hf). rewrite E. cbn [bind]. exists ((k, k) :: m). split; [reflexivity|].
      split; [cbn [map fst]; f_equal; exact F|]. split.
      - intros a b [Hi|Hi]; [inversion Hi; subst; auto|auto].
      - intros v Hv. rewrite Count. cbn. destruct (Nat.eqb_spec (snd k) v) as [He|He]; [subst v; destruct (modules _ Em Hv)|apply Hf; exact Hv]. }
    destruct (H k (or_introl eq_refl)) as [Hc|Hp]; [congruence|].
    assert (Step : forall pre i np' nc' nb',
      prefix_of (snd k) = pre -> pick (snd k) np nc nb = i ->
      (forall v, placeholder v -> pick v np' nc' nb' = if Nat.eqb (snd k) v then S (pick v np nc nb) else pick v np nc nb) ->
      exists m : list (key * key), (do m <- new_names is_module l np' nc' nb'; Ok ((k, (numbered pre i, snd k)) :: m)) = Ok m /\ map fst m = k :: l /\
      (forall a b : key, In (a, b) m -> snd b = snd a /\
        ((is_module (snd a) = true /\ b = a) \/
        (placeholder (snd a) /\ exists i, (pick (snd a) np nc nb <= i)%nat /\ fst b = numbered (prefix_of (snd a)) i))) /\
      (forall v, placeholder v -> filter (fun k : key => Nat.eqb (snd k) v) (map snd m)
                                = map (fun i => (numbered (prefix_of v) i, v) : key) (seq (pick v np nc nb) (numbers (k :: l) v)))).
    { intros pre i np' nc' nb' Hpre Hi Hpk. destruct (IH np' nc' nb' Hl) as (m & E & F & Hm & Hf). rewrite E. cbn [bind].
      exists ((k, (numbered pre i, snd k)) :: m). split; [reflexivity|]. split; [cbn [map fst]; f_equal; exact F|]. split.
      - intros a b [Hab|Hab].
        + inversion Hab; subst a b. cbn. split; [reflexivity|]. right. split; [exact Hp|]. exists i. split; [lia|congruence].
        + destruct (Hm a b Hab) as [Hs [Hc|(Hc & j & Hj & Hn)]]; [auto|]. split; [exact Hs|]. right. split; [exact Hc|].
          exists j. split; [|exact Hn]. rewrite Hpk in Hj by exact Hc. destruct (Nat.eqb (snd k) (snd a)); lia.
      - intros v Hv. rewrite Count. cbn [map filter snd]. rewrite (Hf v Hv), Hpk by exact Hv.
        destruct (Nat.eqb_spec (snd k) v) as [He|He]; [subst v; cbn [plus seq map]; rewrite Hpre, Hi; reflexivity|reflexivity]. }
    destruct Hp as [Hp|[Hp|Hp]]; rewrite Hp in *; cbn [Nat.eqb v_pass v_cat v_bind] in *.
    + apply Step; try reflexivity. intros v [->|[->| ->]]; reflexivity.
    + apply Step; try reflexivity. intros v [->|[->| ->]]; reflexivity.
    + apply Step; try reflexivity. intros v [->|[->| ->]]; reflexivity.
Qed.
Lemma new_names_fail : forall l np nc nb k, In k l -> is_module (snd k) = false -> ~ placeholder (snd k) ->
  new_names is_module l np nc nb = Raise NotImplementedError.
Proof.
  assert (Any : forall l np nc nb, (exists m : list (key * key), new_names is_module l np nc nb = Ok m) \/ new_names is_module l np nc nb = Raise NotImplementedError).
  { induction l as [|k l IH]; intros np nc nb; cbn [new_names]; [left; eexists; reflexivity|].
    repeat match goal with |- context[if ?c then _ else _] => destruct c end;
      try (match goal with |- context[new_names _ l ?a ?b ?c] => destruct (IH a b c) as [[m ->]| ->]; cbn [bind]; [left; eexists; reflexivity|right; reflexivity] end).
    right. reflexivity. }
  induction l as [|z l IH]; intros np nc nb k Hi Hm Hp; [destruct Hi|]. cbn [new_names]. destruct Hi as [->|Hi].
  - rewrite Hm. destruct (Nat.eqb_spec (snd k) v_pass); [exfalso; apply Hp; red; auto|].
    destruct (Nat.eqb_spec (snd k) v_cat); [exfalso; apply Hp; red; auto|].
    destruct (Nat.eqb_spec (snd k) v_bind); [exfalso; apply Hp; red; auto|]. reflexivity.
  - repeat match goal with |- context[if ?c then _ else _] => destruct c end; try rewrite (IH _ _ _ k Hi Hm Hp); reflexivity.
Qed.

Lemma prefix_ne v w i j : placeholder v -> placeholder w -> numbered (prefix_of v) i = numbered (prefix_of w) j -> v = w /\ i = j.
Proof.
  intros Hv Hw. destruct Hv as [->|[->| ->]], Hw as [->|[->| ->]]; intros E;
    try (apply numbered_inj in E; auto); exfalso; unfold numbered in E; cbn in E; discriminate E.
Qed.

(** [renamed] on the pairs. *)
Lemma renamed_in : forall m a b, NoDup (map fst m) -> In (a, b) m -> renamed m a = b.
Proof.
  induction m as [|[x y] m IH]; intros a b N Hi; [destruct Hi|]. cbn. inversion N as [|? ? Hx Nm]; subst.
  destruct Hi as [Hi|Hi].
  - inversion Hi; subst. destruct (keq a a); [reflexivity|congruence].
  - destruct (keq x a) as [->|Hne]; [|apply IH; assumption]. exfalso. apply Hx. apply (in_map fst) in Hi. exact Hi.
Qed.

Variable g : graph.
Hypothesis HG : G g.
Hypothesis Ac : acyclic g.
Hypothesis kinds : forall k, present g k -> is_module (snd k) = true \/ placeholder (snd k).
Hypothesis free : forall k v i, present g k -> is_module (snd k) = true -> placeholder v -> fst k <> numbered (prefix_of v) i.

Definition entry_of (m : list (key * key)) (k : key) : list (string * node) :=
  match find_node g k with Some nd => [(fst (renamed m k), rename_node m nd)] | None => [] end.

Lemma put_new : forall s nm nd, ~ In nm (map fst s) -> put s nm nd = s ++ [(nm, nd)].
Proof.
  induction s as [|[a b] s IH]; intros nm nd H; cbn; [reflexivity|]. destruct (String.eqb_spec a nm) as [->|Hne].
  - exfalso. apply H. left. reflexivity.
  - rewrite IH; [reflexivity|]. intros Hc. apply H. right. exact Hc.
Qed.

Lemma rename_ok : exists (rho : key -> key) (ks : list key) g', topo_rename is_module g = Ok g' /\
  NoDup ks /\ (forall k, In k ks <-> present g k) /\
  (forall l1 k l2, ks = l1 ++ k :: l2 -> forall p, lists_next g p k -> In p l1) /\
  (forall a b, present g a -> present g b -> rho a = rho b -> a = b) /\
  (forall a, snd (rho a) = snd a) /\ (forall a, present g a -> is_module (snd a) = true -> rho a = a) /\
  (forall v, placeholder v -> filter (fun k : key => Nat.eqb (snd k) v) (map rho ks)
                              = map (fun i => (numbered (prefix_of v) i, v) : key) (seq 0 (numbers ks v))) /\
  keys g' = map rho ks /\
  WF g' (fun x y => exists a b, lists_next g a b /\ x = rho a /\ y = rho b) /\
  (forall z, stored g' z <-> exists a, present g a /\ z = rho a).
Proof.
  assert (N : NoDup (map fst g)) by apply HG.
  assert (P : forall k, present g k <-> stored g k) by (intros k; apply present_stored; exact N).
  destruct (traversal g HG Ac) as (ys & Et & Nk & Ik).
  set (ks := map (key_at g) ys) in *.
  destruct (new_names_ok ks 0 0 0) as (m & Em & Fm & Hm & Hf).
  { intros k Hk. apply kinds. apply P. apply Ik. exact Hk. }
  assert (Nm : NoDup (map fst m)) by (rewrite Fm; exact Nk).
  assert (Rin : forall k, In k ks -> In (k, renamed m k) m).
  { intros k Hk. rewrite <- Fm in Hk. apply in_map_iff in Hk as ([a b] & He & Hi). cbn in He. subst a.
    rewrite (renamed_in m k b Nm Hi). exact Hi. }
  assert (Rsnd : forall k, snd (renamed m k) = snd k).
  { intros k. destruct (in_dec keq k ks) as [Hk|Hk]; [apply (Hm _ _ (Rin k Hk))|].
    rewrite <- Fm in Hk. assert (E0 : renamed m k = k); [|rewrite E0; reflexivity]. clear - Hk. induction m as [|[a b] m IH]; [reflexivity|].
    cbn in Hk |- *. destruct (keq a k); [tauto|]. apply IH. tauto. }
  (* the new names are distinct *)
  assert (Dist : forall a b, In a ks -> In b ks -> fst (renamed m a) = fst (renamed m b) -> a = b).
  { intros a b Ha Hb He. destruct (Hm _ _ (Rin a Ha)) as [Sa Ca]. destruct (Hm _ _ (Rin b Hb)) as [Sb Cb].
    assert (Pa : present g a) by (apply P, Ik; exact Ha). assert (Pb : present g b) by (apply P, Ik; exact Hb).
    destruct Ca as [[Ma Ea]|(Pla & i & _ & Na)], Cb as [[Mb Eb]|(Plb & j & _ & Nb)].
    - rewrite Ea, Eb in He. apply (stored_inj g); [apply P; exact Pa|apply P; exact Pb|exact He].
    - exfalso. rewrite Ea, Nb in He. exact (free a (snd b) j Pa Ma Plb He).
    - exfalso. rewrite Eb, Na in He. exact (free b (snd a) i Pb Mb Pla (eq_sym He)).
    - (* two placeholders: the position of the number in the list *)
      rewrite Na, Nb in He. apply prefix_ne in He as [Hv Hij]; [|assumption|assumption]. subst j.
      assert (Heq : renamed m a = renamed m b).
      { rewrite (surjective_pairing (renamed m a)), (surjective_pairing (renamed m b)), Na, Nb, Sa, Sb, Hv. reflexivity. }
      assert (Nf : NoDup (filter (fun k : key => Nat.eqb (snd k) (snd a)) (map snd m))).
      { rewrite (Hf (snd a) Pla). apply FinFun.Injective_map_NoDup; [|apply seq_NoDup]. intros x y Hxy. inversion Hxy as [Hx].
        apply numbered_inj in Hx. exact Hx. }
      clear - Nf Rin Ha Hb Heq Sa Nm. pose proof (Rin a Ha) as Ia. pose proof (Rin b Hb) as Ib. clear Rin.
      rewrite <- Heq in Ib. revert Ia Ib Nf Sa. generalize (renamed m a). intros c Ia Ib Nf Sc. clear Heq Ha Hb.
      induction m as [|[x y] m IH]; [destruct Ia|]. cbn [map fst] in Nm. inversion Nm as [|? ? Nx Nm']; subst.
      cbn [map filter snd] in Nf.
      assert (Hc : forall z, In (z, c) m -> In c (filter (fun k : key => Nat.eqb (snd k) (snd a)) (map snd m))).
      { intros z Hz. apply filter_In. split; [apply (in_map snd) in Hz; exact Hz|]. apply Nat.eqb_eq. exact Sc. }
      destruct Ia as [Ia|Ia], Ib as [Ib|Ib].
      + congruence.
      + exfalso. inversion Ia; subst. assert (Ey : Nat.eqb (snd c) (snd a) = true) by (apply Nat.eqb_eq; exact Sc).
        rewrite Ey in Nf. inversion Nf; subst. eauto.
      + exfalso. inversion Ib; subst. assert (Ey : Nat.eqb (snd c) (snd a) = true) by (apply Nat.eqb_eq; exact Sc).
        rewrite Ey in Nf. inversion Nf; subst. eauto.
      + apply IH; auto. destruct (Nat.eqb (snd y) (snd a)); [inversion Nf; assumption|exact Nf]. }
  (* the resulting list *)
  assert (Fold : forall l s, (forall nm, In nm l -> In (key_at g nm) ks) -> NoDup l ->
      (forall nm, In nm l -> ~ In (fst (renamed m (key_at g nm))) (map fst s)) ->
      fold_left (fun s nm => match get g nm with
                             | Some nd => put s (fst (renamed m (nm, n_val nd))) (rename_node m nd)
                             | None => s end) l s
      = s ++ flat_map (entry_of m) (map (key_at g) l)).
  { induction l as [|nm l IH]; intros s Hl Nl Hs; cbn [fold_left map flat_map]; [rewrite app_nil_r; reflexivity|].
    assert (Hst : stored g (key_at g nm)) by (apply Ik; apply Hl; left; reflexivity).
    destruct Hst as [nd Hnd]. unfold find_node in Hnd. unfold key_at in Hnd at 1. cbn [fst] in Hnd.
    destruct (get g nm) as [nd'|] eqn:Eg; [|discriminate].
    assert (Ek : key_at g nm = (nm, n_val nd')) by (unfold key_at; rewrite Eg; reflexivity).
    assert (En : entry_of m (key_at g nm) = [(fst (renamed m (nm, n_val nd')), rename_node m nd')]).
    { unfold entry_of, find_node. rewrite Ek. cbn [fst snd]. rewrite Eg, Nat.eqb_refl. reflexivity. }
    rewrite En, put_new.
    2:{ rewrite <- Ek. apply Hs. left. reflexivity. }
    inversion Nl as [|? ? Nn Nl']; subst. rewrite IH.
    - rewrite <- app_assoc. reflexivity.
    - intros z Hz. apply Hl. right. exact Hz.
    - exact Nl'.
    - intros z Hz. rewrite map_app, in_app_iff. cbn. intros [Hc|[Hc|[]]].
      + exact (Hs z (or_intror Hz) Hc).
      + rewrite <- Ek in Hc. apply Dist in Hc; [|apply Hl; left; reflexivity|apply Hl; right; exact Hz].
        apply (f_equal fst) in Hc. cbn in Hc. subst. contradiction. }
  set (g' := flat_map (entry_of m) ks).
  assert (Eg' : topo_rename is_module g = Ok g').
  { unfold topo_rename. rewrite Et. fold ks. rewrite Em. cbn [bind]. rewrite Fold; [reflexivity| | |].
    - intros nm Hi. apply in_map. exact Hi.
    - assert (Ny : map fst ks = ys) by (unfold ks; rewrite map_map; cbn; apply map_id).
      apply (NoDup_map_inv (key_at g)). exact Nk.
    - intros nm _ []. }
  assert (Ent : forall k, In k ks -> exists nd, find_node g k = Some nd /\ entry_of m k = [(fst (renamed m k), rename_node m nd)]).
  { intros k Hk. apply Ik in Hk as [nd Hnd]. exists nd. split; [exact Hnd|]. unfold entry_of. rewrite Hnd. reflexivity. }
  assert (Keys : keys g' = map (renamed m) ks).
  { unfold g', keys. clear Fold Eg'. assert (Hl : incl ks ks) by (intros x Hx; exact Hx). revert Hl. generalize ks at 1 3 4 as l.
    induction l as [|k l IH]; intros Hl; cbn; [reflexivity|].
    destruct (Ent k (Hl k (or_introl eq_refl))) as (nd & Hnd & ->). cbn. rewrite IH by (intros z Hz; apply Hl; right; exact Hz).
    rewrite (find_val _ _ _ Hnd), <- (Rsnd k), <- surjective_pairing. reflexivity. }
  assert (N' : NoDup (map fst g')).
  { assert (Ef : map fst g' = map fst (keys g')) by (unfold keys; rewrite map_map; reflexivity).
    rewrite Ef, Keys, map_map. clear - Dist Nk. assert (Hl : incl ks ks) by (intros x Hx; exact Hx). revert Hl Nk. generalize ks at 1 3 4 as l.
    induction l as [|k l IH]; intros Hl Nl; cbn; constructor; inversion Nl; subst.
    - rewrite in_map_iff. intros (z & Hz & Hi). apply Dist in Hz; [subst; contradiction|apply Hl; right; exact Hi|apply Hl; left; reflexivity].
    - apply IH; [intros z Hz; apply Hl; right; exact Hz|assumption]. }
  assert (Find : forall k nd, find_node g k = Some nd -> find_node g' (renamed m k) = Some (rename_node m nd)).
  { intros k nd Hk. assert (Hks : In k ks) by (apply Ik; exists nd; exact Hk). apply node_of_find; [exact N'|]. split.
    - unfold g'. apply in_flat_map. exists k. split; [exact Hks|]. unfold entry_of. rewrite Hk. left. reflexivity.
    - cbn. rewrite Rsnd. exact (find_val _ _ _ Hk). }
  assert (St : forall z, stored g' z <-> exists a, present g a /\ z = renamed m a).
  { intros z. rewrite <- keys_stored by exact N'. rewrite Keys, in_map_iff. split.
    - intros (a & Ha & Hi). exists a. split; [apply P, Ik; exact Hi|auto].
    - intros (a & Ha & Hi). exists a. split; [auto|apply Ik, P; exact Ha]. }
  assert (Inj : forall a b, present g a -> present g b -> renamed m a = renamed m b -> a = b).
  { intros a b Ha Hb He. apply Dist; [apply Ik, P; exact Ha|apply Ik, P; exact Hb|congruence]. }
  assert (Ln : forall a b, lists_next g a b -> present g a /\ present g b) by apply (G_consistent _ HG).
  assert (SP : forall k, stored g k -> succs g' (renamed m k) = map (renamed m) (succs g k) /\ preds g' (renamed m k) = map (renamed m) (preds g k)).
  { intros k [nd Hk]. unfold succs, preds. rewrite (Find k nd Hk), Hk. split; reflexivity. }
  pose proof HG as [(_ & H2 & H3 & H4) _].
  exists (renamed m), ks, g'. split; [exact Eg'|]. split; [exact Nk|]. split; [intros k; rewrite P; apply Ik|]. split; [|split; [exact Inj|split; [exact Rsnd|split; [|split; [|split; [exact Keys|split; [|exact St]]]]]]].
  - (* topological order *)
    destruct (topo_main g HG) as (ys' & r & Et' & _ & _ & Ord & _). rewrite Et in Et'. inversion Et'; subst ys'.
    intros l1 k l2 Hs p Hp. assert (Hy : ys = map fst l1 ++ fst k :: map fst l2).
    { assert (Ny : map fst ks = ys) by (unfold ks; rewrite map_map; cbn; apply map_id). rewrite <- Ny, Hs, map_app. reflexivity. }
    assert (Hn : name_edge g (fst p) (fst k)).
    { apply name_edge_next; [exact HG|]. exists (snd p), (snd k). rewrite <- !surjective_pairing. exact Hp. }
    pose proof (Ord _ _ _ Hy _ Hn) as Hi. apply in_map_iff in Hi as (q & Hq & Hi).
    assert (q = p); [|subst; exact Hi]. apply (stored_inj g); [apply Ik; rewrite Hs; apply in_app_iff; left; exact Hi|apply P; apply (Ln _ _ Hp)|exact Hq].
  - intros a Ha Hmod. assert (Hks : In a ks) by (apply Ik, P; exact Ha). destruct (Hm _ _ (Rin a Hks)) as [_ [[_ He]|[Hpl _]]]; [exact He|].
    exfalso. exact (modules _ Hmod Hpl).
  - intros v Hv. assert (Em2 : map (renamed m) ks = map snd m).
    { rewrite <- Fm, map_map. apply map_ext_in. intros [a b] Hi. cbn. apply renamed_in; assumption. }
    rewrite Em2, (Hf v Hv). replace (pick v 0 0 0) with 0%nat; [reflexivity|]. unfold pick. destruct (Nat.eqb v v_pass), (Nat.eqb v v_cat); reflexivity.
  - assert (Gone : forall z, ~ stored g' z -> succs g' z = [] /\ preds g' z = []).
    { intros z Hz. unfold succs, preds. destruct (find_node g' z) as [nd|] eqn:Ez; [exfalso; apply Hz; exists nd; exact Ez|auto]. }
    assert (Cases : forall z, (exists a, stored g a /\ z = renamed m a) \/ ~ stored g' z).
    { intros z. destruct (stored_dec g' z) as [Hs|Hs]; [left|right; exact Hs]. apply St in Hs as (a & Ha & ->). exists a. split; [apply P; exact Ha|reflexivity]. }
    assert (NDm : forall l, NoDup l -> (forall x, In x l -> present g x) -> NoDup (map (renamed m) l)).
    { induction l as [|x l IH]; intros Nl Hl; cbn; constructor; inversion Nl; subst.
      - rewrite in_map_iff. intros (y & Hy & Hi). apply Inj in Hy; [subst; contradiction|apply Hl; right; exact Hi|apply Hl; left; reflexivity].
      - apply IH; [assumption|intros y Hy; apply Hl; right; exact Hy]. }
    split; [split; [exact N'|]; split; [|split]|].
    + intros z. destruct (Cases z) as [(a & Ha & ->)|Hz].
      * destruct (SP a Ha) as [-> ->]. destruct (H2 a) as [Na Nb]. split; apply NDm; try assumption.
        -- intros x Hx. apply H3 in Hx. apply (Ln _ _ Hx).
        -- intros x Hx. apply H4 in Hx. apply (Ln _ _ Hx).
      * destruct (Gone z Hz) as [-> ->]. split; constructor.
    + intros x y. split.
      * intros Hy. destruct (Cases x) as [(a & Ha & ->)|Hz].
        -- rewrite (proj1 (SP a Ha)) in Hy. apply in_map_iff in Hy as (b & <- & Hb). exists a, b. split; [apply H3; exact Hb|auto].
        -- rewrite (proj1 (Gone x Hz)) in Hy. destruct Hy.
      * intros (a & b & Hl & -> & ->). rewrite (proj1 (SP a (proj1 (P a) (proj1 (Ln _ _ Hl))))). apply in_map. apply H3. exact Hl.
    + intros x y. split.
      * intros Hx. destruct (Cases y) as [(b & Hb & ->)|Hz].
        -- rewrite (proj2 (SP b Hb)) in Hx. apply in_map_iff in Hx as (a & <- & Ha). exists a, b. split; [apply H4; exact Ha|auto].
        -- rewrite (proj2 (Gone y Hz)) in Hx. destruct Hx.
      * intros (a & b & Hl & -> & ->). rewrite (proj2 (SP b (proj1 (P b) (proj2 (Ln _ _ Hl))))). apply in_map. apply H4. exact Hl.
    + intros x y (a & b & Hl & -> & ->). apply Ln in Hl. rewrite !St. split; [exists a|exists b]; tauto.
Qed.
End Rename.

(** If no module has a name like a placeholder, renaming gives a graph of the same shape: every
    node [a] becomes [rho a], modules stay what they are, the nodes come in a topological order,
    and the placeholders of each kind are numbered from 0 in that order. *)
Theorem C158_rename_partial : forall is_module cs, deletes_ok empty_graph cs ->
  let g := run cs empty_graph in
  (forall v, is_module v = true -> ~ placeholder v) -> acyclic g ->
  (forall k, present g k -> is_module (snd k) = true \/ placeholder (snd k)) ->
  (forall k v i, present g k -> is_module (snd k) = true -> placeholder v -> fst k <> numbered (prefix_of v) i) ->
  exists g' (rho : key -> key) (ks : list key), topo_rename is_module g = Ok g' /\ consistent g' /\
    keys g' = map rho ks /\ NoDup ks /\ (forall k, In k ks <-> present g k) /\
    (forall l1 k l2, ks = l1 ++ k :: l2 -> forall p, lists_next g p k -> In p l1) /\
    (forall a b, present g a -> present g b -> rho a = rho b -> a = b) /\
    (forall a, present g a -> is_module (snd a) = true -> rho a = a) /\
    (forall v, placeholder v -> filter (fun k : key => Nat.eqb (snd k) v) (keys g')
       = map (fun i => (numbered (prefix_of v) i, v) : key) (seq 0 (length (filter (fun k : key => Nat.eqb (snd k) v) ks)))) /\
    (forall x y, lists_next g' x y <-> exists a b, lists_next g a b /\ x = rho a /\ y = rho b).
Proof.
  intros is_module cs Hd g Hmod Ac Hk Hfr. assert (HG : G g) by (apply run_G; [apply G_empty|exact Hd]).
  destruct (rename_ok is_module Hmod g HG Ac Hk Hfr) as (rho & ks & g' & E & A1 & A2 & A3 & A4 & A5 & A6 & A7 & A8 & W & A9).
  exists g', rho, ks. split; [exact E|]. split; [apply G_consistent; exact (WF_G _ _ W)|]. split; [exact A8|].
  split; [exact A1|]. split; [exact A2|]. split; [exact A3|]. split; [exact A4|]. split; [exact A6|]. split.
  - intros v Hv. rewrite A8. exact (A7 v Hv).
  - exact (WF_lists _ _ W).
Qed.
Print Assumptions C158_rename_partial.

(** A graph with an input or output placeholder cannot be renamed. *)
Theorem C158_other : forall is_module cs k, deletes_ok empty_graph cs ->
  let g := run cs empty_graph in
  acyclic g -> present g k -> is_module (snd k) = false -> ~ placeholder (snd k) ->
  topo_rename is_module g = Raise NotImplementedError.
Proof.
  intros is_module cs k Hd g Ac Hk Hm Hp. assert (HG : G g) by (apply run_G; [apply G_empty|exact Hd]).
  destruct (traversal g HG Ac) as (ys & Et & _ & Ik). unfold topo_rename. rewrite Et.
  rewrite (new_names_fail is_module (map (key_at g) ys) 0 0 0 k); [reflexivity| |exact Hm|exact Hp].
  apply Ik. apply present_stored; [apply HG|exact Hk].
Qed.
Print Assumptions C158_other.

(** Graphs with cycles are refused. *)
Theorem C158_cyclic : forall is_module cs, deletes_ok empty_graph cs ->
  let g := run cs empty_graph in
  ~ acyclic g -> exists e, topo_rename is_module g = Raise e.
Proof.
  intros is_module cs Hd g Nc. assert (HG : G g) by (apply run_G; [apply G_empty|exact Hd]).
  unfold topo_rename.
  destruct (topo_main g HG) as (ys & r & E & N & I & _ & [(-> & HP & Hc)|(-> & b & Hb)]); rewrite E.
  - exfalso. apply Nc. apply acyclic_names; assumption.
  - eexists. reflexivity.
Qed.
Print Assumptions C158_cyclic.
(** Two layers that feed each other. *)
Example C158_cyclic_example :
  exists e, topo_rename (fun v => 10 <=? v)%nat
    (run [AddNode ("a"%string, 10%nat); AddNode ("b"%string, 11%nat);
          Connect ("a"%string, 10%nat) ("b"%string, 11%nat); Connect ("b"%string, 11%nat) ("a"%string, 10%nat)] empty_graph)
    = Raise e.
Proof. eexists. vm_compute. reflexivity. Qed.

(** Full claim: converting traced paths keeps every layer and every bind node. *)
Definition C158_rename_claim : Prop := forall is_module cs g',
  deletes_ok empty_graph cs -> (forall v, is_module v = true -> ~ placeholder v) ->
  topo_rename is_module (run cs empty_graph) = Ok g' -> length g' = length (run cs empty_graph).
(** Two layers feed a layer called 'bind_0': the bind node in between gets the same name and
    disappears from the graph, though the layer still names it as its input. *)
Theorem C158_rename_refuted : ~ C158_rename_claim.
Proof.
  intros H.
  set (a := ("a"%string, 10%nat)). set (b := ("b"%string, 11%nat)). set (c := ("bind_0"%string, 12%nat)).
  set (p := ("bind_placeholder_0"%string, v_bind)).
  set (cs := [AddNode a; AddNode b; AddNode c; AddNode p; Connect a p; Connect b p; Connect p c]).
  assert (Hd : deletes_ok empty_graph cs) by (cbn; tauto).
  assert (Hm : forall v : nat, (10 <=? v)%nat = true -> ~ placeholder v).
  { intros v Hv [->|[->| ->]]; discriminate Hv. }
  destruct (topo_rename (fun v => Nat.leb 10 v) (run cs empty_graph)) as [g'|e] eqn:E; [|vm_compute in E; discriminate E].
  specialize (H _ cs g' Hd Hm E). vm_compute in E. apply Ok_inj in E. subst g'. vm_compute in H. discriminate H.
Qed.
Print Assumptions C158_rename_refuted.

(** The same through the whole conversion of paths: the result has three nodes, and the layer's
    only input is not among them. *)
Example C158_path_example :
  let mods (n : string) := (if String.eqb n "a" then Some 10 else if String.eqb n "b" then Some 11
                            else if String.eqb n "bind_0" then Some 12 else if String.eqb n "c" then Some 13 else None)%nat%string in
  let big (v : nat) := Nat.leb 10 v in
  let show (r : outcome graph) := match r with Ok g => Some (map (fun p => (fst p, n_prev (snd p))) g) | Raise _ => None end in
  show (path_to_graph big big mods
         [[Tracer_Model.PConv "c"; Tracer_Model.PConv "a"]; [Tracer_Model.PConv "c"; Tracer_Model.PConv "b"]]%string)
  = Some [("a", []); ("b", []); ("bind_0", [("a", 10); ("b", 11)]); ("c", [("bind_0", v_bind)])]%string%nat /\
  show (path_to_graph big big mods
         [[Tracer_Model.PConv "bind_0"; Tracer_Model.PConv "a"]; [Tracer_Model.PConv "bind_0"; Tracer_Model.PConv "b"]]%string)
  = Some [("a", []); ("b", []); ("bind_0", [("bind_0", v_bind)])]%string%nat.
Proof. split; vm_compute; reflexivity. Qed.
