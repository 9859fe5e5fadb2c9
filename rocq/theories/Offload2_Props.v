(** C230-C231: replacing modules by dynamic ones, and the default dtype. *)
From Coq Require Import String.
From Verif Require Import Prelude Onnx_Model Onnx_Lemmas Offload_Model Offload_Props.
Local Open Scope string_scope.
Local Open Scope list_scope.
Local Open Scope nat_scope.

(** Two modules with the same identity are the same module. *)
Definition consistent (m : module) : Prop := forall a b, In a (subs m) -> In b (subs m) -> id_of a = id_of b -> a = b.
(** The places of modules of certain types below a module: parent, name, module. *)
Fixpoint slots (types : list nat) (m : module) : list (nat * string * nat) :=
  match m with
  | Mod i _ _ cs => (fix go (l : list (string * module)) := match l with [] => [] | c :: r => (if isin (type_of (snd c)) types then [(i, fst c, id_of (snd c))] else []) ++ slots types (snd c) ++ go r end) cs
  end.
(** The children of a module, one after the other. *)
Fixpoint walks (types : list nat) (i : nat) (l : list (string * module)) (seen : list nat) : list nat * list (nat * string * nat) :=
  match l with [] => (seen, []) | c :: l => let '(s1, a) := walk types i (fst c) (snd c) seen in let '(s2, b) := walks types i l s1 in (s2, a ++ b) end.
Lemma walk_eq types p n m seen : walk types p n m seen =
  if isin (id_of m) seen then (seen, []) else
  let '(seen', r) := walks types (id_of m) (children m) (id_of m :: seen) in (seen', (if isin (type_of m) types then [(p, n, id_of m)] else []) ++ r).
Proof.
  destruct m as [i t own cs]. cbn [walk id_of type_of children]. destruct (isin i seen); auto.
  match goal with |- (let '(_, _) := ?f cs _ in _) = _ => assert (G : forall l s, f l s = walks types i l s) end.
  { induction l as [| c l IH]; intro s; [reflexivity |]. cbn [walks]. destruct (walk types i (fst c) (snd c) s) as [s1 a]. now rewrite IH. }
  now rewrite G.
Qed.
Fixpoint size (m : module) : nat := match m with Mod _ _ _ cs => S ((fix go (l : list (string * module)) := match l with [] => 0 | c :: r => size (snd c) + go r end) cs) end.
Lemma size_child m n c : In (n, c) (children m) -> size c < size m.
Proof. destruct m as [i t own cs]. cbn [children size]. induction cs as [| x cs IH]; intros []; [subst x; cbn [snd]; lia | specialize (IH H); lia]. Qed.
Lemma subs_trans : forall m a b, In a (subs m) -> In b (subs a) -> In b (subs m).
Proof.
  induction m as [i t own cs IH] using module_ind'. intros a b Ha Hb. rewrite subs_eq in Ha. destruct Ha as [<- | Ha]; auto. rewrite subs_eq. right. unfold below in *. cbn [children] in *.
  apply in_flat_map in Ha as [c [Hc Ha]]. apply in_flat_map. exists c. split; auto. eapply IH; eauto.
Qed.
Lemma subs_self m : In m (subs m).
Proof. rewrite subs_eq. now left. Qed.
Lemma subs_child m n c : In (n, c) (children m) -> In c (subs m).
Proof. intro H. rewrite subs_eq. right. unfold below. apply in_flat_map. exists (n, c). split; auto. apply subs_self. Qed.
Lemma nodup_join {A} (a b : list A) : NoDup a -> NoDup b -> (forall x, In x a -> ~ In x b) -> NoDup (a ++ b).
Proof.
  intros Ha Hb H. induction a as [| x a IH]; auto. inversion Ha; subst. cbn. constructor; [| apply IH; auto; intros; apply H; now right].
  intro Hin. apply in_app_or in Hin as [Hin | Hin]; [auto | apply (H x (or_introl eq_refl) Hin)].
Qed.
(** Everything that was seen and is not larger was seen with all that is below it. *)
Definition whole (root : module) (k : nat) (seen : list nat) : Prop := forall x, In x (subs root) -> In (id_of x) seen -> size x <= k -> incl (ids x) seen.
Lemma walk_all types root : consistent root -> forall m p n seen, In m (subs root) -> whole root (size m) seen ->
  let '(seen', r) := walk types p n m seen in
  (forall i, In i seen' <-> In i seen \/ In i (ids m)) /\
  (forall i, In i (map snd r) <-> ~ In i seen /\ exists y, In y (subs m) /\ id_of y = i /\ isin (type_of y) types = true) /\
  NoDup (map snd r) /\
  (forall q k i, In (q, k, i) r -> (q, k, i) = (p, n, id_of m) \/ exists a c, In a (subs m) /\ id_of a = q /\ In (k, c) (children a) /\ id_of c = i).
Proof.
  intro Hcons. induction m as [i t own cs IH] using module_ind'. intros p n seen Hm Hw. rewrite walk_eq. set (m := Mod i t own cs) in *. change (children m) with cs. destruct (isin (id_of m) seen) eqn:E.
  - apply isin_in in E. assert (Hin : incl (ids m) seen) by (apply Hw; auto). split; [| split; [| split]].
    + intro x. split; [auto | intros [H | H]; auto].
    + intro x. split; [intros [] |]. intros [H [y [Hy [<- _]]]]. apply H, Hin. unfold ids. now apply in_map.
    + constructor.
    + intros q k x [].
  - apply isin_out in E.
    assert (G : forall l s, (forall c, In c l -> In c cs) -> incl (id_of m :: seen) s -> (forall x, In x s -> In x (id_of m :: seen) \/ In x (ids m)) ->
      (forall k, k < size m -> whole root k s) ->
      let '(s', r) := walks types (id_of m) l s in
      (forall x, In x s' <-> In x s \/ exists c, In c l /\ In x (ids (snd c))) /\
      (forall x, In x (map snd r) <-> ~ In x s /\ exists c y, In c l /\ In y (subs (snd c)) /\ id_of y = x /\ isin (type_of y) types = true) /\
      NoDup (map snd r) /\
      (forall q k x, In (q, k, x) r -> exists a c, In a (subs m) /\ id_of a = q /\ In (k, c) (children a) /\ id_of c = x)).
    { induction l as [| [k c] l IHl]; intros s Hl Hs Hin Hwh.
      { cbn [walks]. split; [| split; [| split]]; [| | constructor | intros q k x []].
        - intro x. split; [auto | intros [H | [c [[] _]]]; auto].
        - intro x. split; [intros [] | intros [_ [c [y [[] _]]]]]. }
      assert (Hkc : In (k, c) cs) by (apply Hl; now left).
      assert (Hcm : In c (subs m)) by (eapply subs_child; change (children m) with cs; eauto).
      assert (Hcr : In c (subs root)) by (eapply subs_trans; eauto).
      assert (Hsz : size c < size m) by (eapply size_child; change (children m) with cs; eauto).
      specialize (IH (k, c) Hkc (id_of m) k s Hcr (Hwh (size c) Hsz)). cbn [walks fst snd] in *. destruct (walk types (id_of m) k c s) as [s1 r1]. destruct IH as [I1 [I2 [I3 I4]]].
      assert (Hids : incl (ids c) (ids m)) by (intros x Hx; unfold ids in *; apply in_map_iff in Hx as [y [<- Hy]]; apply in_map; eapply subs_trans; eauto).
      specialize (IHl s1 ltac:(intros x Hx; apply Hl; now right)).
      assert (A1 : incl (id_of m :: seen) s1) by (intros x Hx; apply I1; left; auto).
      assert (A2 : forall x, In x s1 -> In x (id_of m :: seen) \/ In x (ids m)) by (intros x Hx; apply I1 in Hx as [Hx | Hx]; auto).
      assert (A3 : forall k, k < size m -> whole root k s1).
      { intros k' Hk x Hx Hxs Hxk. apply I1 in Hxs as [Hxs | Hxs].
        - intros z Hz. apply I1. left. eapply (Hwh k' Hk); eauto.
        - unfold ids in Hxs. apply in_map_iff in Hxs as [y [Ey Hy]]. assert (y = x) by (apply Hcons; auto; exact (subs_trans root c y Hcr Hy)). subst y.
          intros z Hz. apply I1. right. unfold ids in *. apply in_map_iff in Hz as [u [<- Hu]]. apply in_map. eapply subs_trans; eauto. }
      specialize (IHl A1 A2 A3). destruct (walks types (id_of m) l s1) as [s2 r2]. destruct IHl as [J1 [J2 [J3 J4]]]. split; [| split; [| split]].
      - intro x. rewrite J1, I1. split.
        + intros [[H | H] | [d [H1 H2]]]; [auto | right; exists (k, c); split; [now left | auto] | right; exists d; split; [now right | auto]].
        + intros [H | [d [[<- | H1] H2]]]; [auto | left; right; auto | right; exists d; auto].
      - intro x. rewrite map_app, in_app_iff, I2, J2, I1. split.
        + intros [[H1 [y H2]] | [H1 [d [y [H2 H3]]]]]; [split; auto; exists (k, c), y; split; [now left | exact H2] | split; [tauto |]; exists d, y; split; [now right | exact H3]].
        + intros [H1 [d [y [[<- | H2] H3]]]]; [left; split; auto; exists y; exact H3 |].
          destruct (in_dec Nat.eq_dec x (ids c)) as [Hx | Hx].
          * left. split; auto. destruct H3 as [H3 [H4 H5]]. unfold ids in Hx. apply in_map_iff in Hx as [z [Ez Hz]]. exists z. split; auto. split; auto.
            assert (z = y); [| now subst]. apply Hcons; [exact (subs_trans root c z Hcr Hz) | | congruence]. eapply subs_trans; [exact Hm |]. destruct d as [k' d']. eapply subs_trans; [eapply subs_child; change (children m) with cs; apply Hl; right; exact H2 | exact H3].
          * right. split; [tauto |]. exists d, y. auto.
      - rewrite map_app. clear -I2 I3 J2 J3 I1. assert (D : forall x, In x (map snd r1) -> ~ In x (map snd r2)).
        { intros x H1 H2. apply I2 in H1 as [_ [y [Hy [<- _]]]]. apply J2 in H2 as [H2 _]. apply H2, I1. right. unfold ids. now apply in_map. }
        apply nodup_join; auto.
      - intros q k' x Hqx. apply in_app_or in Hqx as [Hqx | Hqx]; [| eauto]. apply I4 in Hqx as [Eq | [a [d [H1 H2]]]].
        + injection Eq as -> -> ->. exists m, c. split; [apply subs_self |]. split; auto.
        + exists a, d. split; [eapply subs_trans; eauto | exact H2]. }
    specialize (G cs (id_of m :: seen) (fun c H => H) (incl_refl _) (fun x H => or_introl H)).
    assert (Hwh : forall k, k < size m -> whole root k (id_of m :: seen)).
    { intros k Hk x Hx Hxs Hxk. destruct Hxs as [Hxs | Hxs]; [| apply incl_tl; apply Hw; auto; lia]. assert (x = m) by (apply Hcons; auto). subst x. lia. }
    specialize (G Hwh). destruct (walks types (id_of m) cs (id_of m :: seen)) as [s' r]. destruct G as [G1 [G2 [G3 G4]]].
    assert (Hnot : forall y, In y (below m) -> id_of y <> id_of m).
    { intros y Hy Ey. assert (Hym : In y (subs m)) by (rewrite subs_eq; now right). assert (y = m) by (apply Hcons; auto; exact (subs_trans root m y Hm Hym)). subst y.
      assert (Hlt : forall a b, In b (below a) -> size b < size a).
      { clear. induction a as [i t own cs IH] using module_ind'. intros b Hb. unfold below in Hb. cbn [children] in Hb. apply in_flat_map in Hb as [[k c] [Hc Hb]]. cbn [snd] in Hb. rewrite subs_eq in Hb.
        pose proof (size_child (Mod i t own cs) k c Hc). destruct Hb as [<- | Hb]; [auto | specialize (IH (k, c) Hc b Hb); cbn [snd] in IH; lia]. }
      specialize (Hlt m m Hy). lia. }
    split; [| split; [| split]].
    + intro x. rewrite G1. unfold ids. rewrite (subs_eq m). unfold below. change (children m) with cs. cbn [map In]. split.
      * intros [[H | H] | [c [H1 H2]]]; auto. right. right. unfold ids in H2. apply in_map_iff in H2 as [y [<- Hy]]. apply in_map. apply in_flat_map. exists c. auto.
      * intros [H | [H | H]]; auto. right. apply in_map_iff in H as [y [<- Hy]]. apply in_flat_map in Hy as [c [Hc Hy]]. exists c. split; auto. unfold ids. now apply in_map.
    + intro x. rewrite map_app, in_app_iff, G2. split.
      * intros [H | [H1 [c [y [Hc [Hy H2]]]]]].
        -- destruct (isin (type_of m) types) eqn:Et; [| destruct H]. destruct H as [<- | []]. split; auto. exists m. split; [apply subs_self | auto].
        -- split; [intro; apply H1; now right |]. exists y. split; auto. destruct c as [k c]. eapply subs_trans; [eapply subs_child; change (children m) with cs; exact Hc | exact Hy].
      * intros [H1 [y [Hy [Ey Ty]]]]. rewrite subs_eq in Hy. destruct Hy as [<- | Hy]; [left; rewrite Ty; now left |]. right. pose proof (Hnot y Hy) as Hne. split.
        -- intros [H | H]; [congruence | auto].
        -- unfold below in Hy. apply in_flat_map in Hy as [c [Hc Hy]]. exists c, y. auto.
    + rewrite map_app. destruct (isin (type_of m) types); auto. cbn. constructor; auto. intro Hin. apply G2 in Hin as [Hin _]. apply Hin. now left.
    + intros q k x Hin. apply in_app_or in Hin as [Hin | Hin]; [| right; eauto]. destruct (isin (type_of m) types); [destruct Hin as [<- | []]; now left | destruct Hin].
Qed.

(** ** C230 *)
(** Each module of a mapped type is replaced, once, at a place where it was, or the root itself under the empty name; no other module is replaced. *)
Theorem C230_once : forall types m, consistent m ->
  NoDup (map snd (replace_ops types m)) /\
  (forall i, In i (map snd (replace_ops types m)) <-> exists y, In y (subs m) /\ id_of y = i /\ isin (type_of y) types = true) /\
  (forall q k i, In (q, k, i) (replace_ops types m) -> (q, k, i) = (id_of m, "", id_of m) \/ exists a c, In a (subs m) /\ id_of a = q /\ In (k, c) (children a) /\ id_of c = i).
Proof.
  intros types m Hc. pose proof (walk_all types m Hc m (id_of m) "" [] (subs_self m)) as H. unfold replace_ops. destruct (walk types (id_of m) "" m []) as [s r]. destruct H as [_ [H2 [H3 H4]]]; [intros x _ [] |].
  split; [exact H3 |]. split; [| exact H4]. intro i. cbn [snd]. rewrite H2. split; [now intros [_ H] | auto].
Qed.
(** The claim in full: afterwards no place holds a module of a mapped type. *)
Definition C230_claim : Prop := forall types m, consistent m -> incl (slots types m) (replace_ops types m).
(** A module that is used under two names is replaced under the first only. *)
Theorem C230_shared_refuted : ~ C230_claim.
Proof.
  intro H. set (c := Mod 1 7 [0] []). specialize (H [7] (Mod 0 0 [] [("a", c); ("b", c)])).
  assert (Hc : consistent (Mod 0 0 [] [("a", c); ("b", c)])) by (intros a b Ha Hb; cbn in Ha, Hb; intuition (subst; cbn in *; congruence)).
  specialize (H Hc (0, "b", 1)). cbn in H. destruct H as [E | []]; [right; now left |]. discriminate.
Qed.
(** If no module is used twice, every place is. *)
Theorem C230_partial : forall types m, NoDup (ids m) -> replace_ops types m = (if isin (type_of m) types then [(id_of m, "", id_of m)] else []) ++ slots types m.
Proof.
  intros types m Hn. unfold replace_ops.
  assert (G : forall m p n seen, NoDup (ids m) -> (forall i, In i (ids m) -> ~ In i seen) ->
    (forall i, In i (fst (walk types p n m seen)) <-> In i seen \/ In i (ids m)) /\ snd (walk types p n m seen) = (if isin (type_of m) types then [(p, n, id_of m)] else []) ++ slots types m).
  { clear. induction m as [i t own cs IH] using module_ind'. intros p n seen Hn Hd. rewrite walk_eq. cbn [id_of type_of children].
    assert (E : isin i seen = false) by (apply isin_out, Hd; left; reflexivity). rewrite E.
    unfold ids in Hn. rewrite subs_eq in Hn. cbn [map] in Hn. inversion Hn as [| ? ? N1 N2]; subst. clear Hn. cbn [id_of] in N1. unfold below in N1, N2. cbn [children] in N1, N2.
    assert (G : forall l s, (forall c, In c l -> In c cs) -> NoDup (map id_of (flat_map (fun c => subs (snd c)) l)) -> (forall x, In x (map id_of (flat_map (fun c => subs (snd c)) l)) -> ~ In x s) ->
      (forall x, In x (fst (walks types i l s)) <-> In x s \/ In x (map id_of (flat_map (fun c => subs (snd c)) l))) /\ snd (walks types i l s) = slots types (Mod i t own l)).
    { induction l as [| c l IHl]; intros s Hl Hn Hs; [split; [intro x; cbn; tauto | reflexivity] |].
      cbn [flat_map] in Hn, Hs |- *. rewrite map_app in Hn.
      assert (Hdis : forall x, In x (map id_of (flat_map (fun c => subs (snd c)) l)) -> ~ In x (ids (snd c))).
      { intros x H1 H2. unfold ids in H2. clear -Hn H1 H2. induction (map id_of (subs (snd c))) as [| y r IHr]; [destruct H2 |]. cbn in Hn. inversion Hn as [| ? ? G1 G2]; subst. destruct H2 as [-> | H2]; [apply G1, in_or_app; now right | auto]. }
      destruct (IH c (Hl c (or_introl eq_refl)) i (fst c) s) as [I1 I2]; [eapply nodup_l; exact Hn | intros x Hx; apply Hs; rewrite map_app; apply in_or_app; now left |].
      cbn [walks]. destruct (walk types i (fst c) (snd c) s) as [s1 a]. cbn [fst snd] in I1, I2.
      destruct (IHl s1) as [J1 J2]; [intros x Hx; apply Hl; now right | eapply nodup_r; exact Hn | |].
      { intros x Hx Hin. apply I1 in Hin as [Hin | Hin]; [apply (Hs x); auto; rewrite map_app; apply in_or_app; now right | apply (Hdis x Hx Hin)]. }
      destruct (walks types i l s1) as [s2 b]. cbn [fst snd] in *. split.
      - intro x. rewrite J1, I1, map_app, in_app_iff. unfold ids. tauto.
      - subst a b. cbn [slots]. now rewrite <- app_assoc. }
    destruct (G cs (i :: seen)) as [G1 G2]; auto.
    { intros x Hx [H | H]; [subst x; auto |]. apply (Hd x); auto. unfold ids. rewrite subs_eq. right. unfold below. exact Hx. }
    destruct (walks types i cs (i :: seen)) as [s' r]. cbn [fst snd] in *. split; [| now rewrite G2].
    intro x. rewrite G1. unfold ids. rewrite subs_eq. cbn [map In]. unfold below. cbn [children id_of]. tauto. }
  apply G; auto.
Qed.
(** The model itself is not replaced if it is of a mapped type: it gets its replacement as a child with the empty name. *)
Definition C230_root_claim : Prop := forall types m q k i, consistent m -> In (q, k, i) (replace_ops types m) -> k <> "".
Theorem C230_root_refuted : ~ C230_root_claim.
Proof. intro H. apply (H [7] (Mod 0 7 [0] []) 0 "" 0); [intros a b [<- | []] [<- | []] _; reflexivity | now left | reflexivity]. Qed.
Example C230_example : replace_ops [1] net = [(0, "embed", 1); (3, "fc", 4); (5, "fc", 6); (0, "head", 7)] /\ replace_ops [9] net = [] /\
  replace_ops [1] tied = [(1, "c", 3); (1, "e", 4)] /\ slots [1] tied = [(1, "c", 3); (1, "e", 4); (2, "c", 3)].
Proof. repeat split. Qed.

(** ** C231 *)
(** Statements one after the other. *)
Fixpoint runs (l : list prog) (c : dtype) : dtype * bool * list dtype :=
  match l with [] => (c, false, []) | p :: r => let '(c1, x, a) := run_prog p c in if x then (c1, true, a) else let '(c2, y, b) := runs r c1 in (c2, y, a ++ b) end.
Definition not_set (p : prog) : Prop := match p with PSet _ => False | _ => True end.
(** Code that changes the default only inside with statements leaves it as it was, whatever those do and whether or not they raise. *)
Theorem C231_restored : forall l c, Forall not_set l -> fst (fst (runs l c)) = c.
Proof.
  induction l as [| p l IH]; intros c H; [reflexivity |]. inversion H as [| ? ? H1 H2]; subst. cbn [runs].
  assert (E : fst (fst (run_prog p c)) = c).
  { destruct p as [d | d body |]; [destruct H1 | | reflexivity]. cbn [run_prog]. match goal with |- fst (fst (let '(_, _) := ?x in _)) = _ => destruct x as [[? ?] ?] end. reflexivity. }
  destruct (run_prog p c) as [[c1 x] a]. cbn in E. subst c1. destruct x; [reflexivity |]. specialize (IH c H2). destruct (runs l c) as [[c2 y] b]. exact IH.
Qed.
(** Inside, the default is the one asked for; without one it is the one from outside.  An exception inside goes on outside. *)
Theorem C231_inside : forall d body c,
  run_prog (PWith d body) c = let inside := match d with Some x => x | None => c end in let '(_, raised, seen) := runs body inside in (c, raised, inside :: seen).
Proof.
  intros d body c. cbn [run_prog]. unfold enter_setting, exit_setting, new_setting. cbn [st_dtype st_original].
  match goal with |- (let '(_, _) := ?f body _ in _) = _ => assert (G : forall l o, f l o = runs l o) end.
  { induction l as [| s l IH]; intro o; [reflexivity |]. cbn [runs]. destruct (run_prog s o) as [[o1 x] a]. destruct x; [reflexivity |]; try rewrite IH; reflexivity. }
  now rewrite G.
Qed.
(** The claim in full: leaving puts back what was there on entering.  An object that was built before the default changed puts back the older one. *)
Definition C231_claim : Prop := forall d built entered, exit_setting (new_setting d built) = entered.
Theorem C231_early_refuted : ~ C231_claim.
Proof. intro H. specialize (H None 0 1). discriminate. Qed.
Example C231_example : run_prog (PWith (Some 16) [PWith None [PSet 64]; PWith (Some 32) [PRaise]; PSet 1]) 8 = (8, true, [16; 16; 32]) /\ runs [PWith (Some 16) []; PWith (Some 1) []] 8 = (8, false, [16; 1]).
Proof. repeat split. Qed.

Print Assumptions C230_once.
Print Assumptions C230_shared_refuted.
Print Assumptions C230_partial.
Print Assumptions C230_root_refuted.
Print Assumptions C231_restored.
Print Assumptions C231_inside.
Print Assumptions C231_early_refuted.
(** An object that is built and entered at different times: only a dtype that was given is set on entering, and what is put back is what was the default when
    the object was built. *)
Theorem C231_entered : forall d built entered,
  enter_setting (new_setting d built) entered = match d with Some x => x | None => entered end /\ exit_setting (new_setting d built) = built.
Proof. intros [x |] built entered; split; reflexivity. Qed.
Example C231_entered_example : enter_setting (new_setting None 16) 32 = 32 /\ exit_setting (new_setting None 16) = 16.
Proof. split; reflexivity. Qed.
Print Assumptions C231_entered.
