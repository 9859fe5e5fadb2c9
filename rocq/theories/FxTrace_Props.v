(** C220: which functions the tracer wraps, and where. *)
From Coq Require Import String Ascii.
From Verif Require Import Prelude FxTrace_Model.
Local Open Scope string_scope.
Local Open Scope list_scope.

Definition fresh : patcher := {| visited := []; patches := [] |}.

(** ** Facts about the traversal *)
Lemma tag_eqb_eq a b : tag_eqb a b = true <-> a = b.
Proof. destruct a, b; cbn; rewrite ?Nat.eqb_eq; split; intro H; try discriminate; try congruence; injection H; auto. Qed.
Lemma seen_in p t : seen p t = true <-> In t (visited p).
Proof.
  unfold seen. rewrite existsb_exists. split.
  - intros [x [Hx E]]. apply tag_eqb_eq in E. now subst.
  - intro H. exists t. split; auto. now apply tag_eqb_eq.
Qed.
Lemma seen_not p t : seen p t = false <-> ~ In t (visited p).
Proof. rewrite <- seen_in. destruct (seen p t); split; intros; try discriminate; try easy; exfalso; auto. Qed.
Lemma each_inv (I : patcher -> Prop) f l p p' : each f l p = Some p' -> I p -> (forall kv p p', In kv l -> I p -> f kv p = Some p' -> I p') -> I p'.
Proof.
  revert p. induction l as [| kv l IH]; cbn; intros p E HI Hs.
  - now injection E as <-.
  - destruct (f kv p) as [q |] eqn:Ef; try discriminate. eapply IH; eauto.
Qed.
(** Invariants that every step keeps, kept by the whole. *)
Lemma wrap_inv (e : env) (I : patcher -> Prop) :
  (forall p t, I p -> (forall f, t <> TFun f) -> I (visit p t)) ->
  (forall p o k f, I p -> ~ In (TFun f) (visited p) ->
     (match o with OFrame n => n = fst (e_torch e) -> True | OClass c => fst (e_class e c) = true /\ In (k, VFun f) (snd (e_class e c)) /\ dunder k = false end) -> I (patch (visit p (TFun f)) o k f)) ->
  forall fuel o k v p p', (match o with OFrame _ => True | OClass c => fst (e_class e c) = true /\ In (k, v) (snd (e_class e c)) /\ dunder k = false end) ->
  wrap e fuel o k v p = Some p' -> I p -> I p'.
Proof.
  intros Hv Hp. induction fuel as [| fuel IH]; cbn [wrap]; intros o k v p p' Ho E HI; try discriminate.
  assert (Hc : forall c, (if fst (e_class e c) then if seen p (TClass c) then Some p else each (fun kv p => if dunder (fst kv) then Some p else wrap e fuel (OClass c) (fst kv) (snd kv) p) (snd (e_class e c)) (visit p (TClass c)) else Some p) = Some p' -> I p').
  { intros c Ec. destruct (fst (e_class e c)) eqn:Em; [| now injection Ec as <-].
    destruct (seen p (TClass c)); [now injection Ec as <- |].
    eapply each_inv; [exact Ec | apply Hv; [auto | discriminate] |].
    intros [k1 v1] q q' Hin Hq Eq. cbn [fst snd] in Eq. destruct (dunder k1) eqn:Ed; [now injection Eq as <- |].
    eapply IH; [| exact Eq | exact Hq]. cbn. auto. }
  destruct v as [f | c | m t | c | f]; try (exact (Hc _ E)).
  - destruct (seen p (TFun f)) eqn:Es; injection E as <-; auto. apply seen_not in Es. apply Hp; auto. destruct o; auto.
  - destruct (seen p (TModule m)); [now injection E as <- |]. cbn zeta in E.
    destruct t; [| injection E as <-; apply Hv; [auto | discriminate]].
    destruct (seen (visit p (TModule m)) (TFrame (fst (e_torch e)))); [injection E as <-; apply Hv; [auto | discriminate] |].
    eapply each_inv; [exact E | apply Hv; [apply Hv; [auto | discriminate] | discriminate] |].
    intros kv q q' Hin Hq Eq. eapply IH; [| exact Eq | exact Hq]. exact Logic.I.
  - destruct o; [now injection E as <- |]. destruct (seen p (TStatic f)); injection E as <-; auto. apply Hv; [auto | discriminate].
Qed.
Definition good (p : patcher) : Prop := NoDup (map snd (patches p)) /\ forall f, In (TFun f) (visited p) <-> In f (map snd (patches p)).
Lemma nodup_snoc (l : list nat) (x : nat) : NoDup l -> ~ In x l -> NoDup (l ++ [x]).
Proof.
  induction 1 as [| y l Hy HN IH]; cbn; intro Hx; [repeat constructor; auto |].
  constructor; [rewrite in_app_iff; cbn; intuition congruence | apply IH; tauto].
Qed.
Lemma good_visit p t : good p -> (forall f, t <> TFun f) -> good (visit p t).
Proof.
  intros [HN HV] Ht. split; auto. intro f. cbn [visit visited patches]. rewrite in_app_iff, HV. cbn. split; [| tauto].
  intros [H | [H | []]]; auto. exfalso. now apply (Ht f).
Qed.
Lemma good_patch p o k f : good p -> ~ In (TFun f) (visited p) -> good (patch (visit p (TFun f)) o k f).
Proof.
  intros [HN HV] Hf. unfold good, patch, visit; cbn [visited patches]. rewrite map_app. cbn [map snd]. split.
  - apply nodup_snoc; auto. now rewrite <- HV.
  - intro g. rewrite !in_app_iff, HV. cbn. split; intros [H | [H | []]]; auto; right; left; congruence.
Qed.
Lemma wrap_good e fuel o k v p p' :
  (match o with OFrame _ => True | OClass c => fst (e_class e c) = true /\ In (k, v) (snd (e_class e c)) /\ dunder k = false end) ->
  wrap e fuel o k v p = Some p' -> good p -> good p'.
Proof. intros Ho E H. eapply (wrap_inv e good); eauto using good_visit, good_patch. Qed.
Lemma fresh_good : good fresh.
Proof. split; cbn; [constructor | tauto]. Qed.
Lemma frame_good e fuel n d p p' : wrap_frame e fuel n d p = Some p' -> good p -> good p'.
Proof.
  unfold wrap_frame. destruct (seen p (TFrame n)); intros E H; [now injection E as <- |].
  eapply each_inv; [exact E | apply good_visit; [auto | discriminate] |].
  intros kv q q' _ Hq Eq. eapply wrap_good; [| exact Eq | exact Hq]. exact I.
Qed.

(** No function is wrapped twice, however many names, classes and namespaces hold it. *)
Theorem C220_once : forall e fuel n d p', wrap_frame e fuel n d fresh = Some p' -> NoDup (map snd (patches p')).
Proof. intros e fuel n d p' E. exact (proj1 (frame_good _ _ _ _ _ _ E fresh_good)). Qed.

(** What was visited stays visited. *)
Lemma wrap_grows e fuel : forall o k v p p' t, wrap e fuel o k v p = Some p' -> In t (visited p) -> In t (visited p').
Proof.
  induction fuel as [| fuel IH]; cbn [wrap]; intros o k v p p' t E Ht; try discriminate.
  assert (Hv : forall q u, In t (visited q) -> In t (visited (visit q u))) by (intros; cbn; rewrite in_app_iff; auto).
  assert (Hc : forall c, (if fst (e_class e c) then if seen p (TClass c) then Some p else each (fun kv p => if dunder (fst kv) then Some p else wrap e fuel (OClass c) (fst kv) (snd kv) p) (snd (e_class e c)) (visit p (TClass c)) else Some p) = Some p' -> In t (visited p')).
  { intros c Ec. destruct (fst (e_class e c)); [| now injection Ec as <-].
    destruct (seen p (TClass c)); [now injection Ec as <- |].
    eapply (each_inv (fun q => In t (visited q))); [exact Ec | apply Hv, Ht |].
    intros [k1 v1] q q' Hin Hq Eq. cbn [fst snd] in Eq. destruct (dunder k1); [now injection Eq as <- | eapply IH; eauto]. }
  destruct v as [f | c | m b | c | f]; try (exact (Hc _ E)).
  - destruct (seen p (TFun f)); injection E as <-; auto. cbn. rewrite in_app_iff. auto.
  - destruct (seen p (TModule m)); [now injection E as <- |]. cbn zeta in E. destruct b; [| injection E as <-; apply Hv, Ht].
    destruct (seen (visit p (TModule m)) (TFrame (fst (e_torch e)))); [injection E as <-; apply Hv, Ht |].
    eapply (each_inv (fun q => In t (visited q))); [exact E | apply Hv, Hv, Ht |]. intros kv q q' Hin Hq Eq. exact (IH _ _ _ _ _ _ Eq Hq).
  - destruct o; [now injection E as <- |]. destruct (seen p (TStatic f)); injection E as <-; auto.
Qed.
Lemma each_reaches (f : string * val -> patcher -> option patcher) l p p' kv t :
  each f l p = Some p' -> In kv l ->
  (forall kv p p' t, In kv l -> f kv p = Some p' -> In t (visited p) -> In t (visited p')) ->
  (forall p p', f kv p = Some p' -> In t (visited p')) -> In t (visited p').
Proof.
  intros E Hin Hg Hf. revert p E. induction l as [| x l IH]; [easy |]. cbn [each]. intros p E.
  destruct (f x p) as [q |] eqn:Ex; [| discriminate].
  destruct Hin as [-> | Hin].
  - assert (Hq : In t (visited q)) by eauto. eapply (each_inv (fun q => In t (visited q))); [exact E | exact Hq |].
    intros y a b Hy Ha Eb. eapply Hg; [right; exact Hy | exact Eb | exact Ha].
  - eapply IH; eauto. intros. eapply Hg; eauto. now right.
Qed.
Lemma wrap_fun e fuel o k f p p' : wrap e fuel o k (VFun f) p = Some p' -> In (TFun f) (visited p').
Proof.
  destruct fuel; cbn [wrap]; [discriminate |]. destruct (seen p (TFun f)) eqn:Es; intro E; injection E as <-.
  - now apply seen_in.
  - cbn. rewrite in_app_iff. cbn. auto.
Qed.

(** Every function a namespace names is wrapped, under some name of some owner. *)
Theorem C220_covered : forall e fuel n d p' k f, wrap_frame e fuel n d fresh = Some p' -> In (k, VFun f) d ->
  exists o k', In (o, k', f) (patches p').
Proof.
  intros e fuel n d p' k f E Hin. destruct (frame_good _ _ _ _ _ _ E fresh_good) as [_ HV].
  unfold wrap_frame in E. cbn [fresh visited seen existsb] in E. unfold seen in E. cbn in E.
  assert (Ht : In (TFun f) (visited p')).
  { eapply each_reaches; [exact E | exact Hin | |]; cbn [fst snd].
    - intros kv q q' t _ Eq Hq. eapply wrap_grows; eauto.
    - intros q q' Eq. eapply wrap_fun; eauto. }
  apply HV in Ht. apply in_map_iff in Ht as [[[o k'] g] [Eg Hg]]. cbn in Eg. subst g. eauto.
Qed.

(** A class is not done until every function it names is visited. *)
Definition done (e : env) (p : patcher) (c : nat) : Prop := forall k f, In (k, VFun f) (snd (e_class e c)) -> dunder k = false -> In (TFun f) (visited p).
Lemma each_grows e fuel (g : string * val -> owner) (skip : string -> bool) l p p' t :
  each (fun kv p => if skip (fst kv) then Some p else wrap e fuel (g kv) (fst kv) (snd kv) p) l p = Some p' -> In t (visited p) -> In t (visited p').
Proof.
  intros E H. eapply (each_inv (fun q => In t (visited q))); [exact E | exact H |]. cbn. intros kv q q' _ Hq Eq.
  destruct (skip (fst kv)); [now injection Eq as <- | eapply wrap_grows; eauto].
Qed.
Lemma done_grows e p p' c : done e p c -> (forall t, In t (visited p) -> In t (visited p')) -> done e p' c.
Proof. intros H Hg k f Hk Hd. apply Hg. eapply H; eauto. Qed.
Lemma each_new e fuel (g : string * val -> owner) (skip : string -> bool) c :
  (forall o k v p p', wrap e fuel o k v p = Some p' -> In (TClass c) (visited p') -> In (TClass c) (visited p) \/ done e p' c) ->
  forall l p p', each (fun kv p => if skip (fst kv) then Some p else wrap e fuel (g kv) (fst kv) (snd kv) p) l p = Some p' ->
  In (TClass c) (visited p') -> In (TClass c) (visited p) \/ done e p' c.
Proof.
  intro IH. induction l as [| kv l IHl]; cbn [each]; intros p p' E H.
  - injection E as <-. auto.
  - destruct (if skip (fst kv) then Some p else wrap e fuel (g kv) (fst kv) (snd kv) p) as [q |] eqn:Ef; [| discriminate].
    destruct (IHl _ _ E H) as [Hq | Hd]; auto.
    destruct (skip (fst kv)); [injection Ef as <-; auto |].
    destruct (IH _ _ _ _ _ Ef Hq) as [Hp | Hd]; auto. right. eapply done_grows; [exact Hd |]. intros t Ht. eapply each_grows; eauto.
Qed.
Lemma wrap_new e fuel c : forall o k v p p', wrap e fuel o k v p = Some p' -> In (TClass c) (visited p') -> In (TClass c) (visited p) \/ done e p' c.
Proof.
  induction fuel as [| fuel IH]; cbn [wrap]; intros o k v p p' E Ht; try discriminate.
  assert (Hnew : forall q t, In (TClass c) (visited (visit q t)) -> t <> TClass c -> In (TClass c) (visited q)).
  { intros q t. cbn. rewrite in_app_iff. cbn. intros [H | [H | []]] Hn; auto. now subst. }
  assert (Hc : forall c', (if fst (e_class e c') then if seen p (TClass c') then Some p else each (fun kv p => if dunder (fst kv) then Some p else wrap e fuel (OClass c') (fst kv) (snd kv) p) (snd (e_class e c')) (visit p (TClass c')) else Some p) = Some p' -> In (TClass c) (visited p) \/ done e p' c).
  { intros c' Ec. destruct (fst (e_class e c')); [| injection Ec as <-; auto].
    destruct (seen p (TClass c')); [injection Ec as <-; auto |].
    destruct (Nat.eq_dec c' c) as [-> | Hn].
    - right. intros k1 f1 Hk Hd. eapply each_reaches; [exact Ec | exact Hk | |]; cbn [fst snd].
      + intros kv q q' t _ Eq Hq. destruct (dunder (fst kv)); [now injection Eq as <- | eapply wrap_grows; eauto].
      + intros q q'. rewrite Hd. apply wrap_fun.
    - destruct (each_new e fuel (fun _ => OClass c') dunder c IH _ _ _ Ec Ht) as [H | H]; auto. left. eapply Hnew; [exact H | congruence]. }
  destruct v as [f | c' | m b | c' | f]; try (exact (Hc _ E)).
  - destruct (seen p (TFun f)); injection E as <-; auto. left. cbn in Ht. rewrite in_app_iff in Ht. cbn in Ht. destruct Ht as [H | [H | []]]; [auto | discriminate].
  - destruct (seen p (TModule m)); [injection E as <-; auto |]. cbn zeta in E. destruct b; [| injection E as <-; left; eapply Hnew; [exact Ht | discriminate]].
    destruct (seen (visit p (TModule m)) (TFrame (fst (e_torch e)))); [injection E as <-; left; eapply Hnew; [exact Ht | discriminate] |].
    destruct (each_new e fuel (fun _ => OFrame (fst (e_torch e))) (fun _ => false) c IH _ _ _ E Ht) as [H | H]; auto.
    left. eapply Hnew; [eapply Hnew; [exact H | discriminate] | discriminate].
  - destruct o; [injection E as <-; auto |]. destruct (seen p (TStatic f)); injection E as <-; auto. left. eapply Hnew; [exact Ht | discriminate].
Qed.
Lemma wrap_class_seen e fuel o k v c p p' : v = VClass c \/ v = VOther c -> fst (e_class e c) = true -> wrap e fuel o k v p = Some p' -> In (TClass c) (visited p').
Proof.
  intros Hv Hm. destruct fuel; cbn [wrap]; [discriminate |].
  intro E. assert (Ec : (if seen p (TClass c) then Some p else each (fun kv p => if dunder (fst kv) then Some p else wrap e fuel (OClass c) (fst kv) (snd kv) p) (snd (e_class e c)) (visit p (TClass c))) = Some p') by (destruct Hv as [-> | ->]; now rewrite Hm in E).
  destruct (seen p (TClass c)) eqn:Es.
  - injection Ec as <-. now apply seen_in.
  - eapply (each_grows e fuel (fun _ => OClass c) dunder); [exact Ec |]. cbn. rewrite in_app_iff. cbn. auto.
Qed.

(** The methods of a module class that a namespace names, or holds an instance of, are all wrapped, but for those with two leading underscores. *)
Theorem C220_methods : forall e fuel n d p' k v c k1 f, wrap_frame e fuel n d fresh = Some p' ->
  In (k, v) d -> v = VClass c \/ v = VOther c -> fst (e_class e c) = true -> In (k1, VFun f) (snd (e_class e c)) -> dunder k1 = false ->
  exists o k', In (o, k', f) (patches p').
Proof.
  intros e fuel n d p' k v c k1 f E Hin Hv Hm Hk Hd. destruct (frame_good _ _ _ _ _ _ E fresh_good) as [_ HV].
  unfold wrap_frame, seen in E. cbn [fresh visited existsb] in E.
  assert (Ht : In (TClass c) (visited p')).
  { eapply each_reaches; [exact E | exact Hin | |]; cbn [fst snd].
    - intros kv q q' t _ Eq Hq. eapply wrap_grows; eauto.
    - intros q q' Eq. eapply wrap_class_seen; eauto. }
  destruct (each_new e fuel (fun _ => OFrame n) (fun _ => false) c (wrap_new e fuel c) _ _ _ E Ht) as [H | H].
  - cbn in H. destruct H as [H | []]. discriminate.
  - assert (Hf : In (TFun f) (visited p')) by (eapply H; eauto).
    apply HV in Hf. apply in_map_iff in Hf as [[[o k'] g] [Eg Hg]]. cbn in Eg. subst g. eauto.
Qed.

(** Classes are patched only if they are module classes, and only where they bind the function under a name without two leading underscores. *)
Theorem C220_classes : forall e fuel n d p' c k f, wrap_frame e fuel n d fresh = Some p' -> In (OClass c, k, f) (patches p') ->
  fst (e_class e c) = true /\ In (k, VFun f) (snd (e_class e c)) /\ dunder k = false.
Proof.
  intros e fuel n d p' c k f E Hin.
  pose (J := fun p => forall c k f, In (OClass c, k, f) (patches p) -> fst (e_class e c) = true /\ In (k, VFun f) (snd (e_class e c)) /\ dunder k = false).
  assert (HJ : J p'); [| now apply HJ].
  unfold wrap_frame, seen in E. cbn [fresh visited existsb] in E.
  eapply (each_inv J); [exact E | intros ? ? ? [] |].
  intros kv q q' _ Hq Eq. eapply (wrap_inv e J); [| | | exact Eq | exact Hq]; [| | exact I].
  - intros p t Hp _. exact Hp.
  - intros p o k1 f1 Hp _ Ho c1 k2 f2 H2. cbn in H2. rewrite in_app_iff in H2. destruct H2 as [H2 | [H2 | []]]; [now apply Hp |].
    injection H2 as -> -> ->. exact Ho.
Qed.

(** The claim in full: a namespace that names a function holds the wrapper under that name. *)
Definition C220_claim : Prop := forall e fuel n d p' k f, wrap_frame e fuel n d fresh = Some p' -> In (k, VFun f) d -> In (OFrame n, k, f) (patches p').
Definition env0 : env := {| e_class := fun c => (Nat.eqb c 7, [("forward", VFun 3); ("__init__", VFun 4); ("build", VStatic 5)]); e_torch := (9%nat, [("cat", VFun 6)]) |}.
(** A function with two names is wrapped under the first only: a call by the other is not caught. *)
Theorem C220_refuted : ~ C220_claim.
Proof.
  intro H. specialize (H env0 2%nat 0%nat [("pad", VFun 1); ("F_pad", VFun 1)] _ "F_pad" 1%nat eq_refl ltac:(cbn; auto)). cbn in H.
  destruct H as [H | []]. discriminate.
Qed.
(** So is one that a module class of an earlier name binds as a method. *)
Example C220_method_first : match wrap_frame env0 3 0 [("Net", VClass 7); ("forward", VFun 3)] fresh with Some p => patches p | None => [] end = [(OClass 7, "forward", 3%nat)].
Proof. reflexivity. Qed.
Example C220_example : match wrap_frame env0 3 0 [("torch", VModule 1 true); ("np", VModule 2 false); ("net", VOther 7); ("cfg", VOther 8); ("pad", VFun 1); ("again", VFun 6)] fresh with Some p => patches p | None => [] end
  = [(OFrame 9, "cat", 6%nat); (OClass 7, "forward", 3%nat); (OFrame 0, "pad", 1%nat)].
Proof. reflexivity. Qed.

(** A namespace of functions only, each named once, is wrapped in full and in order. *)
Theorem C220_partial : forall e fuel n d, NoDup (map snd d) -> (forall k v, In (k, v) d -> exists f, v = VFun f) ->
  wrap_frame e (S fuel) n d fresh = Some {| visited := TFrame n :: map (fun kv => match snd kv with VFun f => TFun f | _ => TFrame n end) d;
                                            patches := map (fun kv => (OFrame n, fst kv, match snd kv with VFun f => f | _ => O end)) d |}.
Proof.
  intros e fuel n d HN HF. unfold wrap_frame, seen. cbn [fresh visited existsb].
  assert (G : forall l p, NoDup (map snd l) -> (forall k v, In (k, v) l -> exists f, v = VFun f /\ ~ In (TFun f) (visited p)) ->
    each (fun kv p => wrap e (S fuel) (OFrame n) (fst kv) (snd kv) p) l p =
    Some {| visited := visited p ++ map (fun kv => match snd kv with VFun f => TFun f | _ => TFrame n end) l;
            patches := patches p ++ map (fun kv => (OFrame n, fst kv, match snd kv with VFun f => f | _ => O end)) l |}).
  { induction l as [| [k v] l IH]; intros p HNl Hl; cbn [each map fst snd].
    - rewrite !app_nil_r. now destruct p.
    - destruct (Hl k v) as [f [-> Hf]]; [now left |]. cbn [wrap]. apply seen_not in Hf. rewrite Hf.
      cbn [map] in HNl. apply NoDup_cons_iff in HNl as [Hx HNl]. rewrite IH; auto.
      + cbn [patch visit visited patches]. now rewrite <- !app_assoc.
      + intros k1 v1 H1. destruct (Hl k1 v1) as [g [-> Hg]]; [now right |]. exists g. split; auto.
        cbn. rewrite in_app_iff. cbn. intros [H | [H | []]]; auto. injection H as ->. apply Hx. apply in_map_iff. exists (k1, VFun g). auto. }
  rewrite G; auto. intros k v Hv. destruct (HF k v Hv) as [f ->]. exists f. split; auto. cbn. intros [H | []]. discriminate.
Qed.
Print Assumptions C220_once.
Print Assumptions C220_covered.
Print Assumptions C220_methods.
Print Assumptions C220_classes.
Print Assumptions C220_refuted.
Print Assumptions C220_partial.

(** Names that are skipped are those that begin with two underscores. *)
Theorem C220_names : forall k, dunder k = true <-> exists r, k = ("__" ++ r)%string.
Proof.
  intro k. split.
  - destruct k as [| a k]; [discriminate |]. destruct a as [[] [] [] [] [] [] [] []]; try discriminate. destruct k as [| b k]; [discriminate |]. destruct b as [[] [] [] [] [] [] [] []]; try discriminate.
    intros _. exists k. reflexivity.
  - intros [r ->]. reflexivity.
Qed.
Example C220_names_example : dunder "__init__" = true /\ dunder "_private" = false /\ dunder "forward" = false.
Proof. repeat split. Qed.
Print Assumptions C220_names.
