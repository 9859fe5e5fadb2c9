(** C229: forward passes that keep one block on the device. *)
From Coq Require Import String.
From Verif Require Import Prelude Onnx_Model Onnx_Lemmas Offload_Model.
Local Open Scope string_scope.
Local Open Scope list_scope.
Local Open Scope nat_scope.

(** The identities of a module and what is below it, and the modules themselves. *)
Fixpoint subs (m : module) : list module :=
  match m with Mod _ _ _ cs => m :: (fix go (l : list (string * module)) := match l with [] => [] | c :: r => subs (snd c) ++ go r end) cs end.
Definition ids (m : module) : list nat := map id_of (subs m).
Definition below (m : module) : list module := flat_map (fun c => subs (snd c)) (children m).
(** What the forward of a module may do: read its own parameters and call its children, whose forwards do likewise. *)
Fixpoint does (m : module) (s : step) : Prop :=
  match s with
  | Use p => In p (own_of m)
  | Call c body => (exists n, In (n, c) (children m)) /\ (fix all (l : list step) : Prop := match l with [] => True | x :: r => does c x /\ all r end) body
  end.

Lemma isin_in x l : isin x l = true <-> In x l.
Proof. unfold isin. rewrite existsb_exists. split; [intros [y [Hy E]]; apply Nat.eqb_eq in E; now subst | intro H; exists x; split; auto; apply Nat.eqb_refl]. Qed.
Lemma isin_out x l : isin x l = false <-> ~ In x l.
Proof. rewrite <- isin_in. now destruct (isin x l). Qed.
Lemma subs_eq m : subs m = m :: below m.
Proof. destruct m as [i t own cs]. reflexivity. Qed.
Lemma params_eq m : params m = own_of m ++ flat_map (fun c => params (snd c)) (children m).
Proof. destruct m as [i t own cs]. reflexivity. Qed.
Fixpoint module_ind' (P : module -> Prop) (H : forall i t own cs, (forall c, In c cs -> P (snd c)) -> P (Mod i t own cs)) (m : module) : P m :=
  match m with
  | Mod i t own cs => H i t own cs ((fix go (l : list (string * module)) : forall c, In c l -> P (snd c) :=
      match l with [] => fun c F => False_ind _ F | x :: r => fun c F => match F with or_introl E => eq_ind x (fun c => P (snd c)) (module_ind' P H (snd x)) c E | or_intror F' => go r c F' end end) cs)
  end.
Fixpoint step_ind' (P : step -> Prop) (HU : forall p, P (Use p)) (HC : forall m body, (forall s, In s body -> P s) -> P (Call m body)) (s : step) : P s :=
  match s with
  | Use p => HU p
  | Call m body => HC m body ((fix go (l : list step) : forall s, In s l -> P s :=
      match l with [] => fun s F => False_ind _ F | x :: r => fun s F => match F with or_introl E => eq_ind x P (step_ind' P HU HC x) s E | or_intror F' => go r s F' end end) body)
  end.
Lemma does_call m c body : does m (Call c body) <-> (exists n, In (n, c) (children m)) /\ Forall (does c) body.
Proof.
  cbn [does]. apply and_iff_compat_l. induction body as [| s body IH]; [split; auto |]. rewrite IH. split; [intros []; constructor; auto | intro H; inversion H; auto].
Qed.
(** The body of a call. *)
Fixpoint execs (hooked : nat -> bool) (l : list step) (on : list nat) : outcome (list nat * list (list nat)) :=
  match l with [] => Ok (on, []) | s :: r => do (on1, a) <- exec hooked s on; do (on2, b) <- execs hooked r on1; Ok (on2, a ++ b) end.
Lemma exec_call hooked m body on : exec hooked (Call m body) on =
  let on1 := if hooked (id_of m) then to_device m on else on in
  do (on2, states) <- execs hooked body on1;
  let on3 := if hooked (id_of m) then to_cpu m on2 else on2 in Ok (on3, on1 :: states ++ [on3]).
Proof.
  cbn [exec]. cbv zeta. set (on1 := if hooked (id_of m) then to_device m on else on).
  match goal with |- bind (?f body on1) _ = _ => assert (G : forall l o, f l o = execs hooked l o) end.
  { induction l as [| s l IH]; intro o; [reflexivity |]. cbn [execs]. destruct (exec hooked s o) as [[o1 a] |]; cbn [bind]; auto. now rewrite IH. }
  now rewrite G.
Qed.

(** Inside a block nothing moves. *)
Lemma inside hooked on : forall s m, (forall d, In d (below m) -> hooked (id_of d) = false) -> incl (params m) on -> does m s -> exists st, exec hooked s on = Ok (on, st) /\ Forall (eq on) st.
Proof.
  induction s as [p | c body IH] using step_ind'; intros m Hh Hp Hd.
  - cbn in *. assert (Hin : isin p on = true) by (apply isin_in, Hp; rewrite params_eq; apply in_or_app; now left). rewrite Hin. eexists; split; [reflexivity |]. repeat constructor.
  - apply does_call in Hd as [[n Hc] Hb]. rewrite exec_call.
    assert (Hs : In c (below m)) by (unfold below; apply in_flat_map; exists (n, c); split; auto; rewrite subs_eq; now left). rewrite (Hh c Hs). cbv zeta.
    assert (Hc' : forall d, In d (below c) -> hooked (id_of d) = false).
    { intros d Hd. apply Hh. unfold below. apply in_flat_map. exists (n, c). split; auto. rewrite subs_eq. now right. }
    assert (Hpc : incl (params c) on).
    { intros x Hx. apply Hp. rewrite params_eq. apply in_or_app. right. apply in_flat_map. exists (n, c). split; auto. }
    assert (HG : exists st, execs hooked body on = Ok (on, st) /\ Forall (eq on) st).
    { clear Hs. induction body as [| s body IHb]; [exists []; split; [reflexivity | constructor] |]. inversion Hb as [| ? ? Hb1 Hb2]; subst.
      destruct (IH s (or_introl eq_refl) c Hc' Hpc Hb1) as [a [Ea Fa]]. destruct (IHb (fun s Hs => IH s (or_intror Hs)) Hb2) as [b [Eb Fb]].
      cbn [execs]. rewrite Ea. cbn [bind]. rewrite Eb. cbn [bind]. eexists. split; [reflexivity |]. apply Forall_app. auto. }
    destruct HG as [st [E F]]. rewrite E. cbn [bind]. eexists. split; [reflexivity |]. constructor; auto. apply Forall_app. auto.
Qed.
(** Modules above the blocks. *)
Inductive Open (hooked : nat -> bool) (B : module -> Prop) : module -> Prop :=
| open_intro m : own_of m = [] ->
    (forall n c, In (n, c) (children m) -> (B c /\ hooked (id_of c) = true /\ forall d, In d (below c) -> hooked (id_of d) = false) \/ (hooked (id_of c) = false /\ Open hooked B c)) -> Open hooked B m.
Lemma emptied m : to_cpu m (to_device m []) = [].
Proof.
  unfold to_cpu, to_device. rewrite app_nil_r. assert (G : forall l, incl l (params m) -> filter (fun p => negb (isin p (params m))) l = []).
  { induction l as [| x l IH]; intro H; auto. cbn. assert (E : isin x (params m) = true) by (apply isin_in, H; now left). rewrite E. cbn. apply IH. intros y Hy. apply H. now right. }
  apply G, incl_refl.
Qed.
Lemma above hooked (B : module -> Prop) : forall s m, Open hooked B m -> does m s ->
  exists st, exec hooked s [] = Ok ([], st) /\ Forall (fun on => on = [] \/ exists b, B b /\ on = params b) st.
Proof.
  induction s as [p | c body IH] using step_ind'; intros m Ho Hd.
  - inversion Ho as [? E _]; subst. cbn in Hd. rewrite E in Hd. destruct Hd.
  - apply does_call in Hd as [[n Hc] Hb]. inversion Ho as [? Eo Hcs]; subst. rewrite exec_call. destruct (Hcs n c Hc) as [[HB [Hh Hn]] | [Hh Hoc]]; rewrite Hh; cbv zeta.
    + assert (HG : exists st, execs hooked body (to_device c []) = Ok (to_device c [], st) /\ Forall (eq (to_device c [])) st).
      { assert (Hp : incl (params c) (to_device c [])) by (unfold to_device; apply incl_appl, incl_refl).
        clear -Hb Hn Hp. induction body as [| s body IHb]; [exists []; split; [reflexivity | constructor] |]. inversion Hb as [| ? ? Hb1 Hb2]; subst.
        destruct (inside hooked (to_device c []) s c Hn Hp Hb1) as [a [Ea Fa]]. destruct (IHb Hb2) as [b [Eb Fb]].
        cbn [execs]. rewrite Ea. cbn [bind]. rewrite Eb. cbn [bind]. eexists. split; [reflexivity |]. apply Forall_app. auto. }
      destruct HG as [st [E F]]. rewrite E. cbn [bind]. rewrite emptied. eexists. split; [reflexivity |].
      assert (Hon : to_device c [] = params c) by (unfold to_device; apply app_nil_r). rewrite Hon in *.
      constructor; [right; eauto |]. apply Forall_app. split; [| repeat constructor; now left]. eapply Forall_impl; [| exact F]. intros x <-. right. eauto.
    + assert (HG : exists st, execs hooked body [] = Ok ([], st) /\ Forall (fun on => on = [] \/ exists b, B b /\ on = params b) st).
      { clear -IH Hb Hoc. induction body as [| s body IHb]; [exists []; split; [reflexivity | constructor] |]. inversion Hb as [| ? ? Hb1 Hb2]; subst.
        destruct (IH s (or_introl eq_refl) c Hoc Hb1) as [a [Ea Fa]]. destruct (IHb (fun s Hs => IH s (or_intror Hs)) Hb2) as [b [Eb Fb]].
        cbn [execs]. rewrite Ea. cbn [bind]. rewrite Eb. cbn [bind]. eexists. split; [reflexivity |]. apply Forall_app. auto. }
      destruct HG as [st [E F]]. rewrite E. cbn [bind]. eexists. split; [reflexivity |]. constructor; [now left |]. apply Forall_app. split; auto.
Qed.
Lemma nodup_l {A} (a b : list A) : NoDup (a ++ b) -> NoDup a.
Proof. induction a as [| x a IH]; cbn; intro H; [constructor |]. inversion H as [| ? ? H1 H2]; subst. constructor; auto. intro; apply H1, in_or_app; auto. Qed.
Lemma nodup_r {A} (a b : list A) : NoDup (a ++ b) -> NoDup b.
Proof. induction a as [| x a IH]; cbn; intro H; auto. inversion H; auto. Qed.
(** Blocks of children that are different modules. *)
Definition piece (wrap : list nat) (c : string * module) : list (string * module) :=
  if isin (type_of (snd c)) wrap || negb (length (own_of (snd c)) =? 0) then [c] else blocks wrap (snd c).
Lemma blocks_flat wrap m : NoDup (map (fun c => id_of (snd c)) (children m)) -> blocks wrap m = flat_map (piece wrap) (children m).
Proof.
  destruct m as [i t own cs]. cbn [children blocks].
  assert (G : forall l seen, NoDup (map (fun c : string * module => id_of (snd c)) l) -> (forall c, In c l -> ~ In (id_of (snd c)) seen) ->
    (fix go (seen : list nat) (l : list (string * module)) : list (string * module) :=
       match l with
       | [] => []
       | c :: r => if isin (id_of (snd c)) seen then go seen r
                   else (if isin (type_of (snd c)) wrap || negb (length (own_of (snd c)) =? 0) then [c] else blocks wrap (snd c)) ++ go (id_of (snd c) :: seen) r
       end) seen l = flat_map (piece wrap) l).
  { induction l as [| c l IH]; intros seen Hn Hs; auto. inversion Hn as [| ? ? H1 H2]; subst. cbn [flat_map].
    assert (E : isin (id_of (snd c)) seen = false) by (apply isin_out, Hs; now left). rewrite E. unfold piece at 1. f_equal. apply IH; auto.
    intros d Hd [Hx | Hx]; [| apply (Hs d (or_intror Hd) Hx)]. apply H1. rewrite Hx. apply (in_map (fun c => id_of (snd c))); auto. }
  intro H. apply G; auto.
Qed.
Lemma nodup_children m : NoDup (ids m) -> NoDup (map (fun c => id_of (snd c)) (children m)) /\ forall n c, In (n, c) (children m) -> NoDup (ids c).
Proof.
  unfold ids. rewrite subs_eq. cbn [map]. intro H. inversion H as [| ? ? _ H2]; subst. clear H. unfold below in H2. revert H2. generalize (children m). clear.
  induction l as [| [n c] l IH]; cbn [flat_map map]; intro H; [split; [constructor | intros n c []] |].
  rewrite map_app in H. cbn [snd] in *. assert (Ha : NoDup (map id_of (subs c))) by (eapply nodup_l; eauto).
  assert (Hb : NoDup (map id_of (flat_map (fun c => subs (snd c)) l))) by (eapply nodup_r; eauto). destruct (IH Hb) as [I1 I2]. split.
  - constructor; auto. intro Hin. apply in_map_iff in Hin as [[n' c'] [E Hin]]. cbn [snd] in E.
    assert (Hc : In (id_of c) (map id_of (subs c))) by (rewrite subs_eq; now left).
    assert (Hc' : In (id_of c) (map id_of (flat_map (fun c => subs (snd c)) l))).
    { rewrite <- E. apply in_map. apply in_flat_map. exists (n', c'). split; auto. rewrite subs_eq. now left. }
    clear -H Hc Hc'. induction (map id_of (subs c)) as [| x r IHr]; [destruct Hc |]. cbn in H. inversion H as [| ? ? G1 G2]; subst. destruct Hc as [-> | Hc]; [apply G1, in_or_app; now right | auto].
  - intros n' c' [E | Hin]; [injection E as <- <-; exact Ha | eapply I2; eauto].
Qed.
Lemma blocks_below wrap : forall m b, In b (blocks wrap m) -> In (snd b) (below m).
Proof.
  induction m as [i t own cs IH] using module_ind'. cbn [blocks]. unfold below. cbn [children].
  assert (G : forall l seen, (forall c, In c l -> In c cs) -> forall b, In b ((fix go (seen : list nat) (l : list (string * module)) : list (string * module) :=
       match l with
       | [] => []
       | c :: r => if isin (id_of (snd c)) seen then go seen r
                   else (if isin (type_of (snd c)) wrap || negb (length (own_of (snd c)) =? 0) then [c] else blocks wrap (snd c)) ++ go (id_of (snd c) :: seen) r
       end) seen l) -> In (snd b) (flat_map (fun c => subs (snd c)) cs)).
  { induction l as [| c l IHl]; intros seen Hl b Hb; [destruct Hb |]. destruct (isin (id_of (snd c)) seen); [eapply IHl; eauto; intros; apply Hl; now right |].
    apply in_app_or in Hb as [Hb | Hb]; [| eapply IHl; eauto; intros; apply Hl; now right]. apply in_flat_map. exists c. split; [apply Hl; now left |]. rewrite subs_eq.
    destruct (isin (type_of (snd c)) wrap || _); [destruct Hb as [<- | []]; now left | right; apply (IH c (Hl c (or_introl eq_refl))); auto]. }
  intros b Hb. eapply G; eauto.
Qed.
Lemma open_blocks wrap (B : module -> Prop) : forall m hooked, NoDup (ids m) -> own_of m = [] -> (forall b, In b (blocks wrap m) -> B (snd b)) ->
  (forall d, In d (below m) -> hooked (id_of d) = isin (id_of d) (map (fun b => id_of (snd b)) (blocks wrap m))) -> Open hooked B m.
Proof.
  induction m as [i t own cs IH] using module_ind'. intros hooked Hn Ho HB Hh. destruct (nodup_children _ Hn) as [Hn1 Hn2]. constructor; [exact Ho |].
  intros n c Hc. pose proof (blocks_flat wrap _ Hn1) as Hbf. cbn [children] in *. rewrite Hbf in HB. rewrite Hbf in Hh. clear Hbf.
  assert (Hloc : forall d, In d (subs c) -> hooked (id_of d) = isin (id_of d) (map (fun b => id_of (snd b)) (piece wrap (n, c)))).
  { intros d Hd. rewrite Hh by (unfold below; apply in_flat_map; exists (n, c); auto).
    destruct (isin (id_of d) (map (fun b => id_of (snd b)) (piece wrap (n, c)))) eqn:E.
    - apply isin_in in E. apply isin_in. apply in_map_iff in E as [b [Eb Hb]]. apply in_map_iff. exists b. split; auto. apply in_flat_map. eauto.
    - apply isin_out. apply isin_out in E. intro Hin. apply E. apply in_map_iff in Hin as [b [Eb Hb]]. apply in_flat_map in Hb as [[n' c'] [Hc' Hb]].
      assert (Hbs : In (snd b) (subs c')).
      { unfold piece in Hb. cbn [snd] in Hb. rewrite subs_eq. destruct (isin (type_of c') wrap || _); [destruct Hb as [<- | []]; now left | right; eapply blocks_below; eauto]. }
      assert (Heq : (n', c') = (n, c)).
      { unfold ids in Hn. rewrite subs_eq in Hn. cbn [map] in Hn. inversion Hn as [| ? ? _ Hn']; subst. unfold below in Hn'. cbn [children] in Hn'. clear -Hn' Hc Hc' Hd Hbs Eb.
        induction cs as [| x cs IH]; [destruct Hc |]. cbn [flat_map] in Hn'. rewrite map_app in Hn'.
        assert (Hdis : forall z, In z (map id_of (subs (snd x))) -> In z (map id_of (flat_map (fun c => subs (snd c)) cs)) -> False).
        { clear -Hn'. intros z H1 H2. induction (map id_of (subs (snd x))) as [| y r IHr]; [destruct H1 |]. cbn in Hn'. inversion Hn' as [| ? ? G1 G2]; subst. destruct H1 as [-> | H1]; [apply G1, in_or_app; now right | auto]. }
        assert (Hr : NoDup (map id_of (flat_map (fun c => subs (snd c)) cs))) by (eapply nodup_r; eauto).
        destruct Hc as [-> | Hc], Hc' as [E2 | Hc'].
        - congruence.
        - exfalso. apply (Hdis (id_of d)); [apply in_map; exact Hd |]. rewrite <- Eb. apply in_map. apply in_flat_map. exists (n', c'). auto.
        - subst x. exfalso. apply (Hdis (id_of d)); [rewrite <- Eb; apply in_map; exact Hbs | apply in_map; apply in_flat_map; exists (n, c); auto].
        - apply IH; auto. }
      injection Heq as -> ->. apply in_map_iff. exists b. auto. }
  unfold piece in Hloc. cbn [snd] in Hloc. destruct (isin (type_of c) wrap || negb (length (own_of c) =? 0)) eqn:Ec.
  - left. split; [| split].
    + apply (HB (n, c)). apply in_flat_map. exists (n, c). split; auto. unfold piece. cbn [snd]. rewrite Ec. now left.
    + rewrite Hloc by (rewrite subs_eq; now left). apply isin_in. now left.
    + intros d Hd. rewrite Hloc by (rewrite subs_eq; now right). apply isin_out. intros [E | []]. cbn [snd] in E. pose proof (Hn2 n c Hc) as Hnc. unfold ids in Hnc. rewrite subs_eq in Hnc. cbn [map] in Hnc.
      inversion Hnc as [| ? ? G _]; subst. apply G. rewrite E. now apply in_map.
  - right. pose proof (Hn2 n c Hc) as Hnc. split.
    + rewrite Hloc by (rewrite subs_eq; now left). apply isin_out. intro Hin. apply in_map_iff in Hin as [b [Eb Hb]]. apply blocks_below in Hb.
      unfold ids in Hnc. rewrite subs_eq in Hnc. cbn [map] in Hnc. inversion Hnc as [| ? ? G _]; subst. apply G. rewrite <- Eb. now apply in_map.
    + apply (IH (n, c) Hc); auto.
      * apply orb_false_elim in Ec as [_ Ec]. apply negb_false_iff, Nat.eqb_eq in Ec. cbn [snd]. now destruct (own_of c).
      * intros b Hb. apply HB. apply in_flat_map. exists (n, c). split; auto. unfold piece. cbn [snd]. now rewrite Ec.
      * intros d Hd. apply Hloc. rewrite subs_eq. now right.
Qed.

(** ** C229 *)
(** The hooks after entering are the ones before and those of the blocks; leaving removes exactly those. *)
Definition fresh (w : world) : Prop := forall h, In h (w_hooks w) -> fst h < w_next w.
Theorem C229_hooks : forall enabled wrap m hs w w1 h1, fresh w -> enter enabled wrap m hs w = (w1, h1) ->
  (forall i, is_hooked w1 i = is_hooked w i || (enabled && isin i (map (fun b => id_of (snd b)) (blocks wrap m)))) /\ (enabled = true -> w_hooks (exit_ h1 w1) = w_hooks w).
Proof.
  intros enabled wrap m hs w w1 h1 Hf E. unfold enter in E. destruct enabled; [| injection E as <- <-; split; [intro i; now rewrite orb_false_r | discriminate]].
  unfold register in E. injection E as <- <-. split.
  - intro i. unfold is_hooked. cbn [w_hooks andb]. rewrite existsb_app. f_equal. set (l := map (fun b : string * module => id_of (snd b)) (blocks wrap m)).
    replace (length (blocks wrap m)) with (length l) by (unfold l; apply map_length). generalize (w_next w). clearbody l. clear. induction l as [| x l IH]; intro k; auto. cbn. rewrite IH. f_equal. apply Nat.eqb_sym.
  - intros _. unfold exit_. cbn [w_hooks]. rewrite filter_app. set (l := map (fun b : string * module => id_of (snd b)) (blocks wrap m)).
    replace (length (blocks wrap m)) with (length l) by (unfold l; apply map_length). clearbody l.
    assert (E1 : filter (fun h : nat * nat => negb (isin (fst h) (seq (w_next w) (length l)))) (w_hooks w) = w_hooks w).
    { unfold fresh in Hf. induction (w_hooks w) as [| h r IH]; auto. cbn [filter]. assert (Eh : isin (fst h) (seq (w_next w) (length l)) = false).
      { apply isin_out. intro Hin. apply in_seq in Hin. specialize (Hf h (or_introl eq_refl)). lia. } rewrite Eh. cbn. f_equal. apply IH. intros x Hx. apply Hf. now right. }
    assert (E2 : filter (fun h : nat * nat => negb (isin (fst h) (seq (w_next w) (length l)))) (combine (seq (w_next w) (length l)) l) = []).
    { assert (G : forall q, (forall h, In h q -> In (fst h) (seq (w_next w) (length l))) -> filter (fun h : nat * nat => negb (isin (fst h) (seq (w_next w) (length l)))) q = []).
      { induction q as [| h q IH]; intro H; auto. cbn [filter]. assert (Eh : isin (fst h) (seq (w_next w) (length l)) = true) by (apply isin_in, H; now left). rewrite Eh. cbn. apply IH. intros x Hx. apply H. now right. }
      apply G. intros [a b] Hab. apply in_combine_l in Hab. exact Hab. }
    now rewrite E1, E2, app_nil_r.
Qed.
(** The claim in full: a forward pass finds every parameter on the device. *)
Definition C229_claim : Prop := forall wrap m body w h, NoDup (ids m) -> Forall (does m) body -> enter true wrap m [] {| w_next := 0; w_hooks := [] |} = (w, h) -> exists r, exec (is_hooked w) (Call m body) [] = Ok r.
(** Parameters the model itself holds are never moved. *)
Theorem C229_own_refuted : ~ C229_claim.
Proof.
  intro H. destruct (H [] (Mod 0 0 [0] []) [Use 0] _ _ ltac:(repeat constructor; cbn; tauto) ltac:(repeat constructor; cbn; tauto) eq_refl) as [r Hr]. vm_compute in Hr. discriminate.
Qed.
(** Without those it does, ends with nothing on the device, and at all times holds at most one block there.  Parameters may be shared between modules. *)
Theorem C229_partial : forall wrap m body w h, NoDup (ids m) -> own_of m = [] -> Forall (does m) body -> enter true wrap m [] {| w_next := 0; w_hooks := [] |} = (w, h) ->
  exists states, exec (is_hooked w) (Call m body) [] = Ok ([], states) /\ Forall (fun on => on = [] \/ exists b, In b (blocks wrap m) /\ on = params (snd b)) states.
Proof.
  intros wrap m body w h Hn Ho Hb E. assert (Hf : fresh {| w_next := 0; w_hooks := [] |}) by (intros x []).
  destruct (C229_hooks true wrap m [] _ w h Hf E) as [Hh0 _]. assert (Hh : forall i, is_hooked w i = isin i (map (fun b => id_of (snd b)) (blocks wrap m))) by (intro i; rewrite Hh0; reflexivity). clear Hh0.
  set (B := fun c => exists n, In (n, c) (blocks wrap m)).
  assert (Hop : Open (is_hooked w) B m) by (apply (open_blocks wrap); auto; intros [n c] Hx; exists n; exact Hx).
  assert (Hroot : is_hooked w (id_of m) = false).
  { rewrite Hh. apply isin_out. intro Hin. apply in_map_iff in Hin as [b [Eb Hx]]. apply blocks_below in Hx. unfold ids in Hn. rewrite subs_eq in Hn. cbn [map] in Hn. inversion Hn as [| ? ? G _]; subst. apply G. rewrite <- Eb. now apply in_map. }
  assert (HG : exists st, execs (is_hooked w) body [] = Ok ([], st) /\ Forall (fun on => on = [] \/ exists b, B b /\ on = params b) st).
  { clear -Hop Hb. induction body as [| s body IHb]; [exists []; split; [reflexivity | constructor] |]. inversion Hb as [| ? ? Hb1 Hb2]; subst.
    destruct (above _ B s m Hop Hb1) as [a [Ea Fa]]. destruct (IHb Hb2) as [b [Eb Fb]].
    cbn [execs]. rewrite Ea. cbn [bind]. rewrite Eb. cbn [bind]. eexists. split; [reflexivity |]. apply Forall_app. auto. }
  destruct HG as [st [Est Fst]]. rewrite exec_call, Hroot. cbv zeta. rewrite Est. cbn [bind]. eexists. split; [reflexivity |]. constructor; [now left |]. apply Forall_app. split; [| repeat constructor; now left].
  eapply Forall_impl; [| exact Fst]. intros on [-> | [b [[n Hb'] ->]]]; [now left | right]. exists (n, b). auto.
Qed.
(** A module that is inside one block and a block by itself moves parameters away that the rest of the block shares. *)
Definition C229_shared_claim : Prop := forall wrap m body w h, own_of m = [] -> Forall (does m) body -> enter true wrap m [] {| w_next := 0; w_hooks := [] |} = (w, h) -> exists r, exec (is_hooked w) (Call m body) [] = Ok r.
Definition tied : module := let c := Mod 3 1 [1] [] in Mod 0 0 [] [("a", Mod 1 0 [0] [("c", c); ("e", Mod 4 1 [1] [])]); ("d", Mod 2 0 [] [("c", c)])].
Theorem C229_shared_refuted : ~ C229_shared_claim.
Proof.
  intro H. set (a := Mod 1 0 [0] [("c", Mod 3 1 [1] []); ("e", Mod 4 1 [1] [])]).
  edestruct (H [] tied [Call a [Call (Mod 3 1 [1] []) [Use 1]; Call (Mod 4 1 [1] []) [Use 1]]]) as [r Hr]; [reflexivity | | reflexivity |].
  - constructor; [| constructor]. cbn. split; [exists "a"; now left |]. repeat split; [exists "c"; now left | now left | exists "e"; right; now left | now left].
  - vm_compute in Hr. discriminate.
Qed.
(** Every parameter that the model does not hold itself is in a block, in order and as often as it is held. *)
Theorem C229_cover : forall wrap m, NoDup (ids m) -> params m = own_of m ++ flat_map (fun b => params (snd b)) (blocks wrap m).
Proof.
  intros wrap m. induction m as [i t own cs IH] using module_ind'. intro Hn. destruct (nodup_children _ Hn) as [Hn1 Hn2]. rewrite params_eq, (blocks_flat wrap _ Hn1). f_equal. cbn [children] in *.
  clear Hn Hn1. induction cs as [| [n c] cs IHcs]; auto. cbn [flat_map]. rewrite flat_map_app. f_equal; [| apply IHcs; [intros x Hx; apply IH; now right | intros n' c' Hx; eapply Hn2; right; eauto]].
  unfold piece. cbn [snd]. destruct (isin (type_of c) wrap || negb (length (own_of c) =? 0)) eqn:Ec; [cbn; now rewrite app_nil_r |].
  apply orb_false_elim in Ec as [_ Ec]. apply negb_false_iff, Nat.eqb_eq in Ec. specialize (IH (n, c) (or_introl eq_refl) (Hn2 n c (or_introl eq_refl))). cbn [snd] in IH. rewrite IH. now destruct (own_of c).
Qed.
(** Without the mode everything is moved when the object is built, and stays. *)
Theorem C229_disabled : forall wrap m body hs w h, enter false wrap m hs {| w_next := 0; w_hooks := [] |} = (w, h) -> Forall (does m) body ->
  exists states, exec (is_hooked w) (Call m body) (built false m []) = Ok (params m, states) /\ Forall (eq (params m)) states.
Proof.
  intros wrap m body hs w h E Hb. injection E as <- <-. assert (Hh : forall i, is_hooked {| w_next := 0; w_hooks := [] |} i = false) by reflexivity. unfold built, to_device. rewrite app_nil_r.
  assert (HG : exists st, execs (is_hooked {| w_next := 0; w_hooks := [] |}) body (params m) = Ok (params m, st) /\ Forall (eq (params m)) st).
  { induction body as [| s body IHb]; [exists []; split; [reflexivity | constructor] |]. inversion Hb as [| ? ? Hb1 Hb2]; subst.
    destruct (inside _ (params m) s m (fun d _ => Hh (id_of d)) (incl_refl _) Hb1) as [a [Ea Fa]]. destruct (IHb Hb2) as [b [Eb Fb]].
    cbn [execs]. rewrite Ea. cbn [bind]. rewrite Eb. cbn [bind]. eexists. split; [reflexivity |]. apply Forall_app. auto. }
  destruct HG as [st [Est Fst]]. rewrite exec_call, Hh. cbv zeta. rewrite Est. cbn [bind]. eexists. split; [reflexivity |]. constructor; auto. apply Forall_app. auto.
Qed.
(** Entering an object a second time before leaving it loses the first handles: hooks stay for good. *)
Definition C229_reenter_claim : Prop := forall wrap m w1 h1 w2 h2, enter true wrap m [] {| w_next := 0; w_hooks := [] |} = (w1, h1) -> enter true wrap m h1 w1 = (w2, h2) -> w_hooks (exit_ h2 (exit_ h2 w2)) = [].
Theorem C229_reenter_refuted : ~ C229_reenter_claim.
Proof. intro H. specialize (H [] (Mod 0 0 [] [("fc", Mod 1 1 [0] [])]) _ _ _ _ eq_refl eq_refl). vm_compute in H. discriminate. Qed.
Definition net : module := Mod 0 0 [] [("embed", Mod 1 1 [0] []); ("layers", Mod 2 0 [] [("0", Mod 3 2 [] [("fc", Mod 4 1 [1; 2] [])]); ("1", Mod 5 2 [] [("fc", Mod 6 1 [3; 4] [])])]); ("head", Mod 7 1 [0] [])].
Example C229_example : map (fun b => (fst b, params (snd b))) (blocks [2] net) = [("embed", [0]); ("0", [1; 2]); ("1", [3; 4]); ("head", [0])] /\ map fst (blocks [] net) = ["embed"; "fc"; "fc"; "head"] /\ NoDup (ids net) /\
  (exists states, exec (is_hooked (fst (enter true [2] net [] {| w_next := 0; w_hooks := [] |}))) (Call net [Call (Mod 1 1 [0] []) [Use 0]; Call (Mod 7 1 [0] []) [Use 0]]) [] = Ok ([], states)) /\
  exec (is_hooked (fst (enter true [2] net [] {| w_next := 0; w_hooks := [] |}))) (Use 0) [] = Raise RuntimeError.
Proof. split; [reflexivity |]. split; [reflexivity |]. split; [vm_compute; repeat (constructor; [cbn; intuition discriminate |]); constructor |]. split; [eexists; vm_compute; reflexivity | reflexivity]. Qed.

Print Assumptions C229_hooks.
Print Assumptions C229_own_refuted.
Print Assumptions C229_partial.
Print Assumptions C229_shared_refuted.
Print Assumptions C229_cover.
Print Assumptions C229_disabled.
Print Assumptions C229_reenter_refuted.
