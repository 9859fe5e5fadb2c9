(** C129: [sync_qparams] gives the fake quantizers of all modes the tensors of one of them. *)
From Coq Require Import String Ascii.
From Verif Require Import Prelude Onnx_Model Onnx_Lemmas Distill_Props QuantTree_Model.
Local Open Scope string_scope.
Local Open Scope list_scope.
Local Open Scope nat_scope.

(** ** Specification: what is found at a path of names below a module. *)
Section Spec.
Context {V B : Type}.
Fixpoint node_at (t : mtree V B) (p : list string) : option (mtree V B) :=
  match p with
  | [] => Some t
  | n :: r => match get (m_children V B t) n with Some (Some c) => node_at c r | _ => None end
  end.
(** The path goes through a fake quantizer below the module. *)
Definition quantized (t : mtree V B) (p : list string) : Prop :=
  exists q r x, p = q ++ r /\ q <> [] /\ node_at t q = Some x /\ m_kind V B x = FakeQuant.
(** The tensor of a name in the module at a path, and the one that [state_dict] contains. *)
Definition tensor_at (t : mtree V B) (p : list string) (n : string) : option (bool * V) :=
  match node_at t p with
  | Some x => match get (m_params V B x) n with Some v => Some (true, v) | None => get (m_buffers V B x) n end
  | None => None
  end.
Definition saved_at (t : mtree V B) (p : list string) (n : string) : option V :=
  match node_at t p with
  | Some x => match get (m_params V B x) n with Some v => Some v
              | None => match get (filter (fun kv => fst (snd kv)) (m_buffers V B x)) n with Some bv => Some (snd bv) | None => None end end
  | None => None
  end.
Definition dotless (n : string) : Prop := ~ In "."%char (list_ascii_of_string n).
(** Names contain no dots and siblings have different names. *)
Definition proper (t : mtree V B) : Prop :=
  forall p x, node_at t p = Some x -> NoDup (map fst (m_children V B x)) /\
    forall n, In n (map fst (m_params V B x) ++ map fst (m_buffers V B x) ++ map fst (m_children V B x)) -> dotless n.
(** The two modules have the same structure. *)
Definition alike (t t' : mtree V B) : Prop :=
  forall p, match node_at t p, node_at t' p with
            | Some x, Some y => m_id V B x = m_id V B y /\ m_kind V B x = m_kind V B y /\ map fst (m_params V B x) = map fst (m_params V B y) /\
                                map (fun b => (fst b, fst (snd b))) (m_buffers V B x) = map (fun b => (fst b, fst (snd b))) (m_buffers V B y) /\
                                map fst (m_children V B x) = map fst (m_children V B y)
            | None, None => True
            | _, _ => False
            end.
(** [t'] is [t] with the tensors of its fake quantizers taken from [s]. *)
Definition synced (s t t' : mtree V B) : Prop :=
  alike t t' /\
  forall p n, (quantized t p -> match tensor_at t p n with
                               | Some (b, _) => exists v, saved_at s p n = Some v /\ tensor_at t' p n = Some (b, v)
                               | None => tensor_at t' p n = None end) /\
              (~ quantized t p -> tensor_at t' p n = tensor_at t p n).
(** Every tensor of a fake quantizer can be found in [s], and no child outside of them is [None]. *)
Definition covered (s t : mtree V B) : Prop :=
  (forall p n, quantized t p -> tensor_at t p n <> None -> saved_at s p n <> None) /\
  (forall p x n, node_at t p = Some x -> ~ quantized t p -> get (m_children V B x) n <> Some None).
End Spec.

(** ** Proofs *)
Section Proofs.
Context {V B : Type}.
Local Notation tree := (mtree V B).
Lemma tree_ind (P : tree -> Prop) : (forall i k ps bs cs, (forall n c, In (n, Some c) cs -> P c) -> P (Mod V B i k ps bs cs)) -> forall t, P t.
Proof.
  intros H. fix IH 1. intros [i k ps bs cs]. apply H. induction cs as [|[n [c|]] r IHr]; intros m d Hin.
  - destruct Hin.
  - destruct Hin as [E|Hin]; [|exact (IHr m d Hin)]. injection E as _ <-. apply IH.
  - destruct Hin as [E|Hin]; [discriminate|exact (IHr m d Hin)].
Qed.
Lemma dot_split : forall a b u v, dotless a -> dotless b -> (a ++ "." ++ u)%string = (b ++ "." ++ v)%string -> a = b /\ u = v.
Proof.
  induction a as [|x a IH]; intros [|y b] u v Ha Hb He; cbn in *.
  - injection He as <-. auto.
  - injection He as He _. exfalso. apply Hb. left. auto.
  - injection He as He _. exfalso. apply Ha. left. auto.
  - injection He as <- He. destruct (IH b u v) as [<- <-]; auto; [intros H; apply Ha; right; exact H|intros H; apply Hb; right; exact H].
Qed.
Lemma dot_in a u : ~ dotless (a ++ "." ++ u).
Proof. intros H. apply H. induction a; cbn; [auto|right; apply IHa; intros Hi; apply H; right; exact Hi]. Qed.
Fixpoint join (p : list string) (n : string) : string := match p with [] => n | m :: r => (m ++ "." ++ join r n)%string end.
Lemma app_assoc_s a b c : ((a ++ b) ++ c)%string = (a ++ b ++ c)%string.
Proof. induction a; cbn; [reflexivity|now rewrite IHa]. Qed.
Lemma get_app' {A} (a b : list (string * A)) k : get (a ++ b) k = match get a k with Some v => Some v | None => get b k end.
Proof. induction a as [|[x v] r IH]; cbn; [reflexivity|destruct (String.eqb x k); auto]. Qed.
Lemma get_pre {A C} (f : A -> C) pre : forall l n, get (map (fun kv : string * A => ((pre ++ fst kv)%string, f (snd kv))) l) (pre ++ n)%string = match get l n with Some v => Some (f v) | None => None end.
Proof.
  induction l as [|[k v] r IH]; intros n; cbn; [reflexivity|]. destruct (String.eqb k n) eqn:E.
  - apply String.eqb_eq in E as ->. now rewrite String.eqb_refl.
  - destruct (String.eqb (pre ++ k) (pre ++ n)) eqn:E2; [|apply IH]. apply String.eqb_eq, append_inj in E2. subst. rewrite String.eqb_refl in E. discriminate.
Qed.
Lemma state_pre : forall (t : tree) pre k, In k (map fst (state_dict V B pre t)) -> exists u, k = (pre ++ u)%string.
Proof.
  intros t. induction t as [i k ps bs cs IH] using tree_ind. intros pre key Hin. cbn [state_dict] in Hin. rewrite !map_app, !in_app_iff in Hin.
  destruct Hin as [Hin|[Hin|Hin]].
  - apply in_map_iff in Hin as (x & <- & Hin). apply in_map_iff in Hin as (y & <- & _). cbn. eauto.
  - apply in_map_iff in Hin as (x & <- & Hin). apply in_map_iff in Hin as (y & <- & _). cbn. eauto.
  - apply in_map_iff in Hin as (x & <- & Hin). apply in_flat_map in Hin as ([n [c|]] & Hc & Hin); [|destruct Hin]. cbn [fst snd] in Hin.
    destruct (IH n c Hc (pre ++ n ++ ".")%string (fst x)) as (u & ->); [apply in_map, Hin|]. rewrite app_assoc_s. eauto.
Qed.
Lemma proper_child (t c : tree) n : proper t -> get (m_children V B t) n = Some (Some c) -> proper c.
Proof. intros Hp Hg q x Hx. apply (Hp (n :: q) x). cbn. rewrite Hg. exact Hx. Qed.
Lemma dotless_join p n : p <> [] -> ~ dotless (join p n).
Proof. destruct p as [|m r]; [easy|]. intros _. apply dot_in. Qed.
Lemma state_get : forall p (t : tree) pre n, proper t -> Forall dotless p -> dotless n -> get (state_dict V B pre t) (pre ++ join p n)%string = saved_at t p n.
Proof.
  induction p as [|m r IH]; intros [i k ps bs cs] pre n Hp Hd Hn.
  - cbn [join state_dict]. unfold saved_at. cbn [node_at m_params m_buffers]. rewrite !get_app', (get_pre (fun x => x)), (get_pre snd).
    destruct (get ps n); [reflexivity|]. destruct (get (filter _ bs) n); [reflexivity|]. apply get_none. intros Hin.
    apply in_map_iff in Hin as (x & Ex & Hin). apply in_flat_map in Hin as ([c [y|]] & Hc & Hin); [|destruct Hin]. cbn [fst snd] in Hin.
    destruct (state_pre y (pre ++ c ++ ".")%string (fst x) (in_map fst _ _ Hin)) as (u & Eu). rewrite Eu, !app_assoc_s in Ex. apply append_inj in Ex.
    apply (dot_in c u). rewrite Ex. exact Hn.
  - destruct (Hp [] _ eq_refl) as (Hnd & Hnames). cbn [m_params m_buffers m_children] in Hnd, Hnames. inversion Hd as [|? ? Hm Hr]; subst.
    cbn [state_dict]. rewrite !get_app'. 
    assert (E1 : get (map (fun kv => ((pre ++ fst kv)%string, snd kv)) ps) (pre ++ join (m :: r) n)%string = None).
    { rewrite (get_pre (fun x => x)). destruct (get ps (join (m :: r) n)) eqn:E; [|reflexivity]. exfalso. apply (dotless_join (m :: r) n); [easy|].
      apply Hnames. apply in_app_iff. left. apply get_in, (in_map fst) in E. exact E. }
    assert (E2 : get (map (fun kv => ((pre ++ fst kv)%string, snd (snd kv))) (filter (fun kv => fst (snd kv)) bs)) (pre ++ join (m :: r) n)%string = None).
    { rewrite (get_pre snd). destruct (get _ (join (m :: r) n)) eqn:E; [|reflexivity]. exfalso. apply (dotless_join (m :: r) n); [easy|].
      apply Hnames. rewrite !in_app_iff. right. left. apply get_in, filter_In in E as [E _]. apply (in_map fst) in E. exact E. }
    rewrite E1, E2. unfold saved_at. cbn [node_at m_children].
    assert (Hc : forall n' c, In (n', Some c) cs -> proper c).
    { intros n' c Hin. apply (proper_child (Mod V B i k ps bs cs) c n'); [exact Hp|]. cbn [m_children]. apply get_nodup; assumption. }
    assert (Hl : forall n', In n' (map fst cs) -> dotless n') by (intros n' Hin; apply Hnames; rewrite !in_app_iff; auto).
    clear Hp Hnames E1 E2 Hd. induction cs as [|[c o] cs' IHc]; [reflexivity|]. cbn [flat_map get fst snd]. rewrite get_app'. inversion Hnd as [|? ? Hni Hnd']; subst.
    assert (IHc' := IHc Hnd' (fun n' x H => Hc n' x (or_intror H)) (fun n' H => Hl n' (or_intror H))). clear IHc.
    assert (Hcl : dotless c) by (apply Hl; left; reflexivity).
    destruct (String.eqb c m) eqn:Ecm.
    + apply String.eqb_eq in Ecm as ->. 
      assert (Hrest : get (flat_map (fun c => match snd c with Some x => state_dict V B (pre ++ fst c ++ ".") x | None => [] end) cs') (pre ++ join (m :: r) n)%string = None).
      { assert (H : get cs' m = None) by (apply get_none; exact Hni). rewrite H in IHc'. exact IHc'. }
      destruct o as [x|]; [|cbn [get]; exact Hrest]. cbn [join]. replace (pre ++ m ++ "." ++ join r n)%string with ((pre ++ m ++ ".") ++ join r n)%string by now rewrite !app_assoc_s.
      rewrite IH; [|apply (Hc m x); left; reflexivity|assumption|assumption]. cbn [join] in Hrest.
      replace (pre ++ m ++ "." ++ join r n)%string with ((pre ++ m ++ ".") ++ join r n)%string in Hrest by now rewrite !app_assoc_s.
      rewrite Hrest. fold (saved_at x r n). destruct (saved_at x r n); reflexivity.
    + assert (Hno : get (match o with Some x => state_dict V B (pre ++ c ++ ".") x | None => [] end) (pre ++ join (m :: r) n)%string = None).
      { apply get_none. destruct o as [x|]; [|easy]. intros Hin. apply state_pre in Hin as (u & Eu). rewrite !app_assoc_s in Eu. apply append_inj in Eu. cbn [join] in Eu.
        apply dot_split in Eu as [Eu _]; [|assumption|assumption]. subst. rewrite String.eqb_refl in Ecm. discriminate. }
      rewrite Hno. exact IHc'.
Qed.

Fixpoint joinp (p : list string) : string := match p with [] => "" | m :: r => (m ++ "." ++ joinp r)%string end.
Lemma join_joinp p n : join p n = (joinp p ++ n)%string.
Proof. induction p as [|m r IH]; cbn [join joinp]; [reflexivity|]. rewrite IH, !app_assoc_s. reflexivity. Qed.
Lemma mapE_ok {A C} (f : A -> outcome C) : forall l, (forall x, In x l -> exists y, f x = Ok y) -> exists l', mapE f l = Ok l'.
Proof.
  induction l as [|x r IH]; intros H; cbn; [eauto|]. destruct (H x (or_introl eq_refl)) as (y & ->). cbn [bind]. destruct IH as (l' & ->); [intros z Hz; apply H; right; exact Hz|]. cbn. eauto.
Qed.
Lemma mapE_inv {A C} (f : A -> outcome C) : forall l l', mapE f l = Ok l' -> Forall2 (fun x y => f x = Ok y) l l'.
Proof.
  induction l as [|x r IH]; intros l' H; cbn in H.
  - apply Ok_inj in H as <-. constructor.
  - destruct (f x) as [y|] eqn:E; cbn [bind] in H; [|discriminate]. destruct (mapE f r) as [ys|] eqn:E2; cbn [bind] in H; [|discriminate]. apply Ok_inj in H as <-. constructor; auto.
Qed.
Variable src : list (string * V).
Lemma copy_params_names pre l l' : copy_params V src pre l = Ok l' -> map fst l = map fst l'.
Proof.
  intros H. apply mapE_inv in H. induction H as [|[k v] y l l' Hx _ IH]; [reflexivity|]. cbn [fst] in Hx. unfold lookup in Hx. destruct (get src _); [|discriminate]. apply Ok_inj in Hx as <-. cbn. now rewrite IH.
Qed.
Lemma copy_params_get pre l l' n : copy_params V src pre l = Ok l' ->
  match get l n with Some _ => get src (pre ++ n)%string <> None /\ get l' n = get src (pre ++ n)%string | None => get l' n = None end.
Proof.
  intros H. apply mapE_inv in H. induction H as [|[k v] y l l' Hx _ IH]; [reflexivity|]. cbn [fst] in Hx. unfold lookup in Hx. destruct (get src (pre ++ k)) eqn:E; [|discriminate]. apply Ok_inj in Hx as <-.
  cbn [get fst snd]. destruct (String.eqb k n) eqn:Ek; [apply String.eqb_eq in Ek as ->; rewrite E; split; [easy|reflexivity]|exact IH].
Qed.
Lemma copy_buffers_names pre l l' : copy_buffers V src pre l = Ok l' -> map (fun b => (fst b, fst (snd b))) l = map (fun b => (fst b, fst (snd b))) l'.
Proof.
  intros H. apply mapE_inv in H. induction H as [|[k v] y l l' Hx _ IH]; [reflexivity|]. cbn [fst] in Hx. unfold lookup in Hx. destruct (get src _); [|discriminate]. apply Ok_inj in Hx as <-. cbn. now rewrite IH.
Qed.
Lemma copy_buffers_get pre l l' n : copy_buffers V src pre l = Ok l' ->
  match get l n with Some (b, _) => exists v, get src (pre ++ n)%string = Some v /\ get l' n = Some (b, v) | None => get l' n = None end.
Proof.
  intros H. apply mapE_inv in H. induction H as [|[k [b v]] y l l' Hx _ IH]; [reflexivity|]. cbn [fst snd] in Hx. unfold lookup in Hx. destruct (get src (pre ++ k)) eqn:E; [|discriminate]. apply Ok_inj in Hx as <-.
  cbn [get fst snd]. destruct (String.eqb k n) eqn:Ek; [apply String.eqb_eq in Ek as ->; rewrite E; eauto|exact IH].
Qed.
Definition same_frame (x y : tree) : Prop := m_id V B x = m_id V B y /\ m_kind V B x = m_kind V B y /\ map fst (m_children V B x) = map fst (m_children V B y).
Definition copied (pre : string) (x y : tree) : Prop :=
  same_frame x y /\ copy_params V src pre (m_params V B x) = Ok (m_params V B y) /\ copy_buffers V src pre (m_buffers V B x) = Ok (m_buffers V B y).
Definition kept (x y : tree) : Prop := same_frame x y /\ m_params V B x = m_params V B y /\ m_buffers V B x = m_buffers V B y.
Definition both (r : tree -> tree -> Prop) (a b : option tree) : Prop := match a, b with Some x, Some y => r x y | None, None => True | _, _ => False end.
Lemma children_all (f : string -> tree -> outcome tree) none cs cs' :
  mapE (fun c : string * option tree => match snd c with Some x => do x' <- f (fst c) x; Ok (fst c, Some x') | None => none c end) cs = Ok cs' ->
  (forall c y, none c = Ok y -> y = c) ->
  map fst cs = map fst cs' /\ forall n, match get cs n with Some (Some x) => exists x', f n x = Ok x' /\ get cs' n = Some (Some x') | Some None => get cs' n = Some None | None => get cs' n = None end.
Proof.
  intros H Hn. apply mapE_inv in H. induction H as [|[k [x|]] y l l' Hx _ [IH1 IH2]]; [now split| |]; cbn [fst snd] in Hx.
  - destruct (f k x) as [x'|] eqn:E; cbn [bind] in Hx; [|discriminate]. apply Ok_inj in Hx as <-. split; [cbn; now rewrite IH1|]. intros n. cbn [get fst snd].
    destruct (String.eqb k n) eqn:Ek; [apply String.eqb_eq in Ek as ->; eauto|apply IH2].
  - apply Hn in Hx as ->. split; [cbn; now rewrite IH1|]. intros n. cbn [get fst snd]. destruct (String.eqb k n) eqn:Ek; [reflexivity|apply IH2].
Qed.
Lemma sync_all_at : forall p (t t' : tree) pre, sync_all V B src pre t = Ok t' -> both (copied (pre ++ joinp p)) (node_at t p) (node_at t' p).
Proof.
  induction p as [|m r IH]; intros [i k ps bs cs] t' pre H; cbn [sync_all] in H;
    destruct (copy_params V src pre ps) as [ps'|] eqn:E1; cbn [bind] in H; try discriminate;
    destruct (copy_buffers V src pre bs) as [bs'|] eqn:E2; cbn [bind] in H; try discriminate.
  all: destruct (mapE _ cs) as [cs'|] eqn:E3; cbn [bind] in H; [|discriminate]; apply Ok_inj in H as <-.
  all: apply (children_all (fun n => sync_all V B src (pre ++ n ++ "."))) in E3 as [Hf Hg]; [|intros c y Hc; apply Ok_inj in Hc; auto].
  - cbn. unfold copied, same_frame. cbn [m_id m_kind m_children m_params m_buffers joinp]. replace (pre ++ "")%string with pre by (clear; induction pre; cbn; congruence). auto.
  - cbn [node_at m_children]. specialize (Hg m). destruct (get cs m) as [[x|]|].
    + destruct Hg as (x' & Hx & ->). apply (IH _ _ _) in Hx. cbn [joinp]. rewrite !app_assoc_s in Hx. exact Hx.
    + rewrite Hg. exact I.
    + rewrite Hg. exact I.
Qed.
Fixpoint through (t : tree) (p : list string) : bool :=
  match p with
  | [] => false
  | n :: r => match get (m_children V B t) n with Some (Some c) => if is_fake_quant V B c then true else through c r | _ => false end
  end.
Lemma is_fq (x : tree) : is_fake_quant V B x = true <-> m_kind V B x = FakeQuant.
Proof. unfold is_fake_quant. destruct (m_kind V B x); split; congruence. Qed.
Lemma through_iff : forall p t, through t p = true <-> quantized t p.
Proof.
  induction p as [|m r IH]; intros t; split.
  - discriminate.
  - intros (q & u & x & E & Hq & _). destruct q; [easy|discriminate].
  - cbn. destruct (get (m_children V B t) m) as [[c|]|] eqn:E; try discriminate. destruct (is_fake_quant V B c) eqn:Ef; intros H.
    + exists [m], r, c. cbn. rewrite E. repeat split; [easy|]. now apply is_fq.
    + apply IH in H as (q & u & x & -> & Hq & Hx & Hk). exists (m :: q), u, x. cbn. rewrite E. repeat split; auto; discriminate.
  - intros (q & u & x & E & Hq & Hx & Hk). destruct q as [|m' q]; [easy|]. injection E as <- ->. cbn in Hx |- *. destruct (get (m_children V B t) m) as [[c|]|]; try discriminate.
    destruct (is_fake_quant V B c) eqn:Ef; [reflexivity|]. apply IH. destruct q as [|m'' q'].
    + cbn in Hx. apply some_inj in Hx as ->. apply is_fq in Hk. congruence.
    + exists (m'' :: q'), u, x. repeat split; auto; discriminate.
Qed.
Lemma through_false p t : through t p = false <-> ~ quantized t p.
Proof. rewrite <- through_iff. destruct (through t p); split; congruence. Qed.
Lemma sync_tree_at : forall p (t t' : tree) pre, sync_tree V B src pre t = Ok t' ->
  both (if through t p then copied (pre ++ joinp p) else kept) (node_at t p) (node_at t' p).
Proof.
  induction p as [|m r IH]; intros [i k ps bs cs] t' pre H; cbn [sync_tree] in H; destruct (mapE _ cs) as [cs'|] eqn:E3; cbn [bind] in H; try discriminate; apply Ok_inj in H as <-.
  all: apply (children_all (fun n x => if is_fake_quant V B x then sync_all V B src (pre ++ n ++ ".") x else sync_tree V B src (pre ++ n ++ ".") x)) in E3 as [Hf Hg]; [|discriminate].
  - cbn. unfold kept, same_frame. cbn. auto.
  - cbn [through node_at m_children]. specialize (Hg m). destruct (get cs m) as [[x|]|].
    + destruct Hg as (x' & Hx & ->). cbn [joinp]. rewrite <- !app_assoc_s. rewrite (app_assoc_s pre m "."). destruct (is_fake_quant V B x).
      * apply sync_all_at. exact Hx.
      * apply IH. exact Hx.
    + rewrite Hg. exact I.
    + rewrite Hg. exact I.
Qed.
Lemma sync_none (t t' : tree) : sync_tree V B src "" t = Ok t' -> forall p x n, node_at t p = Some x -> ~ quantized t p -> get (m_children V B x) n <> Some None.
Proof.
  assert (G : forall p (t t' : tree) pre x n, sync_tree V B src pre t = Ok t' -> node_at t p = Some x -> through t p = false -> get (m_children V B x) n <> Some None).
  { induction p as [|m r IH]; intros [i k ps bs cs] u pre x n H Hx Ht Hn; cbn [sync_tree] in H; destruct (mapE _ cs) as [cs'|] eqn:E3; cbn [bind] in H; try discriminate; clear H u.
    - cbn in Hx. apply some_inj in Hx as <-. cbn in Hn. apply mapE_inv in E3. apply get_in in Hn. revert Hn. induction E3 as [|a b l l' Hab _ IHl]; [easy|]. intros [->|Hn]; [discriminate|auto].
    - apply (children_all (fun n x => if is_fake_quant V B x then sync_all V B src (pre ++ n ++ ".") x else sync_tree V B src (pre ++ n ++ ".") x)) in E3 as [Hf Hg]; [|discriminate].
      cbn in Hx, Ht. specialize (Hg m). destruct (get cs m) as [[y|]|]; try discriminate. destruct Hg as (y' & Hy & _). destruct (is_fake_quant V B y); [discriminate|].
      exact (IH _ _ _ _ _ Hy Hx Ht Hn). }
  intros H p x n Hx Hq. apply (G p t t' ""); auto. now apply through_false.
Qed.
(** Success. *)
Definition found (pre : string) (t : tree) : Prop := forall p n, tensor_at t p n <> None -> get src (pre ++ join p n)%string <> None.
Lemma copy_ok pre (ps : list (string * V)) : (forall n, get ps n <> None -> get src (pre ++ n)%string <> None) -> exists l, copy_params V src pre ps = Ok l.
Proof.
  intros H. apply mapE_ok. intros [n v] Hin. cbn. unfold lookup. destruct (get src (pre ++ n)) eqn:E; [cbn; eauto|]. exfalso. apply (H n); [|exact E].
  intros Hn. apply get_none in Hn. apply Hn. apply (in_map fst) in Hin. exact Hin.
Qed.
Lemma copy_b_ok pre (bs : list (string * (bool * V))) : (forall n, get bs n <> None -> get src (pre ++ n)%string <> None) -> exists l, copy_buffers V src pre bs = Ok l.
Proof.
  intros H. apply mapE_ok. intros [n v] Hin. cbn. unfold lookup. destruct (get src (pre ++ n)) eqn:E; [cbn; eauto|]. exfalso. apply (H n); [|exact E].
  intros Hn. apply get_none in Hn. apply Hn. apply (in_map fst) in Hin. exact Hin.
Qed.
Lemma found_child pre i k ps bs cs m (x : tree) : found pre (Mod V B i k ps bs cs) -> get cs m = Some (Some x) -> found (pre ++ m ++ ".") x.
Proof.
  intros Hf Hg p n Hn. specialize (Hf (m :: p) n). cbn [join] in Hf. rewrite !app_assoc_s. apply Hf. unfold tensor_at in *. cbn [node_at m_children]. rewrite Hg. exact Hn.
Qed.
Lemma sync_all_ok : forall (t : tree) pre, proper t -> found pre t -> exists t', sync_all V B src pre t = Ok t'.
Proof.
  intros t. induction t as [i k ps bs cs IH] using tree_ind. intros pre Hp Hf. cbn [sync_all].
  destruct (copy_ok pre ps) as (ps' & ->).
  { intros n Hn. apply (Hf [] n). unfold tensor_at. cbn. destruct (get ps n); [easy|congruence]. }
  destruct (copy_b_ok pre bs) as (bs' & ->).
  { intros n Hn. apply (Hf [] n). unfold tensor_at. cbn. destruct (get ps n); [easy|exact Hn]. }
  cbn [bind]. destruct (Hp [] _ eq_refl) as [Hnd _]. cbn in Hnd. 
  match goal with |- context [mapE ?f cs] => destruct (mapE_ok f cs) as (cs' & ->) end; [|cbn; eauto].
  intros [m [x|]] Hin; cbn [fst snd]; [|eauto]. assert (Hg : get cs m = Some (Some x)) by (apply get_nodup; assumption).
  destruct (IH m x Hin (pre ++ m ++ ".")%string) as (x' & ->); [apply (proper_child _ x m Hp Hg)|apply (found_child pre i k ps bs cs m x Hf Hg)|]. cbn. eauto.
Qed.
Lemma sync_tree_ok : forall (t : tree) pre, proper t -> (forall p n, through t p = true -> tensor_at t p n <> None -> get src (pre ++ join p n)%string <> None) ->
  (forall p x n, node_at t p = Some x -> through t p = false -> get (m_children V B x) n <> Some None) -> exists t', sync_tree V B src pre t = Ok t'.
Proof.
  intros t. induction t as [i k ps bs cs IH] using tree_ind. intros pre Hp Hf Hnone. cbn [sync_tree]. destruct (Hp [] _ eq_refl) as [Hnd _]. cbn in Hnd. 
  match goal with |- context [mapE ?f cs] => destruct (mapE_ok f cs) as (cs' & ->) end; [|cbn; eauto].
  intros [m [x|]] Hin; cbn [fst snd]; assert (Hg := get_nodup _ _ _ Hnd Hin); [|exfalso; apply (Hnone [] _ m eq_refl eq_refl); exact Hg].
  destruct (is_fake_quant V B x) eqn:Ex.
  - destruct (sync_all_ok x (pre ++ m ++ ".")%string) as (x' & ->); [apply (proper_child _ x m Hp Hg)| |cbn; eauto].
    intros p n Hn. specialize (Hf (m :: p) n). cbn [through m_children join] in Hf. rewrite Hg, Ex in Hf. rewrite !app_assoc_s. apply Hf; [reflexivity|]. unfold tensor_at in *. cbn [node_at m_children]. rewrite Hg. exact Hn.
  - destruct (IH m x Hin (pre ++ m ++ ".")%string) as (x' & ->); [apply (proper_child _ x m Hp Hg)| | |cbn; eauto].
    + intros p n Ht Hn. specialize (Hf (m :: p) n). cbn [through m_children join] in Hf. rewrite Hg, Ex in Hf. rewrite !app_assoc_s. apply Hf; [exact Ht|]. unfold tensor_at in *. cbn [node_at m_children]. rewrite Hg. exact Hn.
    + intros p y n Hy Ht. apply (Hnone (m :: p) y n); cbn [node_at through m_children]; rewrite Hg; [exact Hy|]. rewrite Ex. exact Ht.
Qed.
End Proofs.

(** ** Theorems *)
Section Theorems.
Context {V B : Type}.
Local Notation tree := (mtree V B).
Lemma copied_alike src pre (x y : tree) : copied src pre x y -> m_id V B x = m_id V B y /\ m_kind V B x = m_kind V B y /\ map fst (m_params V B x) = map fst (m_params V B y) /\
                                map (fun b => (fst b, fst (snd b))) (m_buffers V B x) = map (fun b => (fst b, fst (snd b))) (m_buffers V B y) /\
                                map fst (m_children V B x) = map fst (m_children V B y).
Proof. intros ((H1 & H2 & H3) & H4 & H5). repeat split; auto. - eapply copy_params_names; eauto. - eapply copy_buffers_names; eauto. Qed.
Lemma names_ok (t : tree) p n : proper t -> tensor_at t p n <> None -> dotless n /\ Forall dotless p.
Proof.
  revert t. induction p as [|m r IH]; intros t Hp Hn.
  - split; [|constructor]. destruct (Hp [] t eq_refl) as [_ H]. apply H. unfold tensor_at in Hn. cbn in Hn. rewrite !in_app_iff. destruct (get (m_params V B t) n) eqn:E.
    + left. apply get_in, (in_map fst) in E. exact E.
    + right; left. destruct (get (m_buffers V B t) n) eqn:E2; [|congruence]. apply get_in, (in_map fst) in E2. exact E2.
  - unfold tensor_at in Hn. cbn in Hn. destruct (get (m_children V B t) m) as [[c|]|] eqn:E; try congruence. destruct (IH c (proper_child t c m Hp E)) as [Hd Hf]; [exact Hn|].
    split; [exact Hd|]. constructor; [|exact Hf]. destruct (Hp [] t eq_refl) as [_ H]. apply H. rewrite !in_app_iff. right; right. apply get_in, (in_map fst) in E. exact E.
Qed.
(** One mode: it succeeds if and only if the other mode has all that is needed, and then all tensors
    below the fake quantizers, but no others, are those of the other mode. *)
Theorem C129_one_mode_iff (s t : tree) : proper s -> proper t -> ((exists t', sync_tree V B (state_dict V B "" s) "" t = Ok t') <-> covered s t).
Proof.
  intros Hs Ht. split.
  - intros (t' & H). split; [|exact (sync_none _ t t' H)]. intros p n Hq Hn Hsv. assert (Ha := sync_tree_at _ p t t' "" H). rewrite (proj2 (through_iff p t) Hq) in Ha.
    destruct (names_ok t p n Ht Hn) as [Hd Hf]. rewrite <- (state_get p s "" n Hs Hf Hd), join_joinp in Hsv. cbn [append] in Hsv, Ha.
    unfold tensor_at in Hn. destruct (node_at t p) as [x|]; [|congruence]. cbn [both] in Ha. destruct (node_at t' p) as [y|]; [|easy]. destruct Ha as (_ & Hp & Hb).
    assert (Gp := copy_params_get _ _ _ _ n Hp). assert (Gb := copy_buffers_get _ _ _ _ n Hb). destruct (get (m_params V B x) n); [destruct Gp as [Gp _]; exact (Gp Hsv)|].
    destruct (get (m_buffers V B x) n) as [[b w]|]; [|congruence]. destruct Gb as (v & Gb & _). congruence.
  - intros [H1 H2]. apply sync_tree_ok; [exact Ht| |].
    + intros p n Hq Hn. destruct (names_ok t p n Ht Hn) as [Hd Hf]. rewrite (state_get p s "" n Hs Hf Hd). apply H1; [|exact Hn]. now apply through_iff.
    + intros p x n Hx Hq. apply (H2 p x n Hx). now apply through_false.
Qed.
Theorem C129_one_mode (s t t' : tree) : proper s -> proper t -> sync_tree V B (state_dict V B "" s) "" t = Ok t' -> synced s t t'.
Proof.
  intros Hs Ht H. split.
  - intros p. assert (Ha := sync_tree_at _ p t t' "" H). unfold both in Ha. destruct (node_at t p) as [x|], (node_at t' p) as [y|]; try exact Ha. destruct (through t p).
    + eapply copied_alike; exact Ha.
    + destruct Ha as ((H1 & H2 & H3) & H4 & H5). rewrite H4, H5. auto.
  - intros p n. assert (Ha := sync_tree_at _ p t t' "" H). cbn [append] in Ha. split; intros Hq.
    + rewrite (proj2 (through_iff p t) Hq) in Ha. destruct (tensor_at t p n) as [[b w]|] eqn:En.
      * destruct (names_ok t p n Ht) as [Hd Hf]; [congruence|]. rewrite <- (state_get p s "" n Hs Hf Hd), join_joinp. cbn [append]. unfold tensor_at in *.
        destruct (node_at t p) as [x|]; [|discriminate]. cbn [both] in Ha. destruct (node_at t' p) as [y|]; [|easy]. destruct Ha as (_ & Hp & Hb).
        assert (Gp := copy_params_get _ _ _ _ n Hp). assert (Gb := copy_buffers_get _ _ _ _ n Hb). destruct (get (m_params V B x) n) as [w'|].
        -- destruct Gp as [Gp Ge]. destruct (get (state_dict V B "" s) _) as [v|]; [|easy]. exists v. split; [reflexivity|]. rewrite Ge. injection En as <- _. reflexivity.
        -- rewrite Gp. rewrite En in Gb. destruct Gb as (v & Gb & Ge). exists v. rewrite Ge. auto.
      * unfold tensor_at in *. destruct (node_at t p) as [x|]; cbn [both] in Ha; destruct (node_at t' p) as [y|]; try easy. destruct Ha as (_ & Hp & Hb).
        assert (Gp := copy_params_get _ _ _ _ n Hp). assert (Gb := copy_buffers_get _ _ _ _ n Hb). destruct (get (m_params V B x) n); [discriminate|]. rewrite Gp. rewrite En in Gb. exact Gb.
    + rewrite (proj2 (through_false p t) Hq) in Ha. unfold tensor_at. destruct (node_at t p) as [x|]; cbn [both] in Ha; destruct (node_at t' p) as [y|]; try easy. destruct Ha as (_ & -> & ->). reflexivity.
Qed.
(** All modes. *)
Theorem C129_all_modes_partial src_mode modes (q : list (string * tree)) :
  NoDup modes -> (forall m t, In (m, t) q -> proper t) ->
  forall s, get q src_mode = Some s -> (forall m, In m modes -> m <> src_mode -> exists t, get q m = Some t /\ covered s t) ->
  exists q', sync_qparams V B src_mode modes q = Ok q' /\
    (forall m, m = src_mode \/ ~ In m modes -> get q' m = get q m) /\
    (forall m, In m modes -> m <> src_mode -> exists t t', get q m = Some t /\ get q' m = Some t' /\ synced s t t').
Proof.
  intros Hnd Hp s Hs Hc. unfold sync_qparams, lookup. rewrite Hs. cbn [bind]. assert (Hps : proper s) by (apply (Hp src_mode), get_in, Hs).
  clear Hs. revert q Hp Hc. induction Hnd as [|m r Hm _ IH]; intros q Hp Hc.
  - exists q. cbn. repeat split; auto. easy.
  - cbn [sync_modes]. destruct (String.eqb m src_mode) eqn:E.
    + apply String.eqb_eq in E as ->. destruct (IH q Hp) as (q' & -> & H1 & H2); [intros m' H; apply Hc; right; exact H|]. exists q'. split; [reflexivity|]. split.
      * intros m' [->|Hn]; apply H1; [auto|]. right. intros H. apply Hn. right. exact H.
      * intros m' [<-|Hin] Hne; [easy|auto].
    + assert (Hne : m <> src_mode) by (intros ->; rewrite String.eqb_refl in E; discriminate).
      destruct (Hc m (or_introl eq_refl) Hne) as (t & Ht & Hcov). unfold lookup. rewrite Ht. cbn [bind]. assert (Hpt : proper t) by (apply (Hp m), get_in, Ht).
      destruct (proj2 (C129_one_mode_iff s t Hps Hpt) Hcov) as (t' & Hok). rewrite Hok. cbn [bind]. assert (Hsy := C129_one_mode s t t' Hps Hpt Hok).
      assert (Hpt' : proper t').
      { intros p y Hy. destruct Hsy as [Ha _]. specialize (Ha p). rewrite Hy in Ha. destruct (node_at t p) as [x|] eqn:Ex; [|easy]. destruct Ha as (_ & _ & E1 & E2 & E3).
        rewrite <- E1, <- E3. destruct (Hpt p x Ex) as [G1 G2]. split; [exact G1|]. intros n Hin. apply G2. rewrite !in_app_iff in *. destruct Hin as [Hin|[Hin|Hin]]; auto. right; left.
        assert (E2' : map fst (m_buffers V B x) = map fst (m_buffers V B y)) by (apply (f_equal (map fst)) in E2; rewrite !map_map in E2; exact E2). now rewrite E2'. }
      destruct (IH (put q m t')) as (q' & -> & H1 & H2).
      * intros m' u Hin. destruct (String.eqb m' m) eqn:Em; [|apply (Hp m')].
        -- apply String.eqb_eq in Em as ->. revert Hin Hp Hpt'. clear. induction q as [|[k w] l IHl]; cbn [put]; intros Hin Hp Hpt'.
           ++ destruct Hin as [Hin|[]]. injection Hin as <-. exact Hpt'.
           ++ destruct (String.eqb k m); destruct Hin as [Hin|Hin]; [injection Hin as _ <-; exact Hpt'|apply (Hp m); right; exact Hin|apply (Hp m); left; exact Hin|].
              apply IHl; auto. intros m' t0 H. apply (Hp m'). right. exact H.
        -- revert Hin Em. clear. induction q as [|[k w] l IHl]; cbn [put]; intros Hin Em.
           ++ destruct Hin as [Hin|[]]. injection Hin as <- _. rewrite String.eqb_refl in Em. discriminate.
           ++ destruct (String.eqb k m) eqn:Ek; destruct Hin as [Hin|Hin]; [injection Hin as <- _; congruence|right; exact Hin|left; exact Hin|right; auto].
      * intros m' Hin Hne'. destruct (Hc m' (or_intror Hin) Hne') as (u & Hu & Hcu). exists u. rewrite get_put. destruct (String.eqb m m') eqn:Em; [apply String.eqb_eq in Em as ->; easy|auto].
      * exists q'. split; [reflexivity|]. split.
        -- intros m' [->|Hn].
           ++ rewrite H1; [|auto]. rewrite get_put, E. reflexivity.
           ++ rewrite H1; [|right; intros H; apply Hn; right; exact H]. rewrite get_put.
              destruct (String.eqb m m') eqn:Em; [|reflexivity]. apply String.eqb_eq in Em as ->. exfalso. apply Hn. left. reflexivity.
        -- intros m' [<-|Hin] Hne'.
           ++ exists t, t'. split; [exact Ht|]. split; [|exact Hsy]. rewrite H1; [|right; exact Hm]. rewrite get_put, String.eqb_refl. reflexivity.
           ++ destruct (H2 m' Hin Hne') as (u & u' & Hu & Hu' & Hs'). exists u, u'. split; [|auto]. rewrite get_put in Hu. destruct (String.eqb m m') eqn:Em; [apply String.eqb_eq in Em as ->; easy|exact Hu].
Qed.
(** The models of the modes exist if and only if "tensor" is one of the modes. *)
Theorem C129_modes (prepare : string -> tree) run modes :
  match build_qmodels V B prepare run modes with
  | Ok q => In "tensor" modes /\ forall m, get q m = if mem m modes then Some (if String.eqb m "tensor" then run (prepare m) else prepare m) else None
  | Raise e => e = KeyError /\ ~ In "tensor" modes
  end.
Proof.
  unfold build_qmodels, lookup. assert (G : forall l d m, get (fold_left (fun d m => put d m (prepare m)) l d) m = if mem m l then Some (prepare m) else get d m).
  { induction l as [|a l IH]; intros d m; [reflexivity|]. cbn [fold_left]. rewrite IH. unfold mem. cbn [existsb]. rewrite (String.eqb_sym m a), get_put. fold (mem m l). destruct (mem m l); [now rewrite orb_true_r|].
    rewrite orb_false_r. destruct (String.eqb a m) eqn:E; [apply String.eqb_eq in E as ->; reflexivity|reflexivity]. }
  rewrite G. destruct (mem "tensor" modes) eqn:E; cbn [get bind].
  - apply mem_in in E as E'. split; [exact E'|]. intros m. rewrite get_put, G, (String.eqb_sym m "tensor"). destruct (String.eqb "tensor" m) eqn:Em; [apply String.eqb_eq in Em as <-; now rewrite E|reflexivity].
  - split; [reflexivity|]. now apply mem_not.
Qed.
End Theorems.

(** ** The claim as one would read it, and why it fails *)
Definition C129_claim : Prop := forall src_mode modes (q : list (string * mtree Z unit)),
  NoDup modes -> (forall m t, In (m, t) q -> proper t) -> (forall m, In m modes -> get q m <> None) -> In src_mode modes ->
  exists q', sync_qparams Z unit src_mode modes q = Ok q' /\
    forall m m' t t' p n, In m modes -> In m' modes -> get q' m = Some t -> get q' m' = Some t' -> quantized t p -> quantized t' p ->
      match tensor_at t p n, tensor_at t' p n with Some (_, v), Some (_, v') => v = v' | _, _ => True end.
Definition fq (id : nat) (s z : Z) : mtree Z unit := Mod Z unit id FakeQuant [("scale", s); ("zero_point", z)] [("eps", (true, 7%Z))] [].
Definition ex_tensor : mtree Z unit := Mod Z unit 0%nat (Plain 0) [] [] [("conv", Some (Mod Z unit 1%nat (Plain 1) [("weight", 5%Z)] [] [("weight_fake_quant", Some (fq 2 30 40)); ("act", Some (fq 3 31 41))]))].
Definition ex_loss : mtree Z unit := Mod Z unit 10%nat (Plain 0) [] [] [("conv", Some (Mod Z unit 11%nat (Plain 1) [("weight", 6%Z)] [] [("weight_fake_quant", Some (fq 12 1 0)); ("act", Some (fq 13 1 0))]))].
(** A module one of whose children is [None], as that of a layer without downsampling. *)
Definition ex_none : mtree Z unit := Mod Z unit 20%nat (Plain 0) [] [] [("downsample", None)].
(** The mode "loss" quantizes something more than the mode "tensor". *)
Definition ex_more : mtree Z unit := Mod Z unit 30%nat (Plain 0) [] [] [("loss_quant", Some (fq 31 1 0))].
Lemma proper_dec (t : mtree Z unit) : (forall p x, node_at t p = Some x -> forallb (fun n => negb (existsb (Ascii.eqb "."%char) (list_ascii_of_string n))) (map fst (m_params Z unit x) ++ map fst (m_buffers Z unit x) ++ map fst (m_children Z unit x)) = true /\ NoDup (map fst (m_children Z unit x))) -> proper t.
Proof.
  intros H p x Hx. destruct (H p x Hx) as [H1 H2]. split; [exact H2|]. intros n Hn Hd. rewrite forallb_forall in H1. specialize (H1 n Hn). apply negb_true_iff in H1.
  assert (existsb (Ascii.eqb "."%char) (list_ascii_of_string n) = true) by (apply existsb_exists; exists "."%char; split; [exact Hd|apply Ascii.eqb_refl]). congruence.
Qed.
Ltac nodup_s := repeat constructor; cbn; intuition discriminate.
Ltac walk_path p Hx := let m := fresh "m" in let r := fresh "p" in
  destruct p as [|m r]; cbn [node_at get m_children fst snd] in Hx; [injection Hx as <-; cbn; split; [reflexivity|nodup_s]|];
  repeat match type of Hx with context [String.eqb ?a m] => destruct (String.eqb a m) end; try discriminate; try (walk_path r Hx).
Example ex_tensor_proper : proper ex_tensor.
Proof. apply proper_dec. intros p x Hx. unfold ex_tensor, fq in Hx. walk_path p Hx. Qed.
Example ex_loss_proper : proper ex_loss.
Proof. apply proper_dec. intros p x Hx. unfold ex_loss, fq in Hx. walk_path p Hx. Qed.
Example ex_none_proper : proper ex_none.
Proof. apply proper_dec. intros p x Hx. unfold ex_none in Hx. walk_path p Hx. Qed.
Example ex_more_proper : proper ex_more.
Proof. apply proper_dec. intros p x Hx. unfold ex_more, fq in Hx. walk_path p Hx. Qed.
(** The scale and the zero point of both quantizers arrive, the weight stays. *)
Example C129_ex : sync_qparams Z unit "tensor" ["tensor"; "loss"] [("tensor", ex_tensor); ("loss", ex_loss)] =
  Ok [("tensor", ex_tensor); ("loss", Mod Z unit 10%nat (Plain 0) [] [] [("conv", Some (Mod Z unit 11%nat (Plain 1) [("weight", 6%Z)] [] [("weight_fake_quant", Some (fq 12 30 40)); ("act", Some (fq 13 31 41))]))])] /\
  covered ex_tensor ex_loss.
Proof.
  assert (H : sync_tree Z unit (state_dict Z unit "" ex_tensor) "" ex_loss = Ok (Mod Z unit 10%nat (Plain 0) [] [] [("conv", Some (Mod Z unit 11%nat (Plain 1) [("weight", 6%Z)] [] [("weight_fake_quant", Some (fq 12 30 40)); ("act", Some (fq 13 31 41))]))])) by reflexivity.
  split; [reflexivity|]. apply (C129_one_mode_iff ex_tensor ex_loss ex_tensor_proper ex_loss_proper). eexists. exact H.
Qed.
Theorem C129_sync_refuted : ~ C129_claim.
Proof.
  intros H. destruct (H "tensor" ["tensor"; "loss"] [("tensor", ex_none); ("loss", ex_none)]) as (q' & Hq & _).
  - nodup_s.
  - intros m t [E|[E|[]]]; injection E as _ <-; exact ex_none_proper.
  - intros m [<-|[<-|[]]]; discriminate.
  - left. reflexivity.
  - discriminate.
Qed.
(** It also fails without [None]s if another mode has one more fake quantizer. *)
Theorem C129_more_refuted : ~ (forall (s t : mtree Z unit), proper s -> proper t -> (forall p x n, node_at t p = Some x -> get (m_children Z unit x) n <> Some None) ->
  exists t', sync_tree Z unit (state_dict Z unit "" s) "" t = Ok t').
Proof.
  intros H. destruct (H ex_tensor ex_more ex_tensor_proper ex_more_proper) as (t' & Ht); [|discriminate].
  intros p x n Hx. unfold ex_more, fq in Hx. destruct p as [|m p]; cbn [node_at get m_children fst snd] in Hx; [injection Hx as <-; cbn [m_children get fst snd]; destruct (String.eqb "loss_quant" n); discriminate|].
  destruct (String.eqb "loss_quant" m); [|discriminate]. destruct p as [|m' p]; cbn in Hx; [injection Hx as <-; discriminate|discriminate].
Qed.
Print Assumptions C129_one_mode_iff.
Print Assumptions C129_one_mode.
Print Assumptions C129_all_modes_partial.
Print Assumptions C129_modes.
Print Assumptions C129_sync_refuted.
Print Assumptions C129_more_refuted.
