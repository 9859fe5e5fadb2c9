(** Properties of deleting fake quantizers from a prepared graph (FxQuant_Model.v): deleting before
    modules (C127) and all passes of a quantizer together (C128). *)
From Coq Require Import String.
From Verif Require Import Prelude Onnx_Model Onnx_Lemmas Engine_Model FxQuant_Model FxQuant_Props FxQuant2_Props.
Local Open Scope string_scope.
Local Open Scope list_scope.
Local Open Scope nat_scope.

(** * Spec *)
Section Spec.
Context {M : Type} (is_fq : M -> bool).
(** A call of a module of some types. *)
Definition module_call (pat : M -> bool) (mods : list (string * M)) (t : fnode) : Prop := f_op t = "call_module" /\ exists x, get mods (f_target t) = Some x /\ pat x = true.
(** Quantizers that are the first argument of a target. *)
Definition first_of (l : list fnode) (mods : list (string * M)) (target : fnode -> Prop) (f : nat) : Prop :=
  exists t n r, In t l /\ target t /\ f_args t = ANode f :: r /\ In n l /\ f_id n = f /\ quantizer is_fq mods n = true.
(** Quantizers of what a target computes. *)
Definition after (l : list fnode) (mods : list (string * M)) (target : fnode -> Prop) (f : nat) : Prop :=
  exists n t, In n l /\ f_id n = f /\ quantizer is_fq mods n = true /\ f_args n = [ANode (f_id t)] /\ In t l /\ target t.
(** Quantizers met walking back from a target. *)
Definition back_from (l : list fnode) (mods : list (string * M)) (target : fnode -> Prop) (f : nat) : Prop := exists t p, In t l /\ target t /\ walk is_fq l mods (f_id t) p f.
End Spec.

(** * Lemmas *)
Section Proofs.
Context {M : Type} (is_fq : M -> bool).
Variables (l0 : list fnode) (mods0 : list (string * M)).
Hypothesis W : well_formed is_fq l0 mods0.
Notation quant := (quantizer is_fq mods0).
Notation here g := (without g (l0, mods0)).
Notation okay g := (only_quantizers is_fq g l0 mods0).
Variable pat : M -> bool.
Hypothesis First : forall t, In t l0 -> module_call pat mods0 t -> exists j r, f_args t = ANode j :: r.
Lemma before_module_exact : forall ids g, okay g -> (forall i, In i ids -> In i (map f_id l0)) ->
  exists g', okay g' /\ before_module_loop M is_fq pat ids (here g) = Ok (here g') /\
    forall k, g' k = true <-> g k = true \/ exists t n r, In t l0 /\ In (f_id t) ids /\ module_call pat mods0 t /\ f_args t = ANode k :: r /\ In n l0 /\ f_id n = k /\ quant n = true.
Proof.
  induction ids as [|i ids IH]; intros g G I.
  - exists g. split; [exact G|]. split; [reflexivity|]. intros k. split; [now left|]. intros [H|(t & n & r & _ & [] & _)]. exact H.
  - pose proof (I i (or_introl eq_refl)) as Ii. apply in_map_iff in Ii. destruct Ii as (n & <- & H). assert (forall j, In j ids -> In j (map f_id l0)) as I' by (intros; apply I; now right).
    assert ((forall m r, module_call pat mods0 n -> f_args n = ANode (f_id m) :: r -> In m l0 -> quant m = true -> g (f_id m) = true) ->
      exists g', okay g' /\ before_module_loop M is_fq pat ids (here g) = Ok (here g') /\
       forall k, g' k = true <-> g k = true \/ exists t m r, In t l0 /\ In (f_id t) (f_id n :: ids) /\ module_call pat mods0 t /\ f_args t = ANode k :: r /\ In m l0 /\ f_id m = k /\ quant m = true) as Skip.
    { intros No. destruct (IH g G I') as (g' & O & E & X). exists g'. split; [exact O|]. split; [exact E|]. intros k. rewrite X. split.
      - intros [Y|(t & m & r & A & B & C)]; [now left|]. right. exists t, m, r. split; [exact A|]. split; [now right|exact C].
      - intros [Y|(t & m & r & A & [B|B] & C)]; [now left| |right; now exists t, m, r]. left. destruct C as (C & D & Hm & <- & Q).
        pose proof (same_id l0 n t (wf_ids _ _ _ W) H A B) as ->. now apply (No m r). }
    cbn [before_module_loop]. rewrite find_view. destruct (g (f_id n)) eqn:Z.
    + apply Skip. intros m r C A Hm Q. exfalso. destruct (G _ Z) as (n' & Hn' & En' & Qn). rewrite (same_id l0 n' n (wf_ids _ _ _ W) Hn' H En') in Qn.
      destruct (wf_fq _ _ _ W n H Qn) as (j & A' & J). rewrite A in A'. injection A' as A1 A2. rewrite (J m Hm A1) in Q. discriminate.
    + rewrite (find_nodup l0 n (wf_ids _ _ _ W) H). cbn [option_map]. rewrite (left_pattern is_fq l0 mods0 W) by assumption.
      destruct (pattern_module M pat mods0 n) eqn:P.
      2: { apply Skip. intros m r C. apply pattern_iff in C. congruence. }
      apply pattern_iff in P. destruct (First n H P) as (j & r & A). cbn [refer f_args]. rewrite A. cbn [map refer_arg].
      assert (In j (map f_id l0)) as J.
      { apply in_split in H. destruct H as (a & b & E). rewrite E, map_app. apply in_or_app. left. apply (wf_order _ _ _ W a n b j E). exists (ANode j). split; [rewrite A; now left|now left]. }
      apply in_map_iff in J. destruct J as (m & <- & Hm). rewrite find_view, (redirect_kept is_fq l0 mods0 W g (f_id m) G).
      assert (forall m0 r0, f_args n = ANode (f_id m0) :: r0 -> In m0 l0 -> m0 = m) as Only.
      { intros m0 r0 A0 H0. apply (same_id l0 m0 m (wf_ids _ _ _ W) H0 Hm). rewrite A in A0. now injection A0. }
      assert (redirect g l0 (f_id m) = if g (f_id m) then input l0 (f_id m) else f_id m) as RR by reflexivity. rewrite RR. clear RR. destruct (g (f_id m)) eqn:Gm.
      * assert (exists g', okay g' /\ before_module_loop M is_fq pat ids (here g) = Ok (here g') /\
          forall k, g' k = true <-> g k = true \/ exists t m r, In t l0 /\ In (f_id t) (f_id n :: ids) /\ module_call pat mods0 t /\ f_args t = ANode k :: r /\ In m l0 /\ f_id m = k /\ quant m = true) as D.
        { apply Skip. intros m0 r0 _ A0 H0 _. now rewrite (Only m0 r0 A0 H0). }
        destruct (find_node l0 (input l0 (f_id m))) as [u|] eqn:F; cbn [option_map]; [|exact D].
        apply find_in in F. destruct F as [Hu Eu]. destruct (G _ Gm) as (m' & Hm' & Em & Qm). rewrite (same_id l0 m' m (wf_ids _ _ _ W) Hm' Hm Em) in Qm.
        rewrite fq_same, (left_quant is_fq l0 mods0 W); [|exact G|exact Hu|rewrite Eu; now apply (input_kept is_fq l0 mods0 W)].
        destruct (input_of is_fq l0 mods0 W m Hm Qm) as [_ J]. rewrite (J u Hu Eu). exact D.
      * rewrite (find_nodup l0 m (wf_ids _ _ _ W) Hm). cbn [option_map]. rewrite fq_same, (left_quant is_fq l0 mods0 W) by assumption. destruct (quant m) eqn:Q.
        -- rewrite (erase_step is_fq l0 mods0 W g m G Hm Q Gm). cbn [bind]. destruct (IH (add (f_id m) g) (add_okay is_fq l0 mods0 g m G Hm Q) I') as (g' & O & E & X).
           exists g'. split; [exact O|]. split; [exact E|]. intros k. rewrite X. unfold add. rewrite orb_true_iff, Nat.eqb_eq. split.
           ++ intros [[->|Y]|(t & u & r0 & A0 & B & C)]; [right; exists n, m, r; repeat split; try assumption; [now left|apply P|apply P]|now left|]. right. exists t, u, r0. split; [exact A0|]. split; [now right|exact C].
           ++ intros [Y|(t & u & r0 & A0 & [B|B] & C & D & Hu & <- & Qu)]; [left; now right| |right; exists t, u, r0; tauto]. left. left. pose proof (same_id l0 n t (wf_ids _ _ _ W) H A0 B) as ->. now rewrite (Only u r0 D Hu).
        -- apply Skip. intros m0 r0 _ A0 H0 Q0. rewrite (Only m0 r0 A0 H0) in Q0. congruence.
Qed.
Lemma del_before_module_exact : exists gone, (forall f, gone f = true <-> first_of is_fq l0 mods0 (module_call pat mods0) f) /\ del_fakequant_before_module M is_fq pat (l0, mods0) = Ok (here gone).
Proof.
  destruct (before_module_exact (map f_id l0) (fun _ => false)) as (g & O & E & X); [intros i Y; discriminate|auto|]. exists g. split.
  - intros f. rewrite X. split.
    + intros [Y|(t & n & r & A & _ & C & D & F)]; [discriminate|]. exists t, n, r. tauto.
    + intros (t & n & r & A & B & C & D). right. exists t, n, r. repeat split; try tauto; [now apply in_map|apply B|apply B].
  - unfold del_fakequant_before_module. cbn [fst]. rewrite <- (view_none l0 mods0) at 1. rewrite E. cbn [bind]. now apply (finish_view is_fq l0 mods0 W).
Qed.
End Proofs.

(** * C127 *)
(** Quantizers go exactly if they are the first argument of a module of the types asked for. *)
Theorem C127_exact_partial : forall (M : Type) (is_fq pat : M -> bool) l mods, well_formed is_fq l mods ->
  (forall t, In t l -> module_call pat mods t -> exists j r, f_args t = ANode j :: r) ->
  exists gone, (forall f, gone f = true <-> first_of is_fq l mods (module_call pat mods) f) /\ del_fakequant_before_module M is_fq pat (l, mods) = Ok (without gone (l, mods)).
Proof. intros M is_fq pat l mods W F. exact (del_before_module_exact is_fq l mods W pat F). Qed.
(** [relu6(q0(conv(x)))], an identity of the same quantizer, a quantizer of no such module *)
Definition relu_net : list fnode :=
  [fnd 0 "placeholder" "x" []; fnd 1 "call_module" "conv" [ANode 0]; fnd 2 "call_module" "aq0" [ANode 1]; fnd 3 "call_module" "relu" [ANode 2]; fnd 4 "call_module" "id" [ANode 2];
   fnd 5 "call_module" "aq1" [ANode 3]; fnd 6 "call_function" "add" [ANode 5; ANode 4]; fnd 7 "call_module" "id" [ANode 6]; fnd 8 "output" "output" [ANode 7]].
Definition relu_modules : list (string * string) := [("conv", "Conv2d"); ("aq0", "FakeQuantize"); ("relu", "ReLU6"); ("id", "Identity"); ("aq1", "FakeQuantize")].
Definition prev_types (x : string) : bool := (String.eqb x "ReLU6" || String.eqb x "Identity")%bool.
Example C127_relu_ok : well_formed is_quantizer relu_net relu_modules /\ (forall t, In t relu_net -> module_call prev_types relu_modules t -> exists j r, f_args t = ANode j :: r).
Proof.
  split; [apply well_formed_by; vm_compute; reflexivity|]. intros t H (O & x & X & Y). cbn in H. repeat (destruct H as [<-|H]; [first [discriminate O|now vm_compute; eauto]|]). destruct H.
Qed.
Example C127_exact_example : summary (del_fakequant_before_module string is_quantizer prev_types (relu_net, relu_modules)) =
  Ok ([(0, []); (1, [ANode 0]); (3, [ANode 1]); (4, [ANode 1]); (5, [ANode 3]); (6, [ANode 5; ANode 4]); (7, [ANode 6]); (8, [ANode 7])], ["conv"; "relu"; "id"; "aq1"]).
Proof. reflexivity. Qed.
(** Claimed: what other nodes than those modules use stays quantized. It fails for a quantizer that is
    used by such a module and by another node. *)
Definition C127_claim : Prop := forall l mods s, well_formed is_quantizer l mods -> del_fakequant_before_module string is_quantizer prev_types (l, mods) = Ok s ->
  forall n m, In n l -> In m l -> quantizer is_quantizer mods m = true -> refers n (f_id m) -> ~ module_call prev_types mods n -> In (f_id m) (map f_id (fst s)).
(** A residual connection: [add(relu6(q0(x)), q0(x))] *)
Definition residual : list fnode := [fnd 0 "placeholder" "x" []; fnd 1 "call_module" "aq0" [ANode 0]; fnd 2 "call_module" "relu" [ANode 1]; fnd 3 "call_function" "add" [ANode 2; ANode 1]; fnd 4 "output" "output" [ANode 3]].
Theorem C127_residual_refuted : ~ C127_claim.
Proof.
  intros H. assert (In 1 (map f_id [fnd 0 "placeholder" "x" []; fnd 2 "call_module" "relu" [ANode 0]; fnd 3 "call_function" "add" [ANode 2; ANode 0]; fnd 4 "output" "output" [ANode 3]])) as X.
  - refine (H residual [("aq0", "FakeQuantize"); ("relu", "ReLU6")] (_, [("relu", "ReLU6")]) _ eq_refl (fnd 3 "call_function" "add" [ANode 2; ANode 1]) (fnd 1 "call_module" "aq0" [ANode 0]) _ _ eq_refl _ _).
    + apply well_formed_by; vm_compute; reflexivity.
    + vm_compute. tauto.
    + vm_compute. tauto.
    + exists (ANode 1). split; [right; now left|now left].
    + intros [O _]. discriminate O.
  - vm_compute in X. repeat (destruct X as [X|X]; [discriminate X|]). destruct X.
Qed.
(** Claimed: the call succeeds for every graph. It fails if such a module is called by keyword. *)
Definition C127_total_claim : Prop := forall l mods, well_formed is_quantizer l mods -> exists s, del_fakequant_before_module string is_quantizer prev_types (l, mods) = Ok s.
Theorem C127_keyword_refuted : ~ C127_total_claim.
Proof.
  intros H. destruct (H [fnd 0 "placeholder" "x" []; {| f_id := 1; f_op := "call_module"; f_target := "relu"; f_args := []; f_kwargs := [("input", ANode 0)] |}; fnd 2 "output" "output" [ANode 1]] [("relu", "ReLU6")]) as (s & E).
  - apply well_formed_by; vm_compute; reflexivity.
  - vm_compute in E. discriminate.
Qed.

(** * C128: the passes of a quantizer *)
Section Compose.
Context {M : Type} (is_fq : M -> bool).
Variables (l0 : list fnode) (mods0 : list (string * M)) (g : nat -> bool).
Hypothesis W : well_formed is_fq l0 mods0.
Notation quant := (quantizer is_fq mods0).
Hypothesis G : only_quantizers is_fq g l0 mods0.
Notation l1 := (view g l0).
Notation mods1 := (left g l0 mods0).
Lemma in_view n : In n l1 <-> exists u, In u l0 /\ g (f_id u) = false /\ n = refer (redirect g l0) u.
Proof.
  unfold view. rewrite in_map_iff. split.
  - intros (u & <- & H). apply filter_In in H. destruct H as [H Z]. apply negb_true_iff in Z. now exists u.
  - intros (u & H & Z & ->). exists u. split; [reflexivity|]. apply filter_In. now rewrite Z.
Qed.
Lemma view_quant u : In u l0 -> g (f_id u) = false -> quantizer is_fq mods1 (refer (redirect g l0) u) = quant u.
Proof. intros H Z. exact (left_quant is_fq l0 mods0 W g u (redirect g l0) G H Z). Qed.
(** The arguments of quantizers stay. *)
Lemma view_args u : In u l0 -> g (f_id u) = false -> quant u = true -> f_args (refer (redirect g l0) u) = f_args u.
Proof.
  intros H Z Q. destruct (input_of is_fq l0 mods0 W u H Q) as [A _]. cbn [refer f_args]. rewrite A. cbn [map refer_arg]. unfold redirect. now rewrite (input_kept is_fq l0 mods0 W).
Qed.
Lemma view_wf : well_formed is_fq l1 mods1.
Proof.
  constructor.
  - now apply (view_nodup is_fq l0 mods0 W).
  - exact (view_ordered is_fq l0 mods0 W g G).
  - intros n H Q. apply in_view in H. destruct H as (u & H & Z & ->). rewrite view_quant in Q by assumption. rewrite view_args by assumption. destruct (wf_fq _ _ _ W u H Q) as (j & A & J).
    exists j. split; [exact A|]. intros m Hm E. apply in_view in Hm. destruct Hm as (v & Hv & Zv & ->). rewrite view_quant by assumption. now apply J.
  - intros n m Hn Hm Qn Qm E. apply in_view in Hn, Hm. destruct Hn as (u & H & Z & ->). destruct Hm as (v & Hv & Zv & ->). rewrite view_quant in Qn, Qm by assumption. now apply (wf_names _ _ _ W u v).
  - intros n H Q. apply in_view in H. destruct H as (u & H & Z & ->). rewrite view_quant in Q by assumption. now apply (wf_plain _ _ _ W u).
Qed.
Variable g2 : nat -> bool.
Hypothesis G2 : only_quantizers is_fq g2 l1 mods1.
Lemma okay_both : only_quantizers is_fq (fun k => g k || g2 k)%bool l0 mods0.
Proof.
  intros i H. apply orb_true_iff in H. destruct H as [H|H]; [now apply G|]. destruct (G2 i H) as (n & Hn & E & Q). apply in_view in Hn. destruct Hn as (u & Hu & Z & ->).
  rewrite view_quant in Q by assumption. now exists u.
Qed.
Lemma gone_twice k : g2 k = true -> g k = false.
Proof. intros H. destruct (G2 k H) as (n & Hn & <- & _). apply in_view in Hn. destruct Hn as (u & _ & Z & ->). exact Z. Qed.
Lemma without_twice : without g2 (without g (l0, mods0)) = without (fun k => g k || g2 k)%bool (l0, mods0).
Proof.
  unfold without. cbn [fst snd]. f_equal.
  - unfold view at 1. unfold view at 2. rewrite filter_map_comm, filter_both, map_map. unfold view at 2.
    rewrite (filter_ext _ (fun n => negb (g (f_id n) || g2 (f_id n)))) by (intros n; cbn [refer f_id]; now rewrite negb_orb).
    apply map_ext. intros n. rewrite refer_twice. apply refer_ext. intros k. 
    change (redirect (fun k => g k || g2 k)%bool l0 k) with (if (g k || g2 k)%bool then input l0 k else k).
    change (redirect g2 l1 (redirect g l0 k)) with (if g2 (redirect g l0 k) then input l1 (redirect g l0 k) else redirect g l0 k). destruct (g k) eqn:Gk; cbn [orb].
    + assert (redirect g l0 k = input l0 k) as R by (unfold redirect; now rewrite Gk). rewrite R. destruct (g2 (input l0 k)) eqn:G2k; [|reflexivity]. exfalso.
      destruct (G2 _ G2k) as (m & Hm & E & Q). apply in_view in Hm. destruct Hm as (u & Hu & Z & ->). rewrite view_quant in Q by assumption.
      destruct (G k Gk) as (v & Hv & <- & Qv). destruct (input_of is_fq l0 mods0 W v Hv Qv) as [_ J]. rewrite (J u Hu E) in Q. discriminate.
    + assert (redirect g l0 k = k) as R by (unfold redirect; now rewrite Gk). rewrite R. destruct (g2 k) eqn:G2k; [|reflexivity].
      destruct (G2 _ G2k) as (m & Hm & <- & Q). apply in_view in Hm. destruct Hm as (u & Hu & Z & ->). rewrite view_quant in Q by assumption. cbn [refer f_id].
      unfold input at 1. pose proof (find_view l0 mods0 g (f_id u)) as F. cbn [without fst] in F. rewrite Z, (find_nodup l0 u (wf_ids _ _ _ W) Hu) in F. unfold find_node in F. cbn [option_map] in F. rewrite F.
      rewrite view_args by assumption. destruct (input_of is_fq l0 mods0 W u Hu Q) as [A _]. now rewrite A.
  - unfold left. rewrite filter_both. apply filter_ext. intros [t x]. cbn [fst]. rewrite <- negb_orb. f_equal. apply eq_true_iff_eq. rewrite orb_true_iff, !existsb_exists. split.
    + intros [(m & Hm & E)|(m & Hm & E)].
      * exists m. split; [exact Hm|]. apply andb_true_iff in E. destruct E as [-> ->]. reflexivity.
      * apply in_view in Hm. destruct Hm as (u & Hu & _ & ->). exists u. split; [exact Hu|]. cbn [refer f_id f_target] in E. apply andb_true_iff in E. destruct E as [-> ->]. now rewrite orb_true_r.
    + intros (m & Hm & E). apply andb_true_iff in E. destruct E as [E1 E2]. destruct (g (f_id m)) eqn:Gm.
      * left. exists m. now rewrite Gm, E2.
      * right. exists (refer (redirect g l0) m). split; [apply in_view; now exists m|]. cbn [refer f_id f_target]. cbn [orb] in E1. now rewrite E1, E2.
Qed.
End Compose.

Section Passes.
Context {M : Type} (is_fq : M -> bool).
Variables (l0 : list fnode) (mods0 : list (string * M)) (g : nat -> bool).
Hypothesis W : well_formed is_fq l0 mods0.
Hypothesis G : only_quantizers is_fq g l0 mods0.
Notation quant := (quantizer is_fq mods0).
Notation l1 := (view g l0).
Notation mods1 := (left g l0 mods0).
Variables T0 T1 : fnode -> Prop.
Hypothesis T : forall u, In u l0 -> g (f_id u) = false -> (T1 (refer (redirect g l0) u) <-> T0 u).
(** Which quantizers come after targets does not change by deleting others. *)
Lemma after_view f : after is_fq l1 mods1 T1 f <-> after is_fq l0 mods0 T0 f /\ g f = false.
Proof.
  split.
  - intros (n & t & Hn & <- & Q & A & Ht & X). apply (in_view l0 g) in Hn, Ht. destruct Hn as (u & Hu & Zu & ->). destruct Ht as (v & Hv & Zv & ->).
    rewrite (view_quant is_fq l0 mods0 g W G) in Q by assumption. rewrite (view_args is_fq l0 mods0 g W G) in A by assumption. split; [|exact Zu].
    exists u, v. repeat split; try assumption. now apply T.
  - intros ((n & t & Hn & <- & Q & A & Ht & X) & Z). exists (refer (redirect g l0) n), (refer (redirect g l0) t).
    destruct (input_of is_fq l0 mods0 W n Hn Q) as [A' _]. rewrite A in A'. injection A' as A'.
    assert (g (f_id t) = false) as Zt by (rewrite A'; now apply (input_kept is_fq l0 mods0 W)).
    split; [apply (in_view l0 g); now exists n|]. split; [reflexivity|]. split; [now rewrite (view_quant is_fq l0 mods0 g W G)|]. split; [now rewrite (view_args is_fq l0 mods0 g W G)|].
    split; [apply (in_view l0 g); now exists t|]. now apply T.
Qed.
(** Nor does walking back, unless one of the quantizers met is deleted. *)
Lemma walk_kept i : forall p f, walk is_fq l0 mods0 i p f -> (forall p' f', walk is_fq l0 mods0 i p' f' -> g f' = false) -> walk is_fq l1 mods1 i p f.
Proof.
  intros p f H. induction H as [n H Q|n a j p f H Q A P IH]; intros K.
  - pose proof (K [] (f_id n) (walk_here is_fq l0 mods0 n H Q)) as Z. refine (walk_here is_fq l1 mods1 (refer (redirect g l0) n) _ _); [apply (in_view l0 g); now exists n|now rewrite (view_quant is_fq l0 mods0 g W G)].
  - assert (g (f_id n) = false) as Z.
    { destruct (g (f_id n)) eqn:Z; [|reflexivity]. destruct (G _ Z) as (m & Hm & E & Qm). rewrite (same_id l0 m n (wf_ids _ _ _ W) Hm H E) in Qm. congruence. }
    assert (g j = false) as Zj.
    { destruct (g j) eqn:Zj; [|reflexivity]. destruct (G _ Zj) as (m & Hm & <- & Qm). rewrite <- Zj. exact (K [a] (f_id m) (walk_back is_fq l0 mods0 n a (f_id m) [] (f_id m) H Q A (walk_here is_fq l0 mods0 m Hm Qm))). }
    refine (walk_back is_fq l1 mods1 (refer (redirect g l0) n) a j p f _ _ _ _).
    + apply (in_view l0 g). now exists n.
    + now rewrite (view_quant is_fq l0 mods0 g W G).
    + change (f_args (refer (redirect g l0) n) ++ map snd (f_kwargs (refer (redirect g l0) n))) with (all_args (refer (redirect g l0) n)). rewrite all_args_refer, nth_error_map.
      unfold all_args. rewrite A. cbn. unfold redirect. now rewrite Zj.
    + apply IH. intros p' f' P'. apply (K (a :: p') f'). now apply (walk_back is_fq l0 mods0 n a j).
Qed.
Lemma walk_lift i : forall p f, walk is_fq l1 mods1 i p f -> (forall p' f', walk is_fq l0 mods0 i p' f' -> g f' = false) -> walk is_fq l0 mods0 i p f.
Proof.
  intros p f H. induction H as [n H Q|n a j p f H Q A P IH]; intros K; apply (in_view l0 g) in H; destruct H as (u & Hu & Z & ->); rewrite (view_quant is_fq l0 mods0 g W G) in Q by assumption; cbn [refer f_id] in *.
  - now apply (walk_here is_fq l0 mods0 u).
  - change (map (refer_arg (redirect g l0)) (f_args u) ++ map snd (map (fun kv => (fst kv, refer_arg (redirect g l0) (snd kv))) (f_kwargs u))) with (all_args (refer (redirect g l0) u)) in A. cbn [refer f_args f_kwargs] in A.
    change (map (refer_arg (redirect g l0)) (f_args u) ++ map snd (map (fun kv => (fst kv, refer_arg (redirect g l0) (snd kv))) (f_kwargs u))) with (all_args (refer (redirect g l0) u)) in A.
    rewrite all_args_refer, nth_error_map in A. destruct (nth_error (all_args u) a) as [[x|x|x]|] eqn:E; try discriminate. cbn in A. injection A as A.
    assert (g x = false) as Zx.
    { destruct (g x) eqn:Zx; [|reflexivity]. destruct (G _ Zx) as (m & Hm & <- & Qm). rewrite <- Zx. exact (K [a] (f_id m) (walk_back is_fq l0 mods0 u a (f_id m) [] (f_id m) Hu Q E (walk_here is_fq l0 mods0 m Hm Qm))). }
    unfold redirect in A. rewrite Zx in A. subst x. apply (walk_back is_fq l0 mods0 u a j p f Hu Q E). apply IH. intros p' f' P'. apply (K (a :: p') f'). now apply (walk_back is_fq l0 mods0 u a j).
Qed.
Hypothesis Free : forall f, back_from is_fq l0 mods0 T0 f -> g f = false.
Lemma target_kept t : In t l0 -> T0 t -> g (f_id t) = false.
Proof.
  intros H X. destruct (g (f_id t)) eqn:Z; [|reflexivity]. destruct (G _ Z) as (m & Hm & E & Qm). rewrite (same_id l0 m t (wf_ids _ _ _ W) Hm H E) in Qm.
  rewrite <- Z. apply Free. exists t, []. repeat split; try assumption. now apply walk_here.
Qed.
Lemma back_view f : back_from is_fq l1 mods1 T1 f <-> back_from is_fq l0 mods0 T0 f.
Proof.
  split.
  - intros (t & p & H & X & P). apply (in_view l0 g) in H. destruct H as (u & Hu & Z & ->). apply T in X; [|assumption|assumption]. cbn [refer f_id] in P.
    exists u, p. repeat split; try assumption. apply walk_lift; [exact P|]. intros p' f' P'. apply Free. now exists u, p'.
  - intros (t & p & H & X & P). pose proof (target_kept t H X) as Z. exists (refer (redirect g l0) t), p. split; [apply (in_view l0 g); now exists t|]. split; [now apply T|].
    cbn [refer f_id]. apply walk_kept; [exact P|]. intros p' f' P'. apply Free. now exists t, p'.
Qed.
Lemma met_view : met_once is_fq l0 mods0 T0 -> met_once is_fq l1 mods1 T1.
Proof.
  intros U t1 t2 p1 p2 f H1 H2 X1 X2 P1 P2. apply (in_view l0 g) in H1, H2. destruct H1 as (u1 & Hu1 & Z1 & ->). destruct H2 as (u2 & Hu2 & Z2 & ->).
  apply T in X1; [|assumption|assumption]. apply T in X2; [|assumption|assumption]. cbn [refer f_id] in P1, P2.
  apply walk_lift in P1; [|intros p' f' P'; apply Free; now exists u1, p']. apply walk_lift in P2; [|intros p' f' P'; apply Free; now exists u2, p'].
  destruct (U u1 u2 p1 p2 f Hu1 Hu2 X1 X2 P1 P2) as [-> ->]. auto.
Qed.
End Passes.

Lemma trims_ok {M : Type} (is_fq : M -> bool) l mods : trims is_fq l mods (Ok (l, mods)).
Proof. left. exists (fun _ => false). split; [intros i X; discriminate|]. now rewrite view_none. Qed.
Lemma trims_bind {M : Type} (is_fq : M -> bool) l mods o pass : well_formed is_fq l mods -> trims is_fq l mods o ->
  (forall l' mods', well_formed is_fq l' mods' -> trims is_fq l' mods' (pass (l', mods'))) -> trims is_fq l mods (do s <- o; pass s).
Proof.
  intros W [(g & G & ->)| ->] P; [|now right]. cbn [bind].
  destruct (P (view g l) (left g l mods) (view_wf is_fq l mods g W G)) as [(g2 & G2 & E)|E]; unfold without at 1; cbn [fst snd]; rewrite E; [left|now right].
  exists (fun k => g k || g2 k)%bool. split; [now apply okay_both|]. f_equal. exact (without_twice is_fq l mods g W G g2 G2).
Qed.
Lemma trims_after {M : Type} (is_fq : M -> bool) select l mods : well_formed is_fq l mods -> trims is_fq l mods (del_after M is_fq select (l, mods)).
Proof.
  intros W. destruct (del_after_view is_fq l mods W select) as (g & X & E). left. exists g. split; [|exact E]. intros i Z. apply X in Z. destruct Z as (n & t & Z). exists n. tauto.
Qed.
Lemma trims_before {M : Type} (is_fq : M -> bool) select l mods : (forall r n, select (refer r n) = select n) -> well_formed is_fq l mods -> trims is_fq l mods (del_before M is_fq select (l, mods)).
Proof. intros S0 W. now apply del_before_safe. Qed.
(** All passes together delete only quantizers, or fail an assertion. *)
Theorem C128_safe_partial : forall (M : Type) (is_fq module_prev module_next : M -> bool) function_prev function_next method_prev method_next op_prev op_next l mods,
  well_formed is_fq l mods -> (forall t, In t l -> module_call module_prev mods t -> exists j r, f_args t = ANode j :: r) ->
  trims is_fq l mods (del_redundant_fakequant is_fq module_prev module_next function_prev function_next method_prev method_next op_prev op_next (l, mods)).
Proof.
  intros M is_fq mp mn fp fn mep men op on l mods W F. unfold del_redundant_fakequant. apply trims_bind; [exact W| |].
  - destruct (C127_exact_partial M is_fq mp l mods W F) as (g & X & E). left. exists g. split; [|exact E]. intros i Z. apply X in Z. destruct Z as (t & n & r & Z). exists n. tauto.
  - clear l mods W F. intros l mods W.
    apply trims_bind; [exact W|now apply trims_after|]. clear l mods W. intros l mods W.
    apply trims_bind; [exact W|now apply trims_before|]. clear l mods W. intros l mods W.
    apply trims_bind; [exact W|now apply trims_after|]. clear l mods W. intros l mods W.
    apply trims_bind; [exact W|now apply trims_before|]. clear l mods W. intros l mods W.
    apply trims_bind; [exact W|now apply trims_after|]. clear l mods W. intros l mods W.
    apply trims_bind; [exact W|now apply trims_before|]. clear l mods W. intros l mods W. now apply trims_after.
Qed.

(** Passes without patterns change nothing. *)
Lemma none_gone {M : Type} (l : list fnode) (mods : list (string * M)) gone : (forall f, ~ gone f = true) -> without gone (l, mods) = (l, mods).
Proof. intros H. rewrite <- (view_none l mods) at 2. apply view_ext. intros k. destruct (gone k) eqn:E; [|reflexivity]. now destruct (H k). Qed.
Lemma before_function_none {M : Type} (is_fq : M -> bool) l mods : well_formed is_fq l mods -> del_fakequant_before_function M is_fq [] (l, mods) = Ok (l, mods).
Proof.
  intros W. destruct (C126_function_partial M is_fq [] l mods W) as (g & X & E); [intros t1 t2 p1 p2 f _ _ [_ []]|]. rewrite E. f_equal. apply none_gone. intros f Z. apply X in Z. now destruct Z as (t & p & _ & [_ []] & _).
Qed.
Lemma before_method_none {M : Type} (is_fq : M -> bool) l mods : well_formed is_fq l mods -> del_fakequant_before_method M is_fq [] (l, mods) = Ok (l, mods).
Proof.
  intros W. destruct (C126_method_partial M is_fq [] l mods W) as (g & X & E); [intros t1 t2 p1 p2 f _ _ [_ []]|]. rewrite E. f_equal. apply none_gone. intros f Z. apply X in Z. now destruct Z as (t & p & _ & [_ []] & _).
Qed.
Lemma after_function_none {M : Type} (is_fq : M -> bool) l mods : well_formed is_fq l mods -> del_fakequant_after_function M is_fq [] (l, mods) = Ok (l, mods).
Proof.
  intros W. destruct (C125_function_partial M is_fq [] l mods W) as (g & X & E). rewrite E. f_equal. apply none_gone. intros f Z. apply X in Z. now destruct Z as (n & t & _ & _ & _ & _ & _ & _ & []).
Qed.
Lemma after_op_none {M : Type} (is_fq : M -> bool) l mods : well_formed is_fq l mods -> del_fakequant_after_op M is_fq [] (l, mods) = Ok (l, mods).
Proof.
  intros W. destruct (C125_op_partial M is_fq [] l mods W) as (g & X & E). rewrite E. f_equal. apply none_gone. intros f Z. apply X in Z. now destruct Z as (n & t & _ & _ & _ & _ & _ & []).
Qed.
(** The patterns of the OpenVINO and TensorRT quantizers (openvino_quantizer.py:64-86): modules before
    and after, methods after, ops before. Exactly the quantizers described go, if walking back from
    those ops meets no quantizer that another pass deletes, and none twice. *)
Theorem C128_backend_partial : forall (M : Type) (is_fq module_prev module_next : M -> bool) method_next op_prev l mods,
  well_formed is_fq l mods -> (forall t, In t l -> module_call module_prev mods t -> exists j r, f_args t = ANode j :: r) ->
  met_once is_fq l mods (has_op op_prev) ->
  (forall f, back_from is_fq l mods (has_op op_prev) f ->
     ~ first_of is_fq l mods (module_call module_prev mods) f /\ ~ after is_fq l mods (module_call module_next mods) f /\ ~ after is_fq l mods (method_call method_next) f) ->
  exists gone, (forall f, gone f = true <-> first_of is_fq l mods (module_call module_prev mods) f \/ after is_fq l mods (module_call module_next mods) f \/
                                           after is_fq l mods (method_call method_next) f \/ back_from is_fq l mods (has_op op_prev) f) /\
    del_redundant_fakequant is_fq module_prev module_next [] [] [] method_next op_prev [] (l, mods) = Ok (without gone (l, mods)).
Proof.
  intros M is_fq mp mn men op l mods W F U D. unfold del_redundant_fakequant.
  destruct (C127_exact_partial M is_fq mp l mods W F) as (g1 & X1 & E1). rewrite E1. cbn [bind].
  assert (only_quantizers is_fq g1 l mods) as G1 by (intros i Z; apply X1 in Z; destruct Z as (t & n & r & Z); exists n; tauto).
  pose proof (view_wf is_fq l mods g1 W G1) as W1.
  destruct (C125_module_partial M is_fq mn _ _ W1) as (g2 & X2 & E2).
  assert (forall f, g2 f = true <-> after is_fq l mods (module_call mn mods) f /\ g1 f = false) as Y2.
  { intros f. rewrite X2. rewrite <- (after_view is_fq l mods g1 W G1 (module_call mn mods) (module_call mn (left g1 l mods))).
    - split; [intros (n & t & x & H); exists n, t; unfold module_call; firstorder|]. intros (n & t & A1 & A2 & A3 & A4 & A5 & A6 & x & A7 & A8). exists n, t, x. tauto.
    - intros u Hu Z. unfold module_call. rewrite <- !pattern_iff. pose proof (left_pattern is_fq l mods W mn g1 u (redirect g1 l) G1 Hu Z) as P. cbn [without fst snd] in P. now rewrite P. }
  assert (only_quantizers is_fq g2 (view g1 l) (left g1 l mods)) as G2 by (intros i Z; apply X2 in Z; destruct Z as (n & t & x & Z); exists n; tauto).
  unfold without at 1. cbn [fst snd]. rewrite E2. cbn [bind]. change (view g1 l, left g1 l mods) with (without g1 (l, mods)). rewrite (without_twice is_fq l mods g1 W G1 g2 G2).
  pose proof (okay_both is_fq l mods g1 W G1 g2 G2) as G12. set (g12 := fun k => (g1 k || g2 k)%bool) in *.
  assert (forall f, g12 f = true <-> first_of is_fq l mods (module_call mp mods) f \/ after is_fq l mods (module_call mn mods) f) as X12.
  { intros f. unfold g12. rewrite orb_true_iff, Y2, X1. destruct (g1 f) eqn:Z; [apply X1 in Z; tauto|]. tauto. }
  pose proof (view_wf is_fq l mods g12 W G12) as W12. unfold without at 1. cbn [fst snd].
  rewrite (before_function_none is_fq _ _ W12). cbn [bind]. rewrite (after_function_none is_fq _ _ W12). cbn [bind]. rewrite (before_method_none is_fq _ _ W12). cbn [bind].
  destruct (C125_method_partial M is_fq men _ _ W12) as (g3 & X3 & E3).
  assert (forall f, g3 f = true <-> after is_fq l mods (method_call men) f /\ g12 f = false) as Y3.
  { intros f. rewrite X3. rewrite <- (after_view is_fq l mods g12 W G12 (method_call men) (method_call men)); [unfold after, method_call; tauto|]. intros u _ _. reflexivity. }
  assert (only_quantizers is_fq g3 (view g12 l) (left g12 l mods)) as G3 by (intros i Z; apply X3 in Z; destruct Z as (n & t & Z); exists n; tauto).
  rewrite E3. cbn [bind]. change (view g12 l, left g12 l mods) with (without g12 (l, mods)). rewrite (without_twice is_fq l mods g12 W G12 g3 G3).
  pose proof (okay_both is_fq l mods g12 W G12 g3 G3) as G123. set (g123 := fun k => (g12 k || g3 k)%bool) in *.
  assert (forall f, g123 f = true <-> first_of is_fq l mods (module_call mp mods) f \/ after is_fq l mods (module_call mn mods) f \/ after is_fq l mods (method_call men) f) as X123.
  { intros f. unfold g123. rewrite orb_true_iff, Y3, X12. destruct (g12 f) eqn:Z; [apply X12 in Z; tauto|]. tauto. }
  pose proof (view_wf is_fq l mods g123 W G123) as W123. unfold without at 1. cbn [fst snd].
  assert (forall f, back_from is_fq l mods (has_op op) f -> g123 f = false) as Free by (intros f B; destruct (g123 f) eqn:Z; [apply X123 in Z; destruct (D f B); tauto|reflexivity]).
  assert (forall u, In u l -> g123 (f_id u) = false -> (has_op op (refer (redirect g123 l) u) <-> has_op op u)) as T by reflexivity.
  destruct (C126_op_partial M is_fq op _ _ W123 (met_view is_fq l mods g123 W G123 (has_op op) (has_op op) T Free U)) as (g4 & X4 & E4).
  assert (only_quantizers is_fq g4 (view g123 l) (left g123 l mods)) as G4.
  { intros i Z. apply X4 in Z. destruct Z as (t & p & _ & _ & P). clear - P. induction P as [n H Q|n a j p f H Q A P IH]; [now exists n|exact IH]. }
  rewrite E4. cbn [bind]. change (view g123 l, left g123 l mods) with (without g123 (l, mods)). rewrite (without_twice is_fq l mods g123 W G123 g4 G4).
  pose proof (okay_both is_fq l mods g123 W G123 g4 G4) as GG.
  pose proof (view_wf is_fq l mods _ W GG) as WW. exists (fun k => (g123 k || g4 k)%bool). split.
  - intros f. rewrite orb_true_iff, X123. pose proof (back_view is_fq l mods g123 W G123 (has_op op) (has_op op) T Free f) as BV. unfold back_from at 1 in BV. rewrite <- X4 in BV. tauto.
  - unfold without at 1. cbn [fst snd]. now rewrite (after_op_none is_fq _ _ WW).
Qed.
(** Claimed without the last two hypotheses: only such quantizers go. It fails if a pooling is the last
    layer: with its quantizer gone, the walk from the output goes on to the one before the pooling. *)
Definition C128_claim : Prop := forall l mods s, well_formed is_quantizer l mods ->
  del_redundant_fakequant is_quantizer prev_types (String.eqb "MaxPool2d") [] [] [] ["flatten"] ["output"] [] (l, mods) = Ok s ->
  forall n, In n l -> ~ In (f_id n) (map f_id (fst s)) ->
  first_of is_quantizer l mods (module_call prev_types mods) (f_id n) \/ after is_quantizer l mods (module_call (String.eqb "MaxPool2d") mods) (f_id n) \/
  after is_quantizer l mods (method_call ["flatten"]) (f_id n) \/ back_from is_quantizer l mods (has_op ["output"]) (f_id n).
Definition pool_net : list fnode :=
  [fnd 0 "placeholder" "x" []; fnd 1 "call_module" "conv" [ANode 0]; fnd 2 "call_module" "aq0" [ANode 1]; fnd 3 "call_module" "pool" [ANode 2]; fnd 4 "call_module" "aq1" [ANode 3]; fnd 5 "output" "output" [ANode 4]].
Definition pool_modules : list (string * string) := [("conv", "Conv2d"); ("aq0", "FakeQuantize"); ("pool", "MaxPool2d"); ("aq1", "FakeQuantize")].
Example C128_pool_ok : well_formed is_quantizer pool_net pool_modules.
Proof. apply well_formed_by; vm_compute; reflexivity. Qed.
Theorem C128_pool_refuted : ~ C128_claim.
Proof.
  intros H. specialize (H pool_net pool_modules ([fnd 0 "placeholder" "x" []; fnd 1 "call_module" "conv" [ANode 0]; fnd 3 "call_module" "pool" [ANode 1]; fnd 5 "output" "output" [ANode 3]], [("conv", "Conv2d"); ("pool", "MaxPool2d")])
    C128_pool_ok eq_refl (fnd 2 "call_module" "aq0" [ANode 1])).
  destruct H as [H|[H|[H|H]]].
  - vm_compute. tauto.
  - vm_compute. intros X. repeat (destruct X as [X|X]; [discriminate X|]). destruct X.
  - destruct H as (t & n & r & Ht & (O & x & X & Y) & _). cbn in Ht. repeat (destruct Ht as [<-|Ht]; [first [discriminate O|vm_compute in X; injection X as <-; discriminate Y]|]). destruct Ht.
  - destruct H as (n & t & Hn & E & Q & A & Ht & O & x & X & Y). cbn in Hn. repeat (destruct Hn as [<-|Hn]; [first [discriminate E|idtac]|]); [|destruct Hn]. cbn in A. injection A as A.
    cbn in Ht. repeat (destruct Ht as [<-|Ht]; [first [discriminate A|vm_compute in X; injection X as <-; discriminate Y]|]). destruct Ht.
  - destruct H as (n & t & Hn & E & Q & A & Ht & O & X). cbn in Ht. repeat (destruct Ht as [<-|Ht]; [discriminate O|]). destruct Ht.
  - destruct H as (t & p & Ht & [O|[]] & P). cbn in Ht. repeat (destruct Ht as [<-|Ht]; [first [discriminate O|apply (walks_all _ _ _ _ _ C128_pool_ok) in P; vm_compute in P; destruct P as [P|[]]; discriminate P]|]). destruct Ht.
Qed.
(** The network of C125: the quantizers after the pooling, after the flatten and before the output go. *)
Example C128_backend_example : well_formed is_quantizer net net_modules /\
  (forall f, back_from is_quantizer net net_modules (has_op ["output"]) f -> f = 8) /\
  ~ after is_quantizer net net_modules (module_call (String.eqb "MaxPool2d") net_modules) 8 /\ ~ after is_quantizer net net_modules (method_call ["flatten"]) 8 /\
  summary (del_redundant_fakequant is_quantizer prev_types (String.eqb "MaxPool2d") [] [] [] ["flatten"] ["output"] [] (net, net_modules)) =
  Ok ([(0, []); (1, [ANode 0]); (2, [ANode 1]); (3, [ANode 2]); (5, [ANode 3; AConst 1]); (7, [ANode 5]); (9, [ANode 7])], ["conv"; "aq0"; "pool"; "fc"]).
Proof.
  split; [exact C125_net_ok|]. split; [|split; [|split; [|reflexivity]]].
  - intros f (t & p & Ht & [O|[]] & P). cbn in Ht. repeat (destruct Ht as [<-|Ht]; [first [discriminate O|apply (walks_all _ _ _ _ _ C125_net_ok) in P; vm_compute in P; destruct P as [P|[]]; congruence]|]). destruct Ht.
  - intros (n & t & Hn & E & Q & A & Ht & O & x & X & Y). cbn in Hn. repeat (destruct Hn as [<-|Hn]; [first [discriminate E|idtac]|]); [|destruct Hn]. cbn in A. injection A as A.
    cbn in Ht. repeat (destruct Ht as [<-|Ht]; [first [discriminate A|vm_compute in X; injection X as <-; discriminate Y]|]). destruct Ht.
  - intros (n & t & Hn & E & Q & A & Ht & O & X). cbn in Hn. repeat (destruct Hn as [<-|Hn]; [first [discriminate E|idtac]|]); [|destruct Hn]. cbn in A. injection A as A.
    cbn in Ht. repeat (destruct Ht as [<-|Ht]; [first [discriminate A|discriminate O]|]). destruct Ht.
Qed.
Example C128_safe_example : trims is_quantizer pool_net pool_modules (del_redundant_fakequant is_quantizer prev_types (String.eqb "MaxPool2d") [] [] [] ["flatten"] ["output"] [] (pool_net, pool_modules)).
Proof.
  apply C128_safe_partial; [exact C128_pool_ok|]. intros t H (O & x & X & Y). cbn in H. repeat (destruct H as [<-|H]; [first [discriminate O|now vm_compute; eauto]|]). destruct H.
Qed.
Print Assumptions C127_exact_partial.
Print Assumptions C127_residual_refuted.
Print Assumptions C127_keyword_refuted.
Print Assumptions C128_safe_partial.
Print Assumptions C128_backend_partial.
Print Assumptions C128_pool_refuted.
