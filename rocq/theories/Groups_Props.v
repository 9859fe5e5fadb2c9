(** C24, C62. *)
From Verif Require Import Prelude Groups_Model.
From Coq Require Import Permutation.

(** * Specification *)
(** [m] is named by an item of the custom group [g], by its alias or by its module name (a
    key that is some mutable's alias is read as alias). *)
Definition alias_of (m : modl) (a : string) : Prop := exists i, In (i, Some a) (md_srcs m).
Definition in_custom (ms : list modl) (g : list string) (m : modl) : Prop :=
  exists item, In item g /\
    (alias_of m item \/ (md_name m = item /\ forall m', In m' ms -> ~ alias_of m' item)).
(** Distinct names, one mutable per module, every mutable registered once. *)
Definition plain_model (ms : list modl) : Prop :=
  NoDup (map md_name ms) /\ NoDup (flat_map (fun m => map fst (md_srcs m)) ms) /\
  forall m, In m ms -> exists i al, md_srcs m = [(i, al)].
Definition together (groups : list (list nat)) (m1 m2 : modl) : Prop :=
  exists grp i1 i2 a1 a2, In grp groups /\ In (i1, a1) (md_srcs m1) /\ In (i2, a2) (md_srcs m2) /\ In i1 grp /\ In i2 grp.

(** * Refutations of the full claim *)
Definition mutables (ms : list modl) : list nat := nodup Nat.eq_dec (flat_map (fun m => map fst (md_srcs m)) ms).
Definition C24_claim_once : Prop :=
  forall ms custom groups, NoDup (map md_name ms) ->
    build_search_groups ms custom = Ok groups -> Permutation (concat groups) (mutables ms).
(** A mutable registered under its own name and used by a derived mutable lands in two groups. *)
Theorem C24_derived_refuted : ~ C24_claim_once.
Proof.
  intros H.
  specialize (H [{| md_name := "m"; md_srcs := [(0%nat, None)] |}; {| md_name := "d"; md_srcs := [(0%nat, None)] |}] [] [[0%nat]; [0%nat]]).
  assert (Hn : NoDup (map md_name [{| md_name := "m"; md_srcs := [(0%nat, None)] |}; {| md_name := "d"; md_srcs := [(0%nat, None)] |}])).
  { cbn. repeat constructor; cbn; intuition discriminate. }
  specialize (H Hn eq_refl). apply Permutation_length in H. vm_compute in H. discriminate.
Qed.
Print Assumptions C24_derived_refuted.
(** Even for plain models, mutables of one alias are separated if one of them is named in a
    custom group. *)
Definition C24_claim_alias : Prop :=
  forall ms custom groups a m1 m2, plain_model ms -> build_search_groups ms custom = Ok groups ->
    In m1 ms -> In m2 ms -> alias_of m1 a -> alias_of m2 a -> together groups m1 m2.
Definition ex_ms : list modl :=
  [{| md_name := "op1"; md_srcs := [(1%nat, Some "a1"%string)] |};
   {| md_name := "op2"; md_srcs := [(2%nat, Some "a1"%string)] |};
   {| md_name := "op3"; md_srcs := [(3%nat, Some "a2"%string)] |};
   {| md_name := "op4"; md_srcs := [(4%nat, None)] |};
   {| md_name := "op5"; md_srcs := [(5%nat, Some "a2"%string)] |};
   {| md_name := "op6"; md_srcs := [(6%nat, None)] |}].
Lemma ex_plain : plain_model ex_ms.
Proof.
  split; [cbn; repeat constructor; cbn; intuition discriminate|]. split; [cbn; repeat constructor; cbn; intuition discriminate|].
  cbn. intros m H. repeat (destruct H as [<-|H]; [cbn; eauto|]). destruct H.
Qed.
Theorem C24_alias_refuted : ~ C24_claim_alias.
Proof.
  intros H.
  destruct (H ex_ms [["op1"%string]] [[1]; [2]; [3; 5]; [4]; [6]]%nat "a1"%string (nth 0 ex_ms {| md_name := ""; md_srcs := [] |}) (nth 1 ex_ms {| md_name := ""; md_srcs := [] |}) ex_plain eq_refl)
    as (grp & i1 & i2 & a1 & a2 & Hg & H1 & H2 & H3 & H4).
  - cbn. auto.
  - cbn. auto.
  - exists 1%nat. cbn. auto.
  - exists 2%nat. cbn. auto.
  - cbn in H1, H2. destruct H1 as [H1|[]], H2 as [H2|[]]. inversion H1; inversion H2; subst.
    cbn in Hg. repeat (destruct Hg as [<-|Hg]; [cbn in H3, H4; intuition discriminate|]). destruct Hg.
Qed.
Print Assumptions C24_alias_refuted.

(** * Lemmas *)
Lemma memb_In x l : memb x l = true <-> In x l.
Proof.
  unfold memb. rewrite existsb_exists. split.
  - intros (y & Hy & He). apply String.eqb_eq in He. subst. exact Hy.
  - intros H. exists x. split; [exact H|apply String.eqb_refl].
Qed.
Lemma memb_nIn x l : memb x l = false <-> ~ In x l.
Proof. rewrite <- memb_In. destruct (memb x l); intuition congruence. Qed.
Lemma nodupb_spec l : nodupb l = true -> NoDup l.
Proof.
  induction l as [|x r IH]; cbn; intros H; [constructor|]. apply andb_true_iff in H as [H1 H2].
  constructor; [apply memb_nIn; apply negb_true_iff; exact H1|auto].
Qed.
Lemma dedup_In l : forall seen x, In x (dedup seen l) <-> In x l /\ ~ In x seen.
Proof.
  induction l as [|y r IH]; intros seen x; cbn; [tauto|].
  fold (memb y seen). destruct (memb y seen) eqn:E.
  - apply memb_In in E. rewrite IH. split; [tauto|]. intros [[->|H] Hn]; tauto.
  - apply memb_nIn in E. cbn. rewrite IH. cbn.
    destruct (string_dec y x) as [->|Hne]; [tauto|]. intuition.
Qed.
Lemma dedup_NoDup l : forall seen, NoDup (dedup seen l).
Proof.
  induction l as [|y r IH]; intros seen; cbn; [constructor|]. destruct (existsb (String.eqb y) seen); [auto|].
  constructor; [|auto]. rewrite dedup_In. cbn. tauto.
Qed.
Lemma mapM_ok {A B} (f : A -> outcome B) l ys : mapM f l = Ok ys -> Forall2 (fun x y => f x = Ok y) l ys.
Proof.
  revert ys. induction l as [|x l IH]; intros ys H; cbn in H; [inversion H; constructor|].
  destruct (f x) eqn:E; cbn in H; [|discriminate]. destruct (mapM f l) eqn:E2; cbn in H; [|discriminate].
  inversion H; subst. constructor; auto.
Qed.

Lemma nodup_app {A} (l l' : list A) : NoDup l -> NoDup l' -> (forall x, In x l -> In x l' -> False) -> NoDup (l ++ l').
Proof.
  induction 1 as [|x l Hx Hn IH]; cbn; intros Hl' Hd; [exact Hl'|]. constructor.
  - rewrite in_app_iff. intros [H|H]; [tauto|]. eapply Hd; [left; reflexivity|exact H].
  - apply IH; [exact Hl'|]. intros y Hy Hy'. eapply Hd; [right; exact Hy|exact Hy'].
Qed.
Lemma nodup_app_r {A} (l l' : list A) : NoDup (l ++ l') -> NoDup l'.
Proof. induction l as [|x l IH]; cbn; intros H; [exact H|]. inversion H; subst. auto. Qed.

Section Plain.
Variable ms : list modl.
Hypothesis Hplain : plain_model ms.

Lemma name_inj m1 m2 : In m1 ms -> In m2 ms -> md_name m1 = md_name m2 -> m1 = m2.
Proof.
  destruct Hplain as (Hn & _ & _). revert Hn. generalize ms as l. induction l as [|m l IH]; cbn; intros Hn H1 H2 He; [destruct H1|].
  inversion Hn; subst. destruct H1 as [<-|H1], H2 as [<-|H2]; auto.
  - exfalso. apply H3. rewrite He. apply in_map. exact H2.
  - exfalso. apply H3. rewrite <- He. apply in_map. exact H1.
Qed.
Lemma alias_keys_In a : In a (alias_keys ms) <-> exists m, In m ms /\ alias_of m a.
Proof.
  unfold alias_keys. rewrite dedup_In. cbn. split.
  - intros [H _]. apply in_flat_map in H as (m & Hm & H). apply in_flat_map in H as ((i & al) & Hs & Ha). cbn in Ha.
    exists m. split; [exact Hm|]. destruct al as [b|]; [|destruct Ha]. destruct Ha as [->|[]]. exists i. exact Hs.
  - intros (m & Hm & i & Hi). split; [|tauto]. apply in_flat_map. exists m. split; [exact Hm|].
    apply in_flat_map. exists (i, Some a). split; [exact Hi|]. cbn. auto.
Qed.
Lemma alias_names_In a n : In n (alias_names ms a) <-> exists m, In m ms /\ md_name m = n /\ alias_of m a.
Proof.
  unfold alias_names. rewrite in_flat_map. split.
  - intros (m & Hm & H). apply in_map_iff in H as ((i & al) & <- & H). apply filter_In in H as [Hs Ha].
    unfold has_alias in Ha. cbn in Ha. destruct al as [b|]; [|discriminate]. apply String.eqb_eq in Ha. subst b.
    exists m. split; [exact Hm|]. split; [reflexivity|]. exists i. exact Hs.
  - intros (m & Hm & <- & i & Hi). exists m. split; [exact Hm|]. apply in_map_iff. exists (i, Some a). split; [reflexivity|].
    apply filter_In. split; [exact Hi|]. cbn. unfold has_alias. cbn. apply String.eqb_refl.
Qed.
Lemma lookup_ok n i : lookup_name ms n = Ok i <-> exists m al, In m ms /\ md_name m = n /\ md_srcs m = [(i, al)].
Proof.
  destruct Hplain as (Hn & _ & Hs). unfold lookup_name, name2mutable. split.
  - intros H. destruct (find _ ms) as [m|] eqn:E; [|discriminate]. apply find_some in E as [Hm Hb].
    apply andb_true_iff in Hb as [Hb _]. apply String.eqb_eq in Hb. destruct (Hs m Hm) as (j & al & Hj). rewrite Hj in H. cbn in H.
    apply Ok_inj in H. subst j. eauto.
  - intros (m & al & Hm & He & Hj). destruct (find _ ms) as [m'|] eqn:E.
    + apply find_some in E as [Hm' Hb]. apply andb_true_iff in Hb as [Hb _]. apply String.eqb_eq in Hb.
      assert (m' = m) by (apply name_inj; congruence). subst m'. rewrite Hj. reflexivity.
    + exfalso. apply find_none with (x := m) in E; [|exact Hm]. rewrite Hj in E. cbn in E. rewrite He, String.eqb_refl in E. discriminate.
Qed.
Lemma lookup_name_of m i al : In m ms -> md_srcs m = [(i, al)] -> forall n, lookup_name ms n = Ok i -> n = md_name m.
Proof.
  intros Hm Hi n H. apply lookup_ok in H as (m' & al' & Hm' & <- & Hj). f_equal.
  destruct Hplain as (_ & Hids & _). revert Hids Hm Hm'. generalize ms as l. induction l as [|x l IH]; cbn; intros Hd H1 H2; [destruct H1|].
  assert (Hin : forall y, In y l -> md_srcs y = [(i, al)] \/ md_srcs y = [(i, al')] -> In i (flat_map (fun m => map fst (md_srcs m)) l)).
  { intros y Hy [E|E]; apply in_flat_map; exists y; rewrite E; cbn; auto. }
  destruct H1 as [->|H1], H2 as [->|H2]; auto.
  - rewrite Hi in Hd. cbn in Hd. inversion Hd; subst. exfalso. eauto.
  - rewrite Hj in Hd. cbn in Hd. inversion Hd; subst. exfalso. eauto.
  - apply IH; auto. eapply nodup_app_r. exact Hd.
Qed.
(** Names a custom group covers. *)
Lemma resolve_In m g : In m ms -> (In (md_name m) (flat_map (resolve ms) g) <-> in_custom ms g m).
Proof.
  intros Hm. rewrite in_flat_map. unfold in_custom. split; intros (item & Hg & H); exists item; (split; [exact Hg|]); unfold resolve in *.
  - destruct (memb item (alias_keys ms)) eqn:E.
    + left. apply alias_names_In in H as (m' & Hm' & He & Ha). assert (m' = m) by (apply name_inj; assumption). congruence.
    + right. destruct H as [<-|[]]. split; [reflexivity|]. intros m' Hm' Ha. apply memb_nIn in E. apply E. apply alias_keys_In. eauto.
  - destruct H as [H|[He H]].
    + assert (E : memb item (alias_keys ms) = true) by (apply memb_In, alias_keys_In; eauto). rewrite E. apply alias_names_In. eauto.
    + assert (E : memb item (alias_keys ms) = false).
      { apply memb_nIn. intros Hc. apply alias_keys_In in Hc as (m' & Hm' & Ha). eapply H; eassumption. }
      rewrite E. left. congruence.
Qed.
Lemma custom_phase_spec : forall custom prev gs names, custom_phase ms prev custom = Ok (gs, names) ->
  names = flat_map (fun g => flat_map (resolve ms) g) custom /\
  Forall2 (fun g ids => Forall2 (fun n i => lookup_name ms n = Ok i) (flat_map (resolve ms) g) ids) custom gs.
Proof.
  induction custom as [|g r IH]; intros prev gs names H; cbn in H; [inversion H; subst; split; [reflexivity|constructor]|].
  destruct (mapM (lookup_name ms) (flat_map (resolve ms) g)) as [ids|] eqn:E1; cbn in H; [|discriminate].
  match type of H with bind ?m _ = _ => destruct m; cbn in H; [|discriminate] end.
  destruct (custom_phase ms _ r) as [[gs' names']|] eqn:E2; cbn in H; [|discriminate]. inversion H; subst.
  destruct (IH _ _ _ E2) as [-> F]. split; [reflexivity|]. constructor; [apply mapM_ok; exact E1|exact F].
Qed.
Lemma take_spec names : forall grouped n, In n (take_ungrouped grouped names) <-> In n names /\ ~ In n grouped.
Proof.
  induction names as [|x r IH]; intros grouped n; cbn; [tauto|]. destruct (memb x grouped) eqn:E.
  - apply memb_In in E. rewrite IH. split; [tauto|]. intros [[->|H] Hn]; tauto.
  - apply memb_nIn in E. cbn. rewrite IH, in_app_iff. cbn. destruct (string_dec x n) as [->|Hne]; [tauto|]. intuition.
Qed.
Lemma alias_phase_spec galias : forall keys grouped gs out, alias_phase ms galias keys grouped = Ok (gs, out) ->
  exists newg : list (list string),
    out = grouped ++ concat newg /\
    Forall2 (fun ns ids => Forall2 (fun n i => lookup_name ms n = Ok i) ns ids) newg gs /\
    (forall ns n, In ns newg -> In n ns -> ~ In n grouped) /\
    (forall ns, In ns newg -> exists a, In a keys /\ ~ In a galias /\ forall n, In n ns -> In n (alias_names ms a)) /\
    (forall a, NoDup keys -> In a keys -> ~ In a galias ->
       forall n1 n2, In n1 (alias_names ms a) -> In n2 (alias_names ms a) -> ~ In n1 grouped -> ~ In n2 grouped ->
       exists ns, In ns newg /\ In n1 ns /\ In n2 ns).
Proof.
  induction keys as [|a r IH]; intros grouped gs out H; cbn [alias_phase] in H.
  - inversion H; subst. exists []. cbn. rewrite app_nil_r. split; [reflexivity|]. split; [constructor|]. firstorder.
  - destruct (memb a galias) eqn:Ea.
    + apply memb_In in Ea. destruct (IH _ _ _ H) as (newg & A & B & C & D & E). exists newg. split; [exact A|]. split; [exact B|].
      split; [exact C|]. split.
      * intros ns Hns. destruct (D ns Hns) as (b & Hb & ?). exists b. cbn. tauto.
      * intros b Hnd [->|Hb] Hg; [tauto|]. inversion Hnd; subst. eauto.
    + apply memb_nIn in Ea. destruct (take_ungrouped grouped (alias_names ms a)) as [|x xs] eqn:Et.
      * destruct (IH _ _ _ H) as (newg & A & B & C & D & E). exists newg. split; [exact A|]. split; [exact B|].
        split; [exact C|]. split.
        -- intros ns Hns. destruct (D ns Hns) as (b & Hb & ?). exists b. cbn. tauto.
        -- intros b Hnd [->|Hb] Hg; [|inversion Hnd; subst; eauto]. intros n1 n2 H1 _ H3 _. exfalso.
           assert (Hin : In n1 (take_ungrouped grouped (alias_names ms b))) by (apply take_spec; auto). rewrite Et in Hin. destruct Hin.
      * rewrite <- Et in H. set (new := take_ungrouped grouped (alias_names ms a)) in *.
        destruct (mapM (lookup_name ms) new) as [ids|] eqn:E1; cbn in H; [|discriminate].
        destruct (alias_phase ms galias r (grouped ++ new)) as [[gs' out']|] eqn:E2; cbn in H; [|discriminate]. inversion H; subst.
        destruct (IH _ _ _ E2) as (newg & A & B & C & D & E). exists (new :: newg).
        split; [rewrite A; cbn; rewrite app_assoc; reflexivity|]. split; [constructor; [apply mapM_ok; exact E1|exact B]|].
        split; [|split].
        -- intros ns n [<-|Hns] Hn; [apply take_spec in Hn; tauto|]. specialize (C ns n Hns Hn). rewrite in_app_iff in C. tauto.
        -- intros ns [<-|Hns].
           ++ exists a. cbn. split; [auto|]. split; [exact Ea|]. intros n Hn. apply take_spec in Hn. tauto.
           ++ destruct (D ns Hns) as (b & Hb & ?). exists b. cbn. tauto.
        -- intros b Hnd Hb Hg n1 n2 H1 H2 H3 H4. apply NoDup_cons_iff in Hnd as [Hnd1 Hnd2]. destruct Hb as [->|Hb].
           ++ exists new. cbn. split; [auto|]. split; apply take_spec; auto.
           ++ assert (Hnot : forall n, In n (alias_names ms b) -> ~ In n new).
              { intros n Hn Hn'. apply take_spec in Hn' as [Hn' _]. apply alias_names_In in Hn as (m1 & Hm1 & N1 & i1 & A1).
                apply alias_names_In in Hn' as (m2 & Hm2 & N2 & i2 & A2). assert (m1 = m2) by (apply name_inj; congruence). subst m2.
                destruct (proj2 (proj2 Hplain) m1 Hm1) as (j & al & Hj). rewrite Hj in A1, A2. destruct A1 as [A1|[]], A2 as [A2|[]].
                assert (b = a) by congruence. subst b. tauto. }
              destruct (E b Hnd2 Hb Hg n1 n2 H1 H2) as (ns & N1 & N2 & N3); [rewrite in_app_iff; specialize (Hnot n1 H1); tauto|rewrite in_app_iff; specialize (Hnot n2 H2); tauto|].
              exists ns. cbn. tauto.
Qed.
End Plain.

Lemma forall2_in_l {A B} (R : A -> B -> Prop) l l' x : Forall2 R l l' -> In x l -> exists y, In y l' /\ R x y.
Proof. induction 1 as [|a b l l' Hab F IH]; intros Hx; [destruct Hx|]. destruct Hx as [->|Hx]; [exists b; cbn; auto|]. destruct (IH Hx) as (y & ? & ?). exists y. cbn. auto. Qed.
Lemma forall2_in_r {A B} (R : A -> B -> Prop) l l' y : Forall2 R l l' -> In y l' -> exists x, In x l /\ R x y.
Proof. induction 1 as [|a b l l' Hab F IH]; intros Hy; [destruct Hy|]. destruct Hy as [->|Hy]; [exists a; cbn; auto|]. destruct (IH Hy) as (x & ? & ?). exists x. cbn. auto. Qed.
Lemma forall2_app {A B} (R : A -> B -> Prop) a a' b b' : Forall2 R a a' -> Forall2 R b b' -> Forall2 R (a ++ b) (a' ++ b').
Proof. induction 1; cbn; auto. Qed.
Lemma forall2_concat {A B} (R : A -> B -> Prop) l l' : Forall2 (Forall2 R) l l' -> Forall2 R (concat l) (concat l').
Proof. induction 1; cbn; [constructor|]. apply forall2_app; assumption. Qed.

(** * C24, proved for plain models *)
Theorem C24_groups_partial :
  forall ms custom groups, plain_model ms -> build_search_groups ms custom = Ok groups ->
    (* every mutable occurs exactly once *)
    Permutation (concat groups) (flat_map (fun m => map fst (md_srcs m)) ms) /\
    (* two mutables are grouped together exactly when a custom group covers both, or no custom
       group covers either of them and they have the same alias *)
    (forall m1 m2, In m1 ms -> In m2 ms -> m1 <> m2 ->
       (together groups m1 m2 <->
        (exists g, In g custom /\ in_custom ms g m1 /\ in_custom ms g m2) \/
        ((forall g, In g custom -> ~ in_custom ms g m1) /\ (forall g, In g custom -> ~ in_custom ms g m2) /\
         exists a, alias_of m1 a /\ alias_of m2 a))).
Proof.
  intros ms custom groups Hp H. unfold build_search_groups in H.
  match type of H with bind ?m _ = _ => destruct m as [u|]; cbn in H; [|discriminate] end.
  destruct (custom_phase ms None custom) as [[gc nc]|] eqn:Ec; cbn [bind fst snd] in H; [|discriminate].
  set (galias := filter (fun k => memb k (alias_keys ms)) (concat custom)) in *.
  destruct (alias_phase ms galias (alias_keys ms) nc) as [[ga grouped]|] eqn:Ea; cbn [bind fst snd] in H; [|discriminate].
  destruct (nodupb grouped) eqn:Ed; cbn in H; [|discriminate]. apply Ok_inj in H. subst groups.
  apply nodupb_spec in Ed.
  destruct (custom_phase_spec ms custom None gc nc Ec) as [Hnc Fc].
  destruct (alias_phase_spec ms Hp galias _ _ _ _ Ea) as (newg & Hgr & Fa & Hnotin & Halias & Hall).
  destruct Hp as (Hn & Hi & Hs). pose proof (conj Hn (conj Hi Hs)) as Hp.
  set (L := fun n i => lookup_name ms n = Ok i) in *.
  (* names of the groups *)
  set (NC := map (fun g => flat_map (resolve ms) g) custom).
  assert (FC : Forall2 (Forall2 L) NC gc). { unfold NC. clear - Fc. induction Fc; cbn; constructor; auto. }
  assert (HNC : nc = concat NC) by (unfold NC; rewrite Hnc, <- flat_map_concat_map; reflexivity).
  set (NS := flat_map (fun m => if memb (md_name m) grouped then [] else [[md_name m]]) ms).
  assert (FS : Forall2 (Forall2 L) NS (single_phase ms grouped)).
  { unfold NS, single_phase.
    assert (Hsub : forall m, In m ms -> exists i al, md_srcs m = [(i, al)] /\ L (md_name m) i).
    { intros m Hm. destruct (Hs m Hm) as (i & al & E). exists i, al. split; [exact E|]. apply lookup_ok; [exact Hp|]. eauto. }
    revert Hsub. clearbody L. clear. induction ms as [|m l IH]; cbn; intros Hsub; [constructor|].
    apply forall2_app; [|apply IH; auto]. destruct (memb (md_name m) grouped); [constructor|].
    destruct (Hsub m (or_introl eq_refl)) as (i & al & E & HL). rewrite E. cbn. repeat constructor. exact HL. }
  set (NN := NC ++ newg ++ NS).
  assert (FF : Forall2 (Forall2 L) NN (gc ++ ga ++ single_phase ms grouped)) by (unfold NN; auto using forall2_app).
  assert (Lname : forall n i, L n i -> exists m al, In m ms /\ md_name m = n /\ md_srcs m = [(i, al)]).
  { intros n i H. apply (lookup_ok ms Hp). exact H. }
  assert (HconcatNN : concat NN = grouped ++ concat NS).
  { unfold NN. rewrite !concat_app, app_assoc, <- HNC, <- Hgr. reflexivity. }
  assert (HNS : concat NS = filter (fun n => negb (memb n grouped)) (map md_name ms)).
  { unfold NS. clear. induction ms as [|m l IH]; cbn; [reflexivity|]. rewrite concat_app, IH. destruct (memb (md_name m) grouped); reflexivity. }
  assert (Hnodup : NoDup (concat NN)).
  { rewrite HconcatNN, HNS. apply nodup_app; [exact Ed|apply NoDup_filter; exact Hn|].
    intros n Hg Hf. apply filter_In in Hf as [_ Hf]. apply negb_true_iff, memb_nIn in Hf. tauto. }
  assert (Hcover : forall n, In n (concat NN) <-> In n (map md_name ms)).
  { intros n. split.
    - intros Hin. apply forall2_concat in FF. destruct (forall2_in_l _ _ _ _ FF Hin) as (i & _ & HL).
      destruct (Lname n i HL) as (m & al & Hm & <- & _). apply in_map. exact Hm.
    - intros Hin. rewrite HconcatNN, HNS, in_app_iff, filter_In. destruct (memb n grouped) eqn:E; [left; apply memb_In; exact E|right; auto]. }
  assert (Hperm : Permutation (concat NN) (map md_name ms)) by (apply NoDup_Permutation; assumption).
  assert (Hfun : forall l l1 l2, Forall2 L l l1 -> Forall2 L l l2 -> l1 = l2).
  { intros l l1 l2 F1. revert l2. induction F1 as [|n i l l1 HL F1 IH]; intros l2 F2; inversion F2; subst; [reflexivity|].
    f_equal; [unfold L in *; congruence|auto]. }
  assert (Hids : Forall2 L (map md_name ms) (flat_map (fun m => map fst (md_srcs m)) ms)).
  { assert (Hsub : forall m, In m ms -> exists i al, md_srcs m = [(i, al)] /\ L (md_name m) i).
    { intros m Hm. destruct (Hs m Hm) as (i & al & E). exists i, al. split; [exact E|]. apply lookup_ok; [exact Hp|]. eauto. }
    revert Hsub. clearbody L. clear. induction ms as [|m l IH]; cbn; intros Hsub; [constructor|].
    destruct (Hsub m (or_introl eq_refl)) as (i & al & E & HL). rewrite E. cbn. constructor; auto. }
  split.
  - apply forall2_concat in FF.
    assert (Hex : forall l l', Permutation l l' -> forall k, Forall2 L l k -> exists k', Forall2 L l' k' /\ Permutation k k').
    { clear. intros l l' P. induction P; intros k F.
      - inversion F; subst. exists []. split; constructor.
      - inversion F; subst. destruct (IHP _ H3) as (k' & F' & P'). exists (y :: k'). split; constructor; assumption.
      - inversion F as [|? ? ? ? H1 F1]; subst. inversion F1 as [|? ? ? ? H2 F2]; subst. eexists. split; [constructor; [eassumption|constructor; [eassumption|eassumption]]|]. apply perm_swap.
      - destruct (IHP1 _ F) as (k1 & F1 & Q1). destruct (IHP2 _ F1) as (k2 & F2 & Q2). exists k2. split; [exact F2|]. eapply Permutation_trans; eassumption. }
    destruct (Hex _ _ Hperm _ FF) as (k' & F' & P'). rewrite (Hfun _ _ _ Hids F'). exact P'.
  - intros m1 m2 H1 H2 Hne.
    assert (Htog : together (gc ++ ga ++ single_phase ms grouped) m1 m2 <-> exists ns, In ns NN /\ In (md_name m1) ns /\ In (md_name m2) ns).
    { unfold together. destruct (Hs m1 H1) as (i1 & al1 & E1). destruct (Hs m2 H2) as (i2 & al2 & E2). rewrite E1, E2. split.
      - intros (grp & j1 & j2 & b1 & b2 & Hg & [J1|[]] & [J2|[]] & G1 & G2). inversion J1; inversion J2; subst.
        destruct (forall2_in_r _ _ _ _ FF Hg) as (ns & Hns & FL). exists ns. split; [exact Hns|].
        destruct (forall2_in_r _ _ _ _ FL G1) as (n1 & Hn1 & L1). destruct (forall2_in_r _ _ _ _ FL G2) as (n2 & Hn2 & L2).
        rewrite <- (lookup_name_of ms Hp m1 _ _ H1 E1 n1 L1), <- (lookup_name_of ms Hp m2 _ _ H2 E2 n2 L2). auto.
      - intros (ns & Hns & N1 & N2). destruct (forall2_in_l _ _ _ _ FF Hns) as (grp & Hg & FL).
        destruct (forall2_in_l _ _ _ _ FL N1) as (j1 & G1 & L1). destruct (forall2_in_l _ _ _ _ FL N2) as (j2 & G2 & L2).
        assert (Q1 : L (md_name m1) i1) by (apply lookup_ok; [exact Hp|eauto]).
        assert (Q2 : L (md_name m2) i2) by (apply lookup_ok; [exact Hp|eauto]).
        assert (j1 = i1) by (unfold L in *; congruence). assert (j2 = i2) by (unfold L in *; congruence). subst j1 j2.
        exists grp, i1, i2, al1, al2. cbn. auto 10. }
    rewrite Htog.
    assert (Hcust : forall m g, In m ms -> In g custom -> in_custom ms g m -> In (md_name m) nc).
    { intros m g Hm Hg Hc. apply (resolve_In ms Hp) in Hc; [|exact Hm]. rewrite Hnc. apply in_flat_map. eauto. }
    assert (Hcust' : forall m, In m ms -> In (md_name m) nc -> exists g, In g custom /\ in_custom ms g m).
    { intros m Hm Hin. rewrite Hnc in Hin. apply in_flat_map in Hin as (g & Hg & Hin). exists g. split; [exact Hg|]. apply (resolve_In ms Hp); assumption. }
    unfold NN. split.
    + intros (ns & Hns & N1 & N2). rewrite !in_app_iff in Hns. destruct Hns as [Hns|[Hns|Hns]].
      * left. unfold NC in Hns. apply in_map_iff in Hns as (g & <- & Hg). exists g. split; [exact Hg|].
        split; apply (resolve_In ms Hp); assumption.
      * right. destruct (Halias ns Hns) as (a & _ & _ & Han). split; [|split].
        -- intros g Hg Hc. eapply Hnotin; [exact Hns|exact N1|]. eapply Hcust; eassumption.
        -- intros g Hg Hc. eapply Hnotin; [exact Hns|exact N2|]. eapply Hcust; eassumption.
        -- exists a. apply Han in N1. apply Han in N2. apply alias_names_In in N1 as (x1 & X1 & Y1 & A1). apply alias_names_In in N2 as (x2 & X2 & Y2 & A2).
           rewrite <- (name_inj ms Hp _ _ X1 H1 Y1), <- (name_inj ms Hp _ _ X2 H2 Y2). auto.
      * exfalso. unfold NS in Hns. apply in_flat_map in Hns as (m & Hm & Hns). destruct (memb (md_name m) grouped); [destruct Hns|].
        destruct Hns as [<-|[]]. destruct N1 as [N1|[]], N2 as [N2|[]]. apply Hne. apply (name_inj ms Hp); congruence.
    + intros [(g & Hg & C1 & C2)|(C1 & C2 & a & A1 & A2)].
      * exists (flat_map (resolve ms) g). split; [apply in_app_iff; left; unfold NC; apply in_map_iff; eauto|].
        split; apply (resolve_In ms Hp); assumption.
      * assert (Hga : ~ In a galias).
        { intros Hin. unfold galias in Hin. apply filter_In in Hin as [Hin _]. apply in_concat in Hin as (g & Hg & Hag).
          apply (C1 g Hg). exists a. auto. }
        destruct (Hall a) with (n1 := md_name m1) (n2 := md_name m2) as (ns & Hns & N1 & N2).
        -- unfold alias_keys. apply dedup_NoDup.
        -- apply alias_keys_In. eauto.
        -- exact Hga.
        -- apply alias_names_In. eauto.
        -- apply alias_names_In. eauto.
        -- intros Hin. destruct (Hcust' m1 H1 Hin) as (g & Hg & Hc). eapply C1; eassumption.
        -- intros Hin. destruct (Hcust' m2 H2 Hin) as (g & Hg & Hc). eapply C2; eassumption.
        -- exists ns. rewrite !in_app_iff. auto.
Qed.
Print Assumptions C24_groups_partial.
Example C24_example :
  build_search_groups ex_ms [["a2"; "op4"]]%string = Ok [[3; 5; 4]; [1; 2]; [6]]%nat /\ plain_model ex_ms.
Proof. split; [vm_compute; reflexivity|apply ex_plain]. Qed.

(** * C62: groups given by alias *)
(** Legal custom groups: non-empty, keys are aliases or module names, no mutable twice. *)
Definition legal_groups (ms : list modl) (custom : list (list string)) : Prop :=
  (forall g, In g custom -> g <> []) /\
  (forall g k, In g custom -> In k g -> (exists m, In m ms /\ (alias_of m k \/ md_name m = k))) /\
  NoDup (flat_map (fun g => flat_map (resolve ms) g) custom).
Definition C62_claim : Prop :=
  forall ms custom, plain_model ms -> legal_groups ms custom -> exists groups, build_search_groups ms custom = Ok groups.
(** The documented example custom_group=[['a1'], ['a2']] raises KeyError. *)
Theorem C62_alias_groups_refuted : ~ C62_claim.
Proof.
  intros H. destruct (H ex_ms [["a1"]; ["a2"]]%string) as [groups Hg].
  - apply ex_plain.
  - split; [|split].
    + intros g [<-|[<-|[]]]; discriminate.
    + intros g k [<-|[<-|[]]] [<-|[]].
      * exists (nth 0 ex_ms {| md_name := ""; md_srcs := [] |}). cbn. split; [auto|]. left. exists 1%nat. cbn. auto.
      * exists (nth 2 ex_ms {| md_name := ""; md_srcs := [] |}). cbn. split; [auto|]. left. exists 3%nat. cbn. auto.
    + cbn. repeat constructor; cbn; intuition discriminate.
  - vm_compute in Hg. discriminate.
Qed.
Print Assumptions C62_alias_groups_refuted.

Lemma nodupb_complete l : NoDup l -> nodupb l = true.
Proof.
  induction 1 as [|x l Hx Hn IH]; cbn; [reflexivity|]. rewrite IH, andb_true_r. apply negb_true_iff, memb_nIn. exact Hx.
Qed.
Lemma mapM_total {A B} (f : A -> outcome B) l : (forall x, In x l -> exists y, f x = Ok y) -> exists ys, mapM f l = Ok ys.
Proof.
  induction l as [|x l IH]; intros H; cbn; [eauto|]. destruct (H x) as [y E]; [left; reflexivity|]. rewrite E. cbn.
  destruct IH as [ys E2]; [intros z Hz; apply H; right; exact Hz|]. rewrite E2. cbn. eauto.
Qed.
Lemma lookup_total ms m : plain_model ms -> In m ms -> exists i, lookup_name ms (md_name m) = Ok i.
Proof.
  intros Hp Hm. destruct (proj2 (proj2 Hp) m Hm) as (i & al & E). exists i. apply (lookup_ok ms Hp). eauto.
Qed.
Lemma alias_names_total ms a n : plain_model ms -> In n (alias_names ms a) -> exists i, lookup_name ms n = Ok i.
Proof. intros Hp H. apply alias_names_In in H as (m & Hm & <- & _). apply lookup_total; assumption. Qed.
Lemma take_NoDup names : forall grouped, NoDup grouped -> NoDup (grouped ++ take_ungrouped grouped names).
Proof.
  induction names as [|x r IH]; intros grouped H; cbn; [rewrite app_nil_r; exact H|]. destruct (memb x grouped) eqn:E; [auto|].
  apply memb_nIn in E. change (x :: take_ungrouped (grouped ++ [x]) r) with ([x] ++ take_ungrouped (grouped ++ [x]) r). rewrite app_assoc.
  apply IH. apply nodup_app; [exact H|repeat constructor; cbn; tauto|]. intros y Hy [->|[]]. tauto.
Qed.
Lemma alias_phase_total ms galias : plain_model ms -> forall keys grouped, NoDup grouped ->
  exists r, alias_phase ms galias keys grouped = Ok r /\ NoDup (snd r).
Proof.
  intros Hp. induction keys as [|a r IH]; intros grouped H; cbn [alias_phase]; [eauto|]. destruct (memb a galias); [auto|].
  destruct (take_ungrouped grouped (alias_names ms a)) as [|x xs] eqn:Et; [auto|]. rewrite <- Et.
  set (new := take_ungrouped grouped (alias_names ms a)).
  destruct (mapM_total (lookup_name ms) new) as [ids E1].
  { intros n Hn. apply take_spec in Hn as [Hn _]. eapply alias_names_total; eassumption. }
  rewrite E1. cbn [bind]. destruct (IH (grouped ++ new)) as ([gs out] & E2 & Hd); [apply take_NoDup; exact H|].
  rewrite E2. cbn. eauto.
Qed.

(** Proved: it succeeds when aliases and module names are different strings and the last
    item of each custom group is a module name. *)
Theorem C62_alias_groups_partial :
  forall ms custom, plain_model ms -> legal_groups ms custom ->
    (forall m m', In m ms -> In m' ms -> ~ alias_of m (md_name m')) ->
    (forall g, In g custom -> exists pre m, In m ms /\ g = pre ++ [md_name m]) ->
    exists groups, build_search_groups ms custom = Ok groups.
Proof.
  intros ms custom Hp (Hne & Hleg & Hnd) Hdisj Hlast. unfold build_search_groups.
  assert (Hkey : forall k, In k (concat custom) -> exists m, In m ms /\ (alias_of m k \/ md_name m = k)).
  { intros k Hk. apply in_concat in Hk as (g & Hg & Hk). eauto. }
  assert (Hname : forall m, In m ms -> memb (md_name m) (alias_keys ms) = false).
  { intros m Hm. apply memb_nIn. intros Hin. apply alias_keys_In in Hin as (m' & Hm' & Ha). exact (Hdisj m' m Hm' Hm Ha). }
  assert (Hv : check_valid ms custom = Ok tt).
  { unfold check_valid. assert (E1 : forallb (legal_key ms) (concat custom) = true).
    { apply forallb_forall. intros k Hk. unfold legal_key. destruct (Hkey k Hk) as (m & Hm & [Ha|<-]).
      - apply orb_true_iff. left. apply memb_In, alias_keys_In. eauto.
      - apply orb_true_iff. right. destruct (lookup_total ms m Hp Hm) as [i Hi]. unfold lookup_name in Hi. destruct (name2mutable ms (md_name m)); [reflexivity|discriminate]. }
    rewrite E1. cbn.
    assert (E2 : forall l, (forall k, In k l -> In k (concat custom)) -> forallb (fun k => negb (memb k (alias_keys ms)) ||
                             forallb (fun n => negb (memb n (concat custom))) (alias_names ms k)) l = true).
    { intros l Hl. apply forallb_forall. intros k Hk. apply Hl in Hk. destruct (memb k (alias_keys ms)) eqn:Ek; [|reflexivity]. cbn.
      apply forallb_forall. intros n Hn. apply negb_true_iff, memb_nIn. intros Hin.
      assert (Hn' := Hn). apply alias_names_In in Hn' as (m & Hm & <- & Ha).
      (* the module name and the alias both resolve to the same name *)
      assert (Hflat : flat_map (fun g => flat_map (resolve ms) g) custom = flat_map (resolve ms) (concat custom)).
      { clear. induction custom as [|g r IH]; cbn; [reflexivity|]. rewrite flat_map_app, IH. reflexivity. }
      rewrite Hflat in Hnd. assert (Hkn : k <> md_name m) by (intros ->; rewrite (Hname m Hm) in Ek; discriminate).
      assert (R1 : In (md_name m) (resolve ms k)) by (unfold resolve; rewrite Ek; exact Hn).
      assert (R2 : In (md_name m) (resolve ms (md_name m))) by (unfold resolve; rewrite (Hname m Hm); left; reflexivity).
      clear - Hnd Hk Hin Hkn R1 R2. revert Hnd Hk Hin. generalize (concat custom) as l. induction l as [|y l IH]; cbn; intros Hnd Hk Hin; [destruct Hk|].
      assert (Hdis : forall z, In z (resolve ms y) -> In z (flat_map (resolve ms) l) -> False).
      { clear - Hnd. revert Hnd. generalize (resolve ms y) as a, (flat_map (resolve ms) l) as b. intros a b. induction a as [|w a IH]; cbn; intros H z Hz Hz'; [destruct Hz|].
        inversion H; subst. destruct Hz as [<-|Hz]; [apply H2, in_app_iff; auto|eauto]. }
      destruct Hk as [->|Hk], Hin as [Hin|Hin].
      - congruence.
      - eapply Hdis; [exact R1|]. apply in_flat_map. eauto.
      - rewrite <- Hin in R2. eapply Hdis; [rewrite Hin; rewrite Hin in R2; exact R2|]. apply in_flat_map. eauto.
      - apply IH; auto. eapply nodup_app_r. exact Hnd. }
    rewrite E2; [reflexivity|auto]. }
  assert (Hc : forall cs prev, (forall g, In g cs -> In g custom) -> exists r, custom_phase ms prev cs = Ok r).
  { induction cs as [|g r IH]; intros prev Hsub; cbn [custom_phase]; [eauto|].
    destruct (mapM_total (lookup_name ms) (flat_map (resolve ms) g)) as [ids E1].
    { intros n Hn. apply in_flat_map in Hn as (k & Hk & Hn). unfold resolve in Hn. destruct (memb k (alias_keys ms)) eqn:Ek.
      - eapply alias_names_total; eassumption.
      - destruct Hn as [<-|[]]. destruct (Hleg g k) as (m & Hm & [Ha|<-]); [apply Hsub; left; reflexivity|exact Hk| |apply lookup_total; assumption].
        exfalso. apply memb_nIn in Ek. apply Ek, alias_keys_In. eauto. }
    rewrite E1. cbn [bind]. destruct (Hlast g) as (pre & m & Hm & ->); [apply Hsub; left; reflexivity|].
    rewrite rev_app_distr. cbn [rev app]. destruct (lookup_total ms m Hp Hm) as [i Hi]. rewrite Hi. cbn [bind].
    destruct (IH (Some (md_name m))) as [r' E2]; [intros g' Hg'; apply Hsub; right; exact Hg'|]. rewrite E2. cbn. eauto. }
  destruct (Hc custom None (fun g H => H)) as [[gc nc] Ec].
  assert (Hcheck : match custom with [] => Ok tt | _ => check_valid ms custom end = Ok tt) by (destruct custom; [reflexivity|exact Hv]).
  rewrite Hcheck, Ec. cbn [bind snd fst].
  destruct (custom_phase_spec ms custom None gc nc Ec) as [Hnc _].
  destruct (alias_phase_total ms (filter (fun k => memb k (alias_keys ms)) (concat custom)) Hp (alias_keys ms) nc) as ([ga out] & Ea & Hout).
  { rewrite Hnc. exact Hnd. }
  rewrite Ea. cbn [bind snd fst]. rewrite nodupb_complete by exact Hout. cbn. eauto.
Qed.
Print Assumptions C62_alias_groups_partial.
Example C62_example : build_search_groups ex_ms [["a2"; "op4"]; ["op1"; "op6"]]%string = Ok [[3; 5; 4]; [1; 6]; [2]]%nat.
Proof. vm_compute. reflexivity. Qed.
