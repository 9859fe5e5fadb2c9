(** C108, C109 - units and mutators built again from their config templates. *)
From Verif Require Import Prelude PyNum Channel_Model Channel_Lemmas Divisible_Model Divisible_Props Mutator_Model Mutator_Lemmas Mutator3_Props.
From Coq Require Import Sorting.Sorted.

(** * C108 *)
(** ** Specification *)
(** Same class, arguments, candidates, related channels and active channels; the name may differ. *)
Definition alike (u u' : munit) : Prop :=
  m_cls u' = m_cls u /\ m_cfg u' = m_cfg u /\ m_cands u' = m_cands u /\ m_in u' = m_in u /\ m_out u' = m_out u /\
  m_ch u' = m_ch u.
Definition C108_claim : Prop :=
  forall m ts m' us u g u',
    prepare_from_supernet m ts = Ok m' -> reach (mt_units m') us -> In u us ->
    config_template true true u = Ok g -> init_from_cfg (m_cls u) g = Ok u' -> alike u u'.

(** ** Theorems *)
Definition proper (is_out : bool) (l : list chan) : Prop := NoDup l /\ forall c, In c l -> ch_out c = is_out.
Lemma chan_eqb_eq a b : chan_eqb a b = true <-> a = b.
Proof.
  unfold chan_eqb. destruct a, b; cbn. rewrite !andb_true_iff, Nat.eqb_eq, !Z.eqb_eq, Bool.eqb_true_iff. split; [intros [[[-> ->] ->] ->]; reflexivity|intros H; inversion H; auto].
Qed.
Lemma NoDup_snoc {A} (l : list A) x : NoDup l -> ~ In x l -> NoDup (l ++ [x]).
Proof. intros N X. apply NoDup_rev in N. rewrite <- (rev_involutive (l ++ [x])). apply NoDup_rev. rewrite rev_app_distr. cbn. constructor; [rewrite <- in_rev; exact X|exact N]. Qed.
Lemma add_chan_proper o l c : proper o l -> ch_out c = o -> proper o (add_chan l c).
Proof.
  intros [N A] C. unfold add_chan. destruct (existsb (chan_eqb c) l) eqn:E; [split; assumption|]. split.
  - apply NoDup_snoc; [exact N|]. intros X. assert (existsb (chan_eqb c) l = true) by (apply existsb_exists; exists c; split; [exact X|apply chan_eqb_eq; reflexivity]). congruence.
  - intros x Hx. apply in_app_or in Hx. destruct Hx as [Hx|[<-|[]]]; auto.
Qed.
Lemma related_proper n o l : proper o (related n o l).
Proof.
  unfold related. assert (X : forall l acc, proper o acc -> proper o (fold_left add_chan (map (fill_chan n o) l) acc)).
  { induction l0 as [|c l0 IH]; intros acc P; [exact P|]. cbn. apply IH. apply add_chan_proper; [exact P|reflexivity]. }
  apply X. split; [constructor|intros c []].
Qed.
Lemma related_again n o l : proper o l -> related n o (map chan_template l) = l.
Proof.
  intros [N A]. unfold related. rewrite map_map. 
  assert (E : map (fun c => fill_chan n o (chan_template c)) l = l) by (clear N; induction l as [|c l IH]; [reflexivity|]; cbn [map]; rewrite IH by (intros; apply A; right; assumption); f_equal; specialize (A c (or_introl eq_refl)); destruct c; cbn in *; subst; reflexivity).
  rewrite E. assert (X : forall l acc, NoDup (acc ++ l) -> fold_left add_chan l acc = acc ++ l).
  { induction l0 as [|c l0 IH]; intros acc ND; [cbn; symmetry; apply app_nil_r|]. cbn [fold_left]. assert (F : existsb (chan_eqb c) acc = false).
    { apply Bool.not_true_is_false. intros H. apply existsb_exists in H. destruct H as (x & Hx & Ex). apply chan_eqb_eq in Ex. subst x. apply NoDup_remove_2 in ND. apply ND, in_or_app. auto. }
    unfold add_chan at 2. rewrite F, IH; rewrite <- app_assoc; [reflexivity|exact ND]. }
  apply X. exact N.
Qed.
(** What stays true of a unit of a mutator. *)
Record sound (u : munit) : Prop := {
  s_good : good u;
  s_in : proper false (m_in u);
  s_out : proper true (m_out u);
  s_seq : m_cls u = CSeq -> m_cands u = [];
  s_cands : m_cls u <> CSeq -> m_cands u <> [] /\ Sorted ile (m_cands u)
}.
Lemma sound_same u u' : same u u' -> good u' -> sound u -> sound u'.
Proof. intros [m ->] G S. destruct S. constructor; auto. Qed.
Lemma made_shape u :
  made u -> neat u -> proper false (m_in u) /\ proper true (m_out u) /\ (m_cls u = CSeq -> m_cands u = []) /\
    (m_cls u <> CSeq -> m_cands u <> [] /\ Sorted ile (m_cands u)).
Proof.
  induction 1 as [c a u E|u rn i o M IH|u k M IH|u v u' M IH E]; intros N.
  - unfold init_unit in E. destruct (a_n a) as [n|]; [|discriminate]. set (w := {| u_n := n; u_num := _; u_div := _; u_min := _; u_ratio := _ |}) in E.
    destruct (match c with CSeq => _ | _ => _ end) as [cands|] eqn:Ec; [|discriminate]. cbn [bind] in E. apply Ok_inj in E. subst u. cbn [m_cfg m_cands m_cls m_ch m_in m_out] in *.
    split; [split; [constructor|intros x []]|]. split; [split; [constructor|intros x []]|]. split.
    + intros ->. destruct (a_cands a); [discriminate|]. apply Ok_inj in Ec. auto.
    + assert (X : forall l, oneshot_unit_candidates w l = Ok cands -> cands <> [] /\ Sorted ile cands) by (intros l El; destruct (cands_ok w l cands (n_num _ N) (n_div _ N) (n_min_div _ N) El) as (A & B & _); auto).
      intros C. destruct c; [congruence| |]; eapply X; exact Ec.
  - destruct (IH (neat_back u (with_related u _ _) eq_refl eq_refl N)) as (_ & _ & A & B). cbn [with_related m_in m_out m_cls m_cands]. split; [apply related_proper|]. split; [apply related_proper|]. auto.
  - exact (IH (neat_back u (with_name u k) eq_refl eq_refl N)).
  - destruct (set_same _ _ _ E) as [c0 ->]. exact (IH (neat_back u (with_ch u c0) eq_refl eq_refl N)).
Qed.
Lemma prepared_sound m ts m' : prepare_from_supernet m ts = Ok m' -> Forall neat (mt_units m') -> Forall sound (mt_units m').
Proof.
  intros H N. pose proof (prepared_good m ts m' H N) as G. destruct (prepared_from m ts m' H) as (us & M & E). apply mapM_each in E. rewrite Forall_forall in *. intros u Hu.
  assert (exists w, In w us /\ prepare_unit w = Ok u) as (w & W1 & W2).
  { clear -E Hu. induction E as [|a b l l' H E IH]; [destruct Hu|]. destruct Hu as [<-|Hu]; [exists a; cbn; auto|]. destruct (IH Hu) as (w & A & B). exists w. cbn. auto. }
  assert (X : exists c, u = with_ch w c).
  { unfold prepare_unit in W2. destruct (m_cls w); [apply Ok_inj in W2; subst; exists (m_ch u); destruct u; reflexivity| |]; (destruct (max_choice w) as [v|]; [|discriminate]; exact (set_same _ _ _ W2)). }
  destruct X as [c X]. assert (Nw : neat w) by (subst u; exact (neat_back w (with_ch w c) eq_refl eq_refl (N _ Hu))). destruct (made_shape w (M w W1) Nw) as (A & B & C & D).
  constructor; [apply G, Hu| | | |]; rewrite X; assumption.
Qed.
Lemma reach_sound us us' : Forall sound us -> reach us us' -> Forall sound us'.
Proof.
  intros S R. assert (G : Forall good us) by (revert S; apply Forall_impl; intros a H; apply H). destruct (reach_good us us' G R) as [G' S'].
  clear R. induction S' as [|a b l l' H S' IH]; [constructor|]. inversion S; subst. inversion G; subst. inversion G'; subst. constructor; [eapply sound_same; eauto|auto].
Qed.

(** The unit of [init_from_cfg] from the arguments and channels of the template. *)
Lemma build_again u k :
  sound u -> at_choice u k ->
  init_from_cfg (m_cls u) {| c_args := Some (args_template u); c_channels := Some (map chan_template (m_in u), map chan_template (m_out u)); c_choice := Some (NInt k) |}
  = Ok {| m_cls := m_cls u; m_cfg := m_cfg u; m_cands := m_cands u; m_in := m_in u; m_out := m_out u; m_name := None; m_ch := m_ch u |}.
Proof.
  intros S (B & F & M & I). pose proof (b_neat u B) as N. unfold init_from_cfg. cbn [c_args c_channels c_choice].
  assert (Ei : init_unit (m_cls u) (args_template u) = Ok {| m_cls := m_cls u; m_cfg := m_cfg u; m_cands := m_cands u; m_in := []; m_out := []; m_name := None; m_ch := new_seq (u_n (m_cfg u)) (u_num (m_cfg u)) |}).
  { unfold init_unit, args_template. cbn [a_n a_num a_div a_min a_ratio a_cands get_or].
    assert (W : {| u_n := u_n (m_cfg u); u_num := u_num (m_cfg u); u_div := u_div (m_cfg u); u_min := u_min (m_cfg u); u_ratio := u_ratio (m_cfg u) |} = m_cfg u) by (destruct (m_cfg u); reflexivity).
    rewrite W. assert (O : m_cls u <> CSeq -> oneshot_unit_candidates (m_cfg u) (m_cands u) = Ok (m_cands u)).
    { intros C. destruct (s_cands u S C) as [C1 C2]. apply cands_again; [apply N|apply N|apply N|exact C1|exact C2|]. intros c Hc. destruct (b_cands u B c Hc) as (z & -> & Z1 & Z2). exists z. split; [reflexivity|]. split; [exact Z1|apply Z2]. }
    destruct (m_cls u) eqn:C; [rewrite (s_seq u S C); reflexivity| |]; cbn [get_or]; rewrite O by congruence; reflexivity. }
  rewrite Ei. cbn [bind m_cfg]. cbv zeta. rewrite (related_again _ false (m_in u)) by apply S. rewrite (related_again _ true (m_out u)) by apply S.
  set (w := with_related _ _ _).
  assert (Bw : base w).
  { constructor; cbn [w with_related m_cfg m_ch m_cands new_seq q_n q_num q_mask]; [destruct N; constructor; assumption|reflexivity|apply N|reflexivity|apply repeat_length|apply B]. }
  destruct (set_fine w k Bw F I) as (u' & E & _ & _ & ->). rewrite E. f_equal. unfold w. cbn [with_related with_ch m_cls m_cfg m_cands m_in m_out m_name m_ch with_mask new_seq].
  rewrite <- M. f_equal. pose proof (b_n u B) as E1. pose proof (b_num u B) as E2. pose proof (n_num u N) as E3. pose proof (b_fixed u B) as E4.
  destruct (m_ch u) as [a b c d]. cbn [q_n q_num q_mask q_fixed] in *. unfold with_mask, new_seq. cbn [q_n q_num q_mask q_fixed]. unfold with_ch, with_related. cbn [m_cls m_cfg m_cands m_in m_out m_name]. rewrite E1, E2, E3, E4. reflexivity.
Qed.
Theorem C108_rebuilt_unit_partial m ts m' us u :
  prepare_from_supernet m ts = Ok m' -> Forall neat (mt_units m') -> reach (mt_units m') us -> In u us ->
  exists g u', config_template true true u = Ok g /\ init_from_cfg (m_cls u) g = Ok u' /\ alike u u'.
Proof.
  intros P N R Hu. assert (S : sound u) by (pose proof (reach_sound _ _ (prepared_sound m ts m' P N) R) as S; rewrite Forall_forall in S; apply S, Hu).
  destruct (s_good u S) as [k G]. unfold config_template. rewrite (at_get u k G). cbn [bind]. eexists; eexists. split; [reflexivity|]. split; [apply build_again; assumption|]. repeat split.
Qed.
Print Assumptions C108_rebuilt_unit_partial.
(** 17 channels and divisor 8: the rebuilt unit has 16. *)
Theorem C108_rebuilt_unit_refuted : ~ C108_claim.
Proof.
  intros H. destruct (prepare_from_supernet (ex_mut CSeq ex_args) (ex_ts 17)) as [m'|] eqn:E; [|discriminate].
  destruct (mt_units m') as [|u l] eqn:Eu; [vm_compute in E; apply Ok_inj in E; subst m'; discriminate|].
  destruct (config_template true true u) as [g|] eqn:Eg; [|vm_compute in E; apply Ok_inj in E; subst m'; inversion Eu; subst u; vm_compute in Eg; discriminate].
  destruct (init_from_cfg (m_cls u) g) as [u'|] eqn:Ei;
    [|vm_compute in E; apply Ok_inj in E; subst m'; inversion Eu; subst u; vm_compute in Eg; apply Ok_inj in Eg; subst g; vm_compute in Ei; discriminate].
  assert (In u (mt_units m')) as I by (rewrite Eu; left; reflexivity).
  destruct (H _ _ _ _ _ _ _ E (reach_start _) I Eg Ei) as (_ & _ & _ & _ & _ & X). clear H I.
  vm_compute in E. apply Ok_inj in E. subst m'. inversion Eu; subst u. vm_compute in Eg. apply Ok_inj in Eg. subst g. vm_compute in Ei. apply Ok_inj in Ei. subst u'. discriminate X.
Qed.
Print Assumptions C108_rebuilt_unit_refuted.

(** A unit of 16 channels with candidates 4 and 8, and one of 8, after choosing 4 and 8. *)
Example C108_case :
  exists m', prepare_from_supernet (ex_mut COneShot ex_args2) ex_ts2 = Ok m' /\ Forall neat (mt_units m') /\
    let us := fst (set_choices (mt_units m') [(UAuto 2 0 16 16, NInt 4)]) in
    map (fun u => do g <- config_template true true u; init_from_cfg (m_cls u) g) us = map Ok us /\
    map get_choice us = [Ok (NInt 4); Ok (NInt 8)].
Proof.
  eexists. split; [vm_compute; reflexivity|]. cbv zeta. split.
  - repeat (constructor; [constructor; cbn [m_cfg m_cands u_num u_div u_min u_ratio u_n]; [reflexivity|lia|split; discriminate|first [exists 4; reflexivity|exists 2; reflexivity]|lia|lia|right; lia|intros k [H|[H|[]]]; inversion H; lia]|]). constructor.
  - split; vm_compute; reflexivity.
Qed.

(** * C109 *)
(** ** Specification *)
(** The same unit with the same name. *)
Definition alike_named (u u' : munit) : Prop := alike u u' /\ name_of u' = name_of u.
Definition as_config (m : mutator) : mutator :=
  {| mt_cls := mt_cls m; mt_default := mt_default m; mt_file := mt_file m; mt_disk := mt_disk m;
     mt_units_cfg := mt_units_cfg m; mt_parse := {| p_type := PConfig; p_from_cfg := p_from_cfg (mt_parse m) |}; mt_units := mt_units m |}.
(** Built from the template as it is, and with parse_cfg type 'Config' put into it. *)
Definition C109_claim : Prop :=
  forall m ts m' us t m2,
    prepare_from_supernet m ts = Ok m' -> NoDup (names (mt_units m')) -> reach (mt_units m') us ->
    rebuilt true true m' us = Ok t -> prepare_from_supernet t ts = Ok m2 -> Forall2 alike_named us (mt_units m2).
Definition C109_config_claim : Prop :=
  forall m ts m' us t m2,
    prepare_from_supernet m ts = Ok m' -> NoDup (names (mt_units m')) -> Forall neat (mt_units m') -> reach (mt_units m') us ->
    rebuilt true true m' us = Ok t -> prepare_from_supernet (as_config t) ts = Ok m2 -> Forall2 alike_named us (mt_units m2).
(** As [alike], but the choice is the largest one. *)
Definition alike_max (u u' : munit) : Prop :=
  m_cls u' = m_cls u /\ m_cfg u' = m_cfg u /\ m_cands u' = m_cands u /\ m_in u' = m_in u /\ m_out u' = m_out u /\
  name_of u' = name_of u /\ exists v, max_choice u = Ok v /\ get_choice u' = Ok v.

(** ** Theorems *)
(** 16 channels, choice 4: the rebuilt unit has all 16. *)
Definition ex_ops : list (uname * num) := [(UAuto 2 0 16 16, NInt 8)].
Theorem C109_rebuilt_refuted : ~ C109_claim.
Proof.
  intros H. destruct (prepare_from_supernet (ex_mut CSeq ex_args) (ex_ts 16)) as [m'|] eqn:E; [|discriminate].
  destruct (set_choices (mt_units m') ex_ops) as [us r] eqn:Es.
  destruct (rebuilt true true m' us) as [t|] eqn:Et; [|vm_compute in E; apply Ok_inj in E; subst m'; vm_compute in Es; inversion Es; subst; vm_compute in Et; discriminate].
  destruct (prepare_from_supernet t (ex_ts 16)) as [m2|] eqn:E2;
    [|vm_compute in E; apply Ok_inj in E; subst m'; vm_compute in Es; inversion Es; subst; vm_compute in Et; apply Ok_inj in Et; subst t; vm_compute in E2; discriminate].
  assert (X : NoDup (names (mt_units m'))) by (vm_compute in E; apply Ok_inj in E; subst m'; vm_compute; constructor; [intros []|constructor]).
  specialize (H _ _ _ _ _ _ E X (reach_set _ _ _ _ _ (reach_start _) Es) Et E2). clear X.
  vm_compute in E; apply Ok_inj in E; subst m'; vm_compute in Es; inversion Es; subst; vm_compute in Et; apply Ok_inj in Et; subst t; vm_compute in E2; apply Ok_inj in E2; subst m2.
  inversion H as [|a b l l' H1 H2]; subst. destruct H1 as ((_ & _ & _ & _ & _ & X) & _). vm_compute in X. discriminate X.
Qed.
Print Assumptions C109_rebuilt_refuted.
(** Candidates 4 and 8, choice 4: the rebuilt unit has 8, also with type 'Config'. *)
Theorem C109_rebuilt_config_refuted : ~ C109_config_claim.
Proof.
  intros H. destruct (prepare_from_supernet (ex_mut COneShot ex_args2) (ex_ts 16)) as [m'|] eqn:E; [|discriminate].
  destruct (set_choices (mt_units m') [(UAuto 2 0 16 16, NInt 4)]) as [us r] eqn:Es.
  destruct (rebuilt true true m' us) as [t|] eqn:Et; [|vm_compute in E; apply Ok_inj in E; subst m'; vm_compute in Es; inversion Es; subst; vm_compute in Et; discriminate].
  destruct (prepare_from_supernet (as_config t) (ex_ts 16)) as [m2|] eqn:E2;
    [|vm_compute in E; apply Ok_inj in E; subst m'; vm_compute in Es; inversion Es; subst; vm_compute in Et; apply Ok_inj in Et; subst t; vm_compute in E2; discriminate].
  assert (X : NoDup (names (mt_units m'))) by (vm_compute in E; apply Ok_inj in E; subst m'; vm_compute; constructor; [intros []|constructor]).
  assert (Y : Forall neat (mt_units m')).
  { vm_compute in E; apply Ok_inj in E; subst m'. constructor; [|constructor]. constructor; cbn [m_cfg m_cands u_num u_div u_min u_ratio u_n]; [reflexivity|lia|split; discriminate|exists 4; reflexivity|lia|lia|right; lia|intros k [Hk|[Hk|[]]]; inversion Hk; lia]. }
  specialize (H _ _ _ _ _ _ E X Y (reach_set _ _ _ _ _ (reach_start _) Es) Et E2). clear X Y.
  vm_compute in E; apply Ok_inj in E; subst m'; vm_compute in Es; inversion Es; subst; vm_compute in Et; apply Ok_inj in Et; subst t; vm_compute in E2; apply Ok_inj in E2; subst m2.
  inversion H as [|a b l l' H1 H2]; subst. destruct H1 as ((_ & _ & _ & _ & _ & X) & _). vm_compute in X. discriminate X.
Qed.
Print Assumptions C109_rebuilt_config_refuted.

Definition cfg_of (u : munit) : ucfg :=
  {| c_args := Some (args_template u); c_channels := Some (map chan_template (m_in u), map chan_template (m_out u)); c_choice := Some (choice_of u) |}.
Lemma units_template_ok us : forall d,
  NoDup (map fst d ++ names us) -> (forall u, In u us -> get_choice u = Ok (choice_of u)) ->
  units_template true true us d = Ok (d ++ map (fun u => (name_of u, cfg_of u)) us).
Proof.
  induction us as [|u us IH]; intros d N F; [cbn; rewrite app_nil_r; reflexivity|]. cbn [units_template]. unfold config_template. rewrite (F u) by (left; reflexivity). cbn [bind].
  assert (NI : ~ In (name_of u) (map fst d)). { cbn [names map] in N. apply NoDup_remove_2 in N. intros X. apply N, in_or_app. auto. }
  rewrite d_put_new by exact NI. rewrite IH; [rewrite <- app_assoc; reflexivity| |intros; apply F; right; assumption].
  rewrite map_app. cbn [map fst]. rewrite <- app_assoc. exact N.
Qed.
Definition renamed (u : munit) : munit :=
  {| m_cls := m_cls u; m_cfg := m_cfg u; m_cands := m_cands u; m_in := m_in u; m_out := m_out u; m_name := Some (name_of u); m_ch := m_ch u |}.
Lemma from_template c default us cfg own :
  (forall u, In u us -> sound u /\ m_cls u = c /\ d_get cfg (name_of u) = Some (cfg_of u)) ->
  (c = CSeq -> a_cands default = None) ->
  from_cfg_keys c default true None cfg own (names us) = Ok (map renamed us, (cfg, own)).
Proof.
  intros H D. induction us as [|u us IH]; [reflexivity|]. cbn [names map from_cfg_keys].
  destruct (H u (or_introl eq_refl)) as (S & C & G). assert (E : from_cfg_key c default true None cfg own (name_of u) = Ok (renamed u, (cfg, own))).
  { unfold from_cfg_key. rewrite G. cbn [cfg_of c_args c_channels c_choice].
    assert (A : args_update default (args_template u) = args_template u).
    { unfold args_update, args_template. cbn [a_n a_num a_div a_min a_ratio a_cands or_else]. rewrite <- C in D. destruct (m_cls u); [rewrite (D eq_refl)| |]; reflexivity. }
    rewrite A. cbv zeta. destruct (s_good u S) as [k K]. assert (Ck : choice_of u = NInt k) by (unfold choice_of; rewrite (at_get u k K); reflexivity).
    assert (B : init_from_cfg c (cfg_of u) = Ok {| m_cls := m_cls u; m_cfg := m_cfg u; m_cands := m_cands u; m_in := m_in u; m_out := m_out u; m_name := None; m_ch := m_ch u |}) by (unfold cfg_of; rewrite Ck, <- C; apply build_again; assumption).
    unfold cfg_of in B. rewrite B. cbn [bind]. fold (cfg_of u). rewrite d_put_same by exact G. reflexivity. }
  rewrite E. cbn [bind fst snd]. fold (names us). rewrite IH by (intros; apply H; right; assumption). reflexivity.
Qed.
Lemma max_in u : m_cands u <> [] -> exists v, max_choice u = Ok v /\ In v (m_cands u).
Proof. intros N. unfold max_choice. destruct (rev (m_cands u)) as [|v r] eqn:E; [apply (f_equal (@rev _)) in E; rewrite rev_involutive in E; contradiction|]. exists v. split; [reflexivity|]. apply in_rev. rewrite E. left. reflexivity. Qed.
Lemma mt_cls_prepare m ts m' : prepare_from_supernet m ts = Ok m' -> mt_cls m' = mt_cls m /\ mt_default m' = mt_default m.
Proof.
  unfold prepare_from_supernet. cbv zeta. destruct (match p_type (mt_parse m) with PAnalyzer => _ | PConfig => _ end) as [[[us d] p]|]; [|discriminate]. cbn [bind].
  destruct (mapM prepare_unit us); [|discriminate]. cbn [bind]. intros H. apply Ok_inj in H. subst. auto.
Qed.

(** With type 'Config' put into the template, neat units and distinct names, the rebuilt mutator has
    the same units; their choices are the same for SequentialMutableChannelUnits and the largest
    ones for the others. *)
Theorem C109_rebuilt_partial m ts ts' m' us :
  prepare_from_supernet m ts = Ok m' -> NoDup (names (mt_units m')) -> Forall neat (mt_units m') -> reach (mt_units m') us ->
  (forall u, In u (mt_units m') -> m_cls u = mt_cls m) -> (mt_cls m = CSeq -> a_cands (mt_default m) = None) ->
  exists t m2, rebuilt true true m' us = Ok t /\ prepare_from_supernet (as_config t) ts' = Ok m2 /\
    Forall2 (if match mt_cls m with CSeq => true | _ => false end then alike_named else alike_max) us (mt_units m2).
Proof.
  intros P N D R Cl Da. destruct (mt_cls_prepare m ts m' P) as [P1 P2].
  pose proof (prepared_sound m ts m' P D) as S0. pose proof (reach_sound _ _ S0 R) as S1. destruct (reach_good _ _ (prepared_good m ts m' P D) R) as [G1 F1].
  assert (Cu : forall u, In u us -> m_cls u = mt_cls m).
  { clear -F1 Cl. induction F1 as [|a b l l' H F1 IH]; intros u Hu; [destruct Hu|]. destruct Hu as [<-|Hu]; [destruct H as [x ->]; exact (Cl a (or_introl eq_refl))|]. apply IH; [intros; apply Cl; right; assumption|exact Hu]. }
  assert (N1 : NoDup (names us)) by (rewrite (same_names _ _ F1); exact N).
  unfold rebuilt. rewrite (units_template_ok us []); [|exact N1|apply good_all, G1]. cbn [bind app]. rewrite P1, P2.
  set (d := map (fun u => (name_of u, cfg_of u)) us). exists (new_mutator (mt_cls m) (mt_default m) false d (mt_parse m')).
  assert (Fd : map fst d = names us) by (unfold d, names; rewrite map_map; reflexivity).
  unfold prepare_from_supernet, as_config, new_mutator. cbn [mt_cls mt_default mt_file mt_disk mt_units_cfg mt_parse mt_units p_type p_from_cfg negb].
  rewrite Fd, from_template; [|intros u Hu; rewrite Forall_forall in S1; split; [apply S1, Hu|split; [apply Cu, Hu|]]|exact Da].
  2:{ apply d_get_nodup; [rewrite Fd; exact N1|]. unfold d. apply (in_map (fun u => (name_of u, cfg_of u))). exact Hu. }
  cbn [bind fst snd].
  assert (X : forall u, In u us -> exists u', prepare_unit (renamed u) = Ok u' /\ (if match mt_cls m with CSeq => true | _ => false end then alike_named else alike_max) u u').
  { intros u Hu. pose proof (Cu u Hu) as C. rewrite Forall_forall in S1. pose proof (S1 u Hu) as S. unfold prepare_unit. cbn [renamed m_cls]. rewrite <- C.
    assert (B : base (renamed u)). { destruct (s_good u S) as [k K]. destruct (proj1 K) as [B1 B2 B3 B4 B5 B6]. constructor; cbn [renamed m_cfg m_ch m_cands]; try assumption. destruct B1. constructor; assumption. }
    assert (M : m_cls u <> CSeq -> exists u', (do v <- max_choice (renamed u); set_choice (renamed u) v) = Ok u' /\ alike_max u u').
    { intros Nc. destruct (max_in u) as (v & Ev & Iv); [apply S, Nc|]. change (max_choice (renamed u)) with (max_choice u). rewrite Ev. cbn [bind].
      destruct (b_cands (renamed u) B v Iv) as (k & -> & Fk). destruct (set_fine (renamed u) k B Fk (fun _ => Iv)) as (u' & E & _ & A & ->). eexists. split; [exact E|].
      repeat (split; [reflexivity|]). exists (NInt k). split; [exact Ev|apply at_get, A]. }
    destruct (m_cls u) eqn:Ec; [|apply M; discriminate|apply M; discriminate]. eexists. split; [reflexivity|]. repeat split. }
  assert (exists us', mapM prepare_unit (map renamed us) = Ok us' /\ Forall2 (if match mt_cls m with CSeq => true | _ => false end then alike_named else alike_max) us us') as (us' & E1 & E2).
  { clear -X. induction us as [|u us IH]; [exists []; split; [reflexivity|constructor]|]. destruct (X u (or_introl eq_refl)) as (u' & A & B). destruct IH as (us' & A' & B'); [intros; apply X; right; assumption|].
    exists (u' :: us'). split; [cbn [map mapM]; rewrite A; cbn [bind]; rewrite A'; reflexivity|constructor; assumption]. }
  rewrite E1. cbn [bind]. eexists. split; [reflexivity|]. split; [reflexivity|]. exact E2.
Qed.
Print Assumptions C109_rebuilt_partial.

(** The two units of C107_case, with choices 4 and 8, once with OneShot and once with Sequential
    units (divisor 4): the second keeps both choices, the first takes the largest. *)
Definition ex_args4 : iargs := {| a_n := None; a_num := None; a_div := Some 4; a_min := None; a_ratio := None; a_cands := None |}.
Definition ex_again (c : ucls) (a : iargs) : outcome (list (uname * outcome num)) :=
  do m' <- prepare_from_supernet (ex_mut c a) ex_ts2;
  do t <- rebuilt true true m' (fst (set_choices (mt_units m') [(UAuto 2 0 16 16, NInt 4); (UAuto 3 0 8 8, NInt 8)]));
  do m2 <- prepare_from_supernet (as_config t) [];
  Ok (map (fun u => (name_of u, get_choice u)) (mt_units m2)).
Example C109_case :
  ex_again CSeq ex_args4 = Ok [(UAuto 2 0 16 16, Ok (NInt 4)); (UAuto 3 0 8 8, Ok (NInt 8))] /\
  ex_again COneShot ex_args2 = Ok [(UAuto 2 0 16 16, Ok (NInt 8)); (UAuto 3 0 8 8, Ok (NInt 8))].
Proof. split; vm_compute; reflexivity. Qed.
