(** C107 - what set_choices does; the choices sampled, set and read back. *)
From Verif Require Import Prelude PyNum Channel_Model Channel_Lemmas Divisible_Model Divisible_Props Mutator_Model Mutator_Lemmas.
From Coq Require Import Sorting.Sorted.

(** ** Specification *)
(** What a unit becomes. *)
Definition chosen (cs : list (uname * num)) (u : munit) : outcome munit :=
  match d_get cs (name_of u) with
  | None => Ok u
  | Some v => set_choice u v
  end.
(** Units after any sequence of set_choices, successful or not. *)
Inductive reach (us : list munit) : list munit -> Prop :=
  | reach_start : reach us us
  | reach_set us1 cs us2 r : reach us us1 -> set_choices us1 cs = (us2, r) -> reach us us2.
(** randint stays in its range. *)
Definition drawn (us : list munit) (draw : uname -> Z) : Prop :=
  forall u, In u us ->
    match m_cls u with
    | CSeq => 1 <= draw (name_of u) <= Z.of_nat (u_n (m_cfg u))
    | _ => 0 <= draw (name_of u) < Z.of_nat (length (m_cands u))
    end.
Definition C107_read_claim : Prop :=
  forall m ts m' mi us draw cs us',
    prepare_from_supernet m ts = Ok m' -> NoDup (names (mt_units m')) -> reach (mt_units m') us ->
    drawn us draw -> sample_choices mi us draw = Ok cs -> set_choices us cs = (us', Ok tt) ->
    current_choices mi us' = Ok cs.
Definition C107_again_claim : Prop :=
  forall m ts m' mi us cs us' r,
    prepare_from_supernet m ts = Ok m' -> NoDup (names (mt_units m')) -> reach (mt_units m') us ->
    current_choices mi us = Ok cs -> set_choices us cs = (us', r) -> us' = us /\ r = Ok tt.

(** ** Theorems *)
Lemma Forall2_nth {A B} (P : A -> B -> Prop) l l' :
  length l = length l' -> (forall j a b, nth_error l j = Some a -> nth_error l' j = Some b -> P a b) -> Forall2 P l l'.
Proof.
  revert l'. induction l as [|x l IH]; intros [|y l'] L H; try discriminate; constructor.
  - apply (H O); reflexivity.
  - apply IH; [cbn in L; lia|]. intros j a b. apply (H (S j)).
Qed.
Lemma Forall2_imp {A B} (P Q : A -> B -> Prop) l l' : (forall a b, P a b -> Q a b) -> Forall2 P l l' -> Forall2 Q l l'.
Proof. induction 2; constructor; auto. Qed.
Lemma mapM_ext2 {A A' B} (f : A -> outcome B) (g : A' -> outcome B) l l' : Forall2 (fun a b => f a = g b) l l' -> mapM f l = mapM g l'.
Proof. induction 1; cbn; [reflexivity|]. rewrite H, IHForall2. reflexivity. Qed.
Lemma mapM_each {A B} (f : A -> outcome B) l l' : mapM f l = Ok l' -> Forall2 (fun a b => f a = Ok b) l l'.
Proof.
  revert l'; induction l as [|x l IH]; intros l' H; cbn in H; [apply Ok_inj in H; subst; constructor|]. destruct (f x) eqn:E; [|discriminate]. cbn in H.
  destruct (mapM f l) eqn:E2; [|discriminate]. cbn in H. apply Ok_inj in H. subst. constructor; auto.
Qed.
Lemma each_mapM {A B} (f : A -> outcome B) l l' : Forall2 (fun a b => f a = Ok b) l l' -> mapM f l = Ok l'.
Proof. induction 1; cbn; [reflexivity|]. rewrite H. cbn. rewrite IHForall2. reflexivity. Qed.
Lemma set_same u v u' : set_choice u v = Ok u' -> exists c, u' = with_ch u c.
Proof. unfold set_choice. destruct (match m_cls u with CSeq => _ | _ => _ end); [|discriminate]. cbn. intros H. apply Ok_inj in H. eauto. Qed.
Lemma set_name u v u' : set_choice u v = Ok u' -> name_of u' = name_of u.
Proof. intros H. destruct (set_same _ _ _ H) as [c ->]. reflexivity. Qed.
Lemma nodup_nth (us : list munit) i j a b : NoDup (names us) -> nth_error us i = Some a -> nth_error us j = Some b -> name_of a = name_of b -> i = j.
Proof.
  intros N A B E. unfold names in N. apply (NoDup_nth_error (map name_of us)) with (i := i) (j := j); [exact N| |].
  - rewrite map_length. apply nth_error_Some. congruence.
  - rewrite !nth_error_map, A, B. cbn. congruence.
Qed.
Lemma upd_names us i u u' : nth_error us i = Some u -> name_of u' = name_of u -> names (upd us i u') = names us.
Proof.
  intros H E.
  assert (F : Forall2 (fun a b => name_of b = name_of a) us (upd us i u')) by (apply Forall2_upd with u; auto).
  unfold names. clear -F. induction F; cbn [map]; [reflexivity|]. rewrite H, IHF. reflexivity.
Qed.
Lemma chosen_step us k v cs i u u' :
  NoDup (names us) -> ~ In k (map fst cs) -> nth_error us i = Some u -> name_of u = k -> set_choice u v = Ok u' ->
  mapM (chosen ((k, v) :: cs)) us = mapM (chosen cs) (upd us i u').
Proof.
  intros N K En Eu Es. pose proof (set_name _ _ _ Es) as Nm. apply mapM_ext2. apply Forall2_nth; [symmetry; apply upd_length|]. intros j a b Ha Hb.
  apply upd_inv in Hb. destruct Hb as [[-> ->]|[D Hb]].
  - rewrite En in Ha. inversion Ha; subst a. unfold chosen. cbn [d_get]. rewrite Nm, Eu, uname_eqb_refl, Es. rewrite (proj2 (d_get_none cs k) K). reflexivity.
  - rewrite Ha in Hb. inversion Hb; subst b. unfold chosen. cbn [d_get]. rewrite uname_neqb; [reflexivity|]. intros X. apply D. symmetry. eapply nodup_nth; eauto. congruence.
Qed.

(** Distinct unit names, distinct keys: set_choices succeeds exactly if every key is the name of a
    unit and that unit takes its choice; then the named units have their choices and the others
    are as before. *)
Theorem C107_effect cs : forall us us',
  NoDup (names us) -> NoDup (map fst cs) ->
  (set_choices us cs = (us', Ok tt) <-> incl (map fst cs) (names us) /\ mapM (chosen cs) us = Ok us').
Proof.
  induction cs as [|[k v] cs IH]; intros us us' N K; cbn [set_choices map fst].
  - split.
    + intros H. inversion H; subst. split; [intros x []|]. apply mapM_fix. reflexivity.
    + intros [_ H]. rewrite mapM_fix in H by reflexivity. apply Ok_inj in H. subst. reflexivity.
  - inversion K as [|a b K1 K2]; subst. split.
    + intros H. destruct (last_named us k) as [i|] eqn:El; [|discriminate]. destruct (last_named_some _ _ _ El) as (u & En & Eu). rewrite En in H.
      destruct (set_choice u v) as [u'|] eqn:Es; [|discriminate]. pose proof (upd_names us i u u' En (set_name _ _ _ Es)) as UN.
      apply IH in H; [|rewrite UN; exact N|exact K2]. destruct H as [I M]. rewrite UN in I. split.
      * intros x [<-|X]; [rewrite <- Eu; apply in_map; eapply nth_error_In, En|auto].
      * rewrite (chosen_step us k v cs i u u') by assumption. exact M.
    + intros [I M]. destruct (last_named_in us k) as [i El]; [apply I; left; reflexivity|]. rewrite El. destruct (last_named_some _ _ _ El) as (u & En & Eu). rewrite En.
      assert (exists u', set_choice u v = Ok u') as [u' Es].
      { apply mapM_each in M. clear -M En Eu. revert i En. induction M as [|a b l l' H M IH]; intros [|i] En; try discriminate; [|eapply IH; exact En].
        cbn in En. inversion En; subst a. unfold chosen in H. cbn [d_get] in H. rewrite Eu, uname_eqb_refl in H. eauto. }
      rewrite Es. pose proof (upd_names us i u u' En (set_name _ _ _ Es)) as UN. apply IH; [rewrite UN; exact N|exact K2|]. rewrite UN. split; [intros x X; apply I; right; exact X|].
      rewrite <- (chosen_step us k v cs i u u') by assumption. exact M.
Qed.
Print Assumptions C107_effect.

(** A failing call has done what comes before the failing key, and nothing more. *)
Theorem C107_failure cs : forall us us' e,
  set_choices us cs = (us', Raise e) ->
  exists done k v rest, cs = done ++ (k, v) :: rest /\ set_choices us done = (us', Ok tt) /\
    ((~ In k (names us) /\ e = KeyError) \/ exists u, In u us' /\ name_of u = k /\ set_choice u v = Raise e).
Proof.
  induction cs as [|[k v] cs IH]; intros us us' e H; cbn [set_choices] in H; [discriminate|].
  destruct (last_named us k) as [i|] eqn:El.
  - destruct (last_named_some _ _ _ El) as (u & En & Eu). rewrite En in H. destruct (set_choice u v) as [u'|e'] eqn:Es.
    + destruct (IH _ _ _ H) as (d & k' & v' & rest & -> & D & O). exists ((k, v) :: d), k', v', rest. split; [reflexivity|]. split.
      * cbn [set_choices]. rewrite El, En, Es. exact D.
      * rewrite (upd_names us i u u' En (set_name _ _ _ Es)) in O. exact O.
    + inversion H; subst. exists [], (name_of u), v, cs. split; [reflexivity|]. split; [reflexivity|]. right. exists u. split; [eapply nth_error_In, En|auto].
  - inversion H; subst. exists [], k, v, cs. split; [reflexivity|]. split; [reflexivity|]. left. split; [|reflexivity]. intros X. destruct (last_named_in _ _ X). congruence.
Qed.
Print Assumptions C107_failure.

(** ** Units of a prepared mutator *)
Inductive made : munit -> Prop :=
  | made_init c a u : init_unit c a = Ok u -> made u
  | made_related u n i o : made u -> made (with_related u (related n false i) (related n true o))
  | made_name u k : made u -> made (with_name u k)
  | made_set u v u' : made u -> set_choice u v = Ok u' -> made u'.
Lemma neat_back u u' : m_cfg u' = m_cfg u -> m_cands u' = m_cands u -> neat u' -> neat u.
Proof. intros A B N. destruct N. rewrite A in *. rewrite B in *. constructor; assumption. Qed.
Lemma made_base u : made u -> neat u -> base u /\ (m_cls u = CSeq -> good u).
Proof.
  induction 1 as [c a u E|u rn i o M IH|u k M IH|u v u' M IH E]; intros N.
  - unfold init_unit in E. destruct (a_n a) as [n|]; [|discriminate]. set (w := {| u_n := n; u_num := _; u_div := _; u_min := _; u_ratio := _ |}) in E.
    destruct (match c with CSeq => _ | _ => _ end) as [cands|] eqn:Ec; [|discriminate]. cbn [bind] in E. apply Ok_inj in E. subst u. cbn [m_cfg m_cands m_cls m_ch] in *.
    assert (B : base {| m_cls := c; m_cfg := w; m_cands := cands; m_in := []; m_out := []; m_name := None; m_ch := new_seq n (u_num w) |}).
    { constructor; cbn [m_cfg m_cands m_ch new_seq q_n q_num q_mask].
      - exact N.
      - reflexivity.
      - apply (n_num _ N).
      - reflexivity.
      - apply repeat_length.
      - assert (X : forall l, oneshot_unit_candidates w l = Ok cands -> forall x, In x cands -> exists k, x = NInt k /\ fine {| m_cls := c; m_cfg := w; m_cands := cands; m_in := []; m_out := []; m_name := None; m_ch := new_seq n (u_num w) |} k).
        { intros l El x Hx. destruct (cands_ok w l cands (n_num _ N) (n_div _ N) (n_min_div _ N) El) as (_ & _ & C). destruct (C x Hx) as (k & -> & D & L). exists k. split; [reflexivity|]. split; [exact D|]. split; [exact L|]. apply (n_cands _ N). exact Hx. }
        destruct c; [destruct (a_cands a); [discriminate|]; apply Ok_inj in Ec; subst cands; intros x []| |]; eapply X; exact Ec. }
    split; [exact B|]. intros C. exists (Z.of_nat n). split; [exact B|]. split; [split; [apply (n_width _ N)|pose proof (low_pos _ N) as L; split; [apply L|cbn; lia]]|]. split; [|intros X; cbn in X; congruence].
    cbn [m_ch new_seq q_mask m_cfg w u_n]. unfold leading. assert (E : slice_stop n (Z.of_nat n) = n) by (unfold slice_stop; destruct (Z.of_nat n <? 0) eqn:Y; lia). rewrite E, Nat.sub_diag. cbn. symmetry. apply app_nil_r.
  - specialize (IH (neat_back u (with_related u _ _) eq_refl eq_refl N)). destruct IH as [B G]. split; [destruct B; constructor; assumption|].
    intros C. destruct (G C) as (k & B' & F & Mk & I). exists k. split; [destruct B; constructor; assumption|]. auto.
  - specialize (IH (neat_back u (with_name u k) eq_refl eq_refl N)). destruct IH as [B G]. split; [destruct B; constructor; assumption|].
    intros C. destruct (G C) as (z & B' & F & Mk & I). exists z. split; [destruct B; constructor; assumption|]. auto.
  - destruct (set_same _ _ _ E) as [c0 Ec0]. assert (Nu : neat u) by (subst u'; exact (neat_back u (with_ch u c0) eq_refl eq_refl N)).
    destruct (IH Nu) as [B _]. destruct (set_good u v u' B E) as [_ [k G]]. split; [apply G|]. intros _. exists k. exact G.
Qed.
Lemma made_prepared u u' : made u -> prepare_unit u = Ok u' -> neat u' -> good u'.
Proof.
  intros M E N. unfold prepare_unit in E. destruct (m_cls u) eqn:C.
  - apply Ok_inj in E. subst. apply made_base; assumption.
  - destruct (max_choice u) as [v|]; [|discriminate]. cbn [bind] in E. destruct (set_same _ _ _ E) as [c0 Ec0].
    assert (Nu : neat u) by (subst u'; exact (neat_back u (with_ch u c0) eq_refl eq_refl N)). exact (proj2 (set_good u v u' (proj1 (made_base u M Nu)) E)).
  - destruct (max_choice u) as [v|]; [|discriminate]. cbn [bind] in E. destruct (set_same _ _ _ E) as [c0 Ec0].
    assert (Nu : neat u) by (subst u'; exact (neat_back u (with_ch u c0) eq_refl eq_refl N)). exact (proj2 (set_good u v u' (proj1 (made_base u M Nu)) E)).
Qed.
Lemma convert_made c d uc t r : convert_unit c d uc t = Ok r -> made (fst r).
Proof.
  unfold convert_unit. destruct t as [n [i o]]. destruct (d_get uc _) as [[[a|] cs ch]|].
  - destruct (init_unit c (set_n a n)) eqn:E; [|discriminate]. cbn. intros H. apply Ok_inj in H. subst. cbn. eauto using made.
  - destruct (init_unit c (set_n d n)) eqn:E; [|discriminate]. cbn. intros H. apply Ok_inj in H. subst. cbn. eauto using made.
  - destruct (init_unit c (set_n d n)) eqn:E; [|discriminate]. cbn. intros H. apply Ok_inj in H. subst. cbn. eauto using made.
Qed.
Lemma tracer_made c d ts : forall uc r, from_tracer c d uc ts = Ok r -> Forall made (fst r).
Proof.
  induction ts as [|[k t] ts IH]; intros uc r H; cbn [from_tracer] in H; [apply Ok_inj in H; subst; constructor|].
  destruct (convert_unit c d uc t) as [x|] eqn:E; [|discriminate]. cbn [bind] in H. destruct (from_tracer c d (snd x) ts) as [y|] eqn:E2; [|discriminate]. cbn [bind] in H. apply Ok_inj in H. subst r. cbn [fst].
  constructor; [eapply convert_made, E|eapply IH, E2].
Qed.
Lemma init_cfg_made c g u : init_from_cfg c g = Ok u -> made u.
Proof.
  unfold init_from_cfg. destruct (c_args g) as [a|]; [|discriminate]. destruct (init_unit c a) as [u0|] eqn:E; [|discriminate]. cbn [bind]. cbv zeta.
  assert (M1 : made (match c_channels g with Some (i, o) => with_related u0 (related (u_n (m_cfg u0)) false i) (related (u_n (m_cfg u0)) true o) | None => u0 end)) by (destruct (c_channels g) as [[i o]|]; eauto using made).
  destruct (c_choice g); intros H; [eauto using made|apply Ok_inj in H; subst; exact M1].
Qed.
Lemma cfg_made c d sh ts ks : forall cfg own r, from_cfg_keys c d sh ts cfg own ks = Ok r -> Forall made (fst r).
Proof.
  induction ks as [|k ks IH]; intros cfg own r H; cbn [from_cfg_keys] in H; [apply Ok_inj in H; subst; constructor|].
  destruct (from_cfg_key c d sh ts cfg own k) as [x|] eqn:E; [|discriminate]. cbn [bind] in H. destruct (from_cfg_keys _ _ _ _ _ _ ks) as [y|] eqn:E2; [|discriminate]. cbn [bind] in H. apply Ok_inj in H. subst r. cbn [fst].
  constructor; [|eapply IH, E2]. unfold from_cfg_key in E. destruct (d_get cfg k) as [g|]; [|discriminate]. cbv zeta in E. destruct (c_channels g) as [ch|].
  - destruct (init_from_cfg _ _) as [u|] eqn:Ei; [|discriminate]. cbn [bind] in E. apply Ok_inj in E. subst x. cbn [fst]. apply made_name. eapply init_cfg_made, Ei.
  - destruct ts as [ts|]; [|discriminate]. destruct (d_get ts k) as [t|]; [|discriminate]. destruct (convert_unit _ _ _ t) as [uc|] eqn:Ec; [|discriminate]. cbn [bind] in E.
    pose proof (convert_made _ _ _ _ _ Ec) as Mu. destruct (c_choice g) as [v|].
    + destruct (set_choice (fst uc) v) as [u|] eqn:Es; [|discriminate]. cbn [bind] in E. apply Ok_inj in E. subst x. cbn [fst]. eauto using made.
    + cbn [bind] in E. apply Ok_inj in E. subst x. exact Mu.
Qed.
Lemma prepared_from m ts m' : prepare_from_supernet m ts = Ok m' -> exists us, Forall made us /\ mapM prepare_unit us = Ok (mt_units m').
Proof.
  unfold prepare_from_supernet. cbv zeta. intros H.
  assert (X : forall us (ucfgs : list (uname * ucfg)) p', Forall made us ->
    (do units' <- mapM prepare_unit us; Ok {| mt_cls := mt_cls m; mt_default := mt_default m; mt_file := mt_file m; mt_disk := mt_disk m; mt_units_cfg := ucfgs; mt_parse := p'; mt_units := units' |}) = Ok m' ->
    exists us, Forall made us /\ mapM prepare_unit us = Ok (mt_units m')).
  { intros us ucfgs p' F E. destruct (mapM prepare_unit us) as [us'|] eqn:Em; [|discriminate]. cbn [bind] in E. apply Ok_inj in E. subst m'. cbn [mt_units]. eauto. }
  destruct (p_type (mt_parse m)); [destruct (p_from_cfg (mt_parse m))|].
  - destruct (from_cfg_keys _ _ _ _ _ _ _) as [r|] eqn:E; [|discriminate]. cbn [bind] in H. eapply X; [|exact H]. eapply cfg_made, E.
  - destruct (from_tracer _ _ _ _) as [r|] eqn:E; [|discriminate]. cbn [bind] in H. eapply X; [|exact H]. eapply tracer_made, E.
  - destruct (from_cfg_keys _ _ _ _ _ _ _) as [r|] eqn:E; [|discriminate]. cbn [bind] in H. eapply X; [|exact H]. eapply cfg_made, E.
Qed.
Lemma prepared_good m ts m' : prepare_from_supernet m ts = Ok m' -> Forall neat (mt_units m') -> Forall good (mt_units m').
Proof.
  intros H N. destruct (prepared_from m ts m' H) as (us & M & E). apply mapM_each in E. rewrite Forall_forall in *. intros u Hu.
  assert (exists w, In w us /\ prepare_unit w = Ok u) as (w & W1 & W2).
  { clear -E Hu. induction E as [|a b l l' H E IH]; [destruct Hu|]. destruct Hu as [<-|Hu]; [exists a; cbn; auto|]. destruct (IH Hu) as (w & A & B). exists w. cbn. auto. }
  eapply made_prepared; eauto.
Qed.
Lemma reach_good us us' : Forall good us -> reach us us' -> Forall good us' /\ Forall2 same us us'.
Proof.
  intros G H. induction H as [|us1 cs us2 r R IH E]; [auto using Forall2_same_refl|]. destruct IH as [G1 S1]. destruct (set_choices_inv cs us1 us2 r G1 E) as [G2 S2]. split; [exact G2|]. eapply Forall2_same_trans; eauto.
Qed.
Definition choice_of (u : munit) : num := match get_choice u with Ok v => v | Raise _ => NInt 0 end.
Lemma good_choice u : good u -> get_choice u = Ok (choice_of u) /\ set_choice u (choice_of u) = Ok u.
Proof. intros [k G]. unfold choice_of. rewrite (at_get u k G). split; [reflexivity|]. apply at_again, G. Qed.
Lemma good_all us : Forall good us -> forall u, In u us -> get_choice u = Ok (choice_of u).
Proof. rewrite Forall_forall. intros G u Hu. apply good_choice, G, Hu. Qed.
Lemma good_current mi us :
  NoDup (names us) -> Forall good us -> current_choices mi us = Ok (map (fun u => (name_of u, choice_of u)) (mutable_units mi us)).
Proof. intros N G. apply current_ok; [exact N|]. apply good_all, G. Qed.

(** Setting the current choices again changes nothing, whatever was set before. *)
Theorem C107_again_partial m ts m' mi us :
  prepare_from_supernet m ts = Ok m' -> Forall neat (mt_units m') -> NoDup (names (mt_units m')) -> reach (mt_units m') us ->
  exists cs, current_choices mi us = Ok cs /\ set_choices us cs = (us, Ok tt).
Proof.
  intros P N D R. pose proof (prepared_good m ts m' P N) as G0. destruct (reach_good _ _ G0 R) as [G S1].
  assert (D' : NoDup (names us)) by (rewrite (same_names _ _ S1); exact D). eexists. split; [apply good_current; assumption|].
  assert (I : incl (mutable_units mi us) us) by (intros u Hu; apply filter_In in Hu; apply Hu).
  induction (mutable_units mi us) as [|u ms IH]; [reflexivity|]. cbn [map set_choices].
  assert (Hu : In u us) by (apply I; left; reflexivity). destruct (last_named_in us (name_of u)) as [i El]; [apply in_map, Hu|]. rewrite El.
  destruct (last_named_some _ _ _ El) as (w & En & Ew). rewrite En. apply In_nth_error in Hu as Hj. destruct Hj as [j Hj].
  assert (i = j) by (eapply nodup_nth; eauto). subst j. rewrite Hj in En. inversion En; subst w.
  rewrite Forall_forall in G. destruct (good_choice u (G u Hu)) as [_ Es]. rewrite Es, upd_id by exact Hj. apply IH. intros x Hx. apply I. right. exact Hx.
Qed.
Print Assumptions C107_again_partial.

Lemma draw_fine u r v :
  base u -> match m_cls u with CSeq => 1 <= r <= Z.of_nat (u_n (m_cfg u)) | _ => 0 <= r < Z.of_nat (length (m_cands u)) end ->
  draw_choice u r = Ok v -> exists k, v = NInt k /\ fine u k /\ (m_cls u <> CSeq -> In (NInt k) (m_cands u)).
Proof.
  intros B Rg E. pose proof (b_neat u B) as N. unfold draw_choice in E. destruct (m_cls u) eqn:C; try rewrite C in Rg.
  - unfold unit_sample in E. destruct (u_make_divisible (m_cfg u) r) as [k|] eqn:Ek; [|discriminate]. cbn [bind] in E. rewrite (n_num u N) in E. apply Ok_inj in E. exists k. split; [auto|]. split; [|congruence].
    unfold u_make_divisible in Ek. destruct (md_range _ _ _ _ _ (n_div u N) (n_min_div u N) Ek) as [D L]. split; [exact D|]. split; [exact L|].
    rewrite md_unfold in Ek by apply N. apply Ok_inj in Ek. cbv zeta in Ek. pose proof (low_pos u N) as LP. unfold low in LP.
    destruct (n_width u N) as [q Q]. pose proof (n_div u N) as Dp. set (d := u_div (m_cfg u)) in *. set (n := Z.of_nat (u_n (m_cfg u))) in *.
    assert (RB : Z.quot (2 * r + d) 2 / d * d <= n).
    { rewrite Z.quot_div_nonneg by lia. assert (X : (2 * r + d) / 2 / d < q + 1). { apply Z.div_lt_upper_bound; [lia|]. replace (d * (q + 1)) with (n + d) by (rewrite Q; ring). apply Z.div_lt_upper_bound; lia. }
      rewrite Q. apply Z.mul_le_mono_nonneg_r; lia. }
    destruct (negb _) eqn:Eb in Ek; [|lia]. 
    (* the width is a multiple of d and at least r *)
    set (new := Z.max (eff_min (Some (u_min (m_cfg u))) d) (Z.quot (2 * r + d) 2 / d * d)) in *.
    assert (NL : new <= n) by lia. destruct (Z.eq_dec new n) as [En|Nn].
    + exfalso. apply negb_true_iff in Eb. apply not_true_iff_false in Eb. apply Eb. apply Qle_bool_iff. apply Qle_ratio; [apply N|apply N|lia|lia].
    + assert (Dn : (d | new)). { destruct D as [a Ha]. exists (a - 1). lia. } destruct Dn as [a Ha].
      assert (Aq : a < q) by (apply (Z.mul_lt_mono_pos_r d); [exact Dp|rewrite <- Ha, <- Q; lia]). rewrite Q. rewrite <- Ek, Ha. replace (a * d + d) with ((a + 1) * d) by ring. apply Z.mul_le_mono_nonneg_r; lia.
  - unfold oneshot_unit_sample in E. destruct (nth_error _ _) as [w|] eqn:En; [|discriminate]. apply Ok_inj in E. subst w. apply nth_error_In in En. destruct (b_cands u B v En) as (k & -> & F). eauto.
  - unfold oneshot_unit_sample in E. destruct (nth_error _ _) as [w|] eqn:En; [|discriminate]. apply Ok_inj in E. subst w. apply nth_error_In in En. destruct (b_cands u B v En) as (k & -> & F). eauto.
Qed.
Lemma draw_ok u r :
  base u -> match m_cls u with CSeq => 1 <= r <= Z.of_nat (u_n (m_cfg u)) | _ => 0 <= r < Z.of_nat (length (m_cands u)) end ->
  exists v, draw_choice u r = Ok v.
Proof.
  intros B Rg. pose proof (b_neat u B) as N. unfold draw_choice. destruct (m_cls u) eqn:C; try rewrite C in Rg.
  - unfold unit_sample, u_make_divisible. rewrite md_unfold by apply N. cbn [bind]. rewrite (n_num u N). eauto.
  - unfold oneshot_unit_sample. destruct (nth_error _ _) as [w|] eqn:En; [eauto|]. apply nth_error_None in En. lia.
  - unfold oneshot_unit_sample. destruct (nth_error _ _) as [w|] eqn:En; [eauto|]. apply nth_error_None in En. lia.
Qed.
Lemma sample_key_ok us draw u :
  NoDup (names us) -> In u us -> sample_key us draw (name_of u) = (do v <- draw_choice u (draw (name_of u)); Ok (name_of u, v)).
Proof.
  intros D Hu. unfold sample_key. destruct (last_named_in us (name_of u)) as [i El]; [apply in_map, Hu|]. rewrite El.
  destruct (last_named_some _ _ _ El) as (w & En & Ew). rewrite En. apply In_nth_error in Hu. destruct Hu as [j Hj].
  assert (i = j) by (eapply nodup_nth; eauto). subst j. rewrite Hj in En. inversion En; subst w. reflexivity.
Qed.
Lemma names_nodup_filter f us : NoDup (names us) -> NoDup (names (filter f us)).
Proof.
  unfold names. induction us as [|u us IH]; intros N; [constructor|]. cbn in *. inversion N as [|a b A B]; subst. destruct (f u); [|auto]. cbn. constructor; [|auto].
  intros X. apply A. apply in_map_iff in X. destruct X as (w & W1 & W2). apply filter_In in W2. rewrite <- W1. apply in_map, W2.
Qed.

(** What is sampled can be set, is read back as sampled, and leaves the other units alone. *)
Theorem C107_read_partial m ts m' mi us draw :
  prepare_from_supernet m ts = Ok m' -> Forall neat (mt_units m') -> NoDup (names (mt_units m')) -> reach (mt_units m') us ->
  drawn us draw ->
  exists cs us', sample_choices mi us draw = Ok cs /\ map fst cs = names (mutable_units mi us) /\
    set_choices us cs = (us', Ok tt) /\ current_choices mi us' = Ok cs /\
    Forall2 (fun u u' => is_mutable mi u = false -> u' = u) us us'.
Proof.
  intros P N D R Dr. pose proof (prepared_good m ts m' P N) as G0. destruct (reach_good _ _ G0 R) as [G S1].
  assert (D' : NoDup (names us)) by (rewrite (same_names _ _ S1); exact D). clear S1 D.
  set (ms := mutable_units mi us). assert (I : forall u, In u ms <-> In u us /\ is_mutable mi u = true) by (intros u; apply filter_In).
  assert (Dm : NoDup (names ms)) by (apply names_nodup_filter; exact D').
  set (val := fun u => match draw_choice u (draw (name_of u)) with Ok v => v | Raise _ => NInt 0 end).
  assert (V : forall u, In u us -> draw_choice u (draw (name_of u)) = Ok (val u)).
  { intros u Hu. rewrite Forall_forall in G. destruct (G u Hu) as [k Gu]. destruct (draw_ok u (draw (name_of u)) (proj1 Gu)) as [v Ev]; [apply Dr; exact Hu|]. unfold val. rewrite Ev. reflexivity. }
  set (cs := map (fun u => (name_of u, val u)) ms).
  assert (Fst : map fst cs = names ms) by (unfold cs, names; rewrite map_map; reflexivity).
  assert (Sm : sample_choices mi us draw = Ok cs).
  { unfold sample_choices. fold ms. rewrite (template_from ms choice_of []); [|exact Dm|intros u Hu; apply (good_all us G); apply I; exact Hu]. cbn [app bind]. rewrite map_map. cbn [fst].
    apply each_mapM. unfold cs. assert (L : forall u, In u ms -> In u us) by (intros u Hu; apply I; exact Hu). clearbody ms. clear -V D' L.
    induction ms as [|u ms IH]; [constructor|]. cbn [map]. constructor; [|apply IH; intros; apply L; right; assumption]. rewrite sample_key_ok; [|exact D'|apply L; left; reflexivity]. rewrite V by (apply L; left; reflexivity). reflexivity. }
  assert (Gt : forall u, In u ms -> d_get cs (name_of u) = Some (val u)).
  { intros u Hu. apply d_get_nodup; [rewrite Fst; exact Dm|]. unfold cs. apply (in_map (fun u => (name_of u, val u))). exact Hu. }
  assert (Gn : forall u, In u us -> is_mutable mi u = false -> d_get cs (name_of u) = None).
  { intros u Hu Hm. apply d_get_none. rewrite Fst. intros X. apply in_map_iff in X. destruct X as (w & W1 & W2). apply I in W2. destruct W2 as [W2 W3].
    apply In_nth_error in Hu as [i Hi]. apply In_nth_error in W2 as [j Hj]. assert (j = i) by exact (nodup_nth us j i w u D' Hj Hi W1). subst j. rewrite Hi in Hj. inversion Hj; subst. congruence. }
  assert (St : forall u, In u us -> exists u', chosen cs u = Ok u' /\ same u u' /\ good u' /\ (is_mutable mi u = true -> get_choice u' = Ok (val u)) /\ (is_mutable mi u = false -> u' = u)).
  { intros u Hu. assert (Gu : good u) by (rewrite Forall_forall in G; apply G, Hu). unfold chosen. destruct (is_mutable mi u) eqn:Em.
    - rewrite Gt by (apply I; auto). destruct Gu as [k0 Gu]. destruct (draw_fine u _ _ (proj1 Gu) (Dr u Hu) (V u Hu)) as (k & Ek & F & C). rewrite Ek.
      destruct (set_fine u k (proj1 Gu) F C) as (u' & E & S & A & _). exists u'. split; [exact E|]. split; [exact S|]. split; [exists k; exact A|]. split; [intros _; apply at_get, A|congruence].
    - rewrite Gn by assumption. exists u. split; [reflexivity|]. split; [apply same_refl|]. split; [exact Gu|]. split; [congruence|reflexivity]. }
  assert (exists us', Forall2 (fun u u' => chosen cs u = Ok u' /\ same u u' /\ good u' /\ (is_mutable mi u = true -> get_choice u' = Ok (val u)) /\ (is_mutable mi u = false -> u' = u)) us us') as [us' F].
  { clearbody cs val. clear -St. induction us as [|u us IH]; [exists []; constructor|]. destruct (St u) as [u' H]; [left; reflexivity|]. destruct IH as [us' F]; [intros; apply St; right; assumption|]. exists (u' :: us'). constructor; assumption. }
  exists cs, us'. split; [exact Sm|]. split; [exact Fst|].
  split; [|split].
  - apply C107_effect; [exact D'|rewrite Fst; exact Dm|]. split.
    + rewrite Fst. intros k Hk. apply in_map_iff in Hk. destruct Hk as (u & <- & Hu). apply in_map. apply I, Hu.
    + apply each_mapM. revert F. apply Forall2_imp. intros a b H. exact (proj1 H).
  - assert (S' : Forall2 same us us') by (revert F; apply Forall2_imp; intros a b H; exact (proj1 (proj2 H))).
    assert (G' : Forall good us') by (clearbody cs val; clear -F; induction F as [|a b l l' H F IH]; constructor; [exact (proj1 (proj2 (proj2 H)))|exact IH]).
    rewrite good_current; [|rewrite (same_names _ _ S'); exact D'|exact G']. f_equal.
    assert (F' : Forall2 (fun u u' => same u u' /\ (is_mutable mi u = true -> get_choice u' = Ok (val u))) us us') by (revert F; apply Forall2_imp; intros a b H; exact (conj (proj1 (proj2 H)) (proj1 (proj2 (proj2 (proj2 H)))))).
    unfold cs, ms, mutable_units. clearbody val. clear -F'.
    induction F' as [|a b l l' H F IH]; [reflexivity|]. destruct H as (S & H). cbn [filter]. rewrite (same_mutable mi a b S). destruct (is_mutable mi a) eqn:Em; [|exact IH].
    cbn [map]. rewrite IH. f_equal. rewrite (same_name a b S). f_equal. unfold choice_of. rewrite H by reflexivity. reflexivity.
  - revert F. apply Forall2_imp. intros a b H. exact (proj2 (proj2 (proj2 (proj2 H)))).
Qed.
Print Assumptions C107_read_partial.

(** A mutator with one unit of [n] channels and divisor 8. *)
Definition ex_mi : minfo := fun k => if Nat.leb 2 k then Some (true, true) else None.
Definition ex_args : iargs := {| a_n := None; a_num := None; a_div := Some 8; a_min := None; a_ratio := None; a_cands := None |}.
Definition ex_mut (c : ucls) (a : iargs) : mutator := new_mutator c a false [] {| p_type := PAnalyzer; p_from_cfg := false |}.
Definition ex_c (k : nat) : ccfg := {| cc_name := k; cc_start := None; cc_end := None |}.
Definition ex_ts (n : nat) : traced := [(UGiven 0, (n, ([ex_c 3], [ex_c 2])))].

(** 12 channels: 16 is sampled and set, 12 is read. *)
Theorem C107_read_refuted : ~ C107_read_claim.
Proof.
  intros H. destruct (prepare_from_supernet (ex_mut CSeq ex_args) (ex_ts 12)) as [m'|] eqn:E; [|discriminate].
  destruct (sample_choices ex_mi (mt_units m') (fun _ => 12)) as [cs|] eqn:Ec; [|vm_compute in E; apply Ok_inj in E; subst m'; vm_compute in Ec; discriminate].
  destruct (set_choices (mt_units m') cs) as [us' r] eqn:Es.
  assert (X : NoDup (names (mt_units m')) /\ drawn (mt_units m') (fun _ => 12) /\ r = Ok tt /\ current_choices ex_mi us' <> Ok cs).
  { vm_compute in E. apply Ok_inj in E. subst m'. vm_compute in Ec. apply Ok_inj in Ec. subst cs. vm_compute in Es. inversion Es; subst.
    split; [vm_compute; constructor; [intros []|constructor]|]. split; [intros u [<-|[]]; split; discriminate|]. split; [reflexivity|]. vm_compute. discriminate. }
  destruct X as (X1 & X2 & X3 & X4). subst r. apply X4. exact (H _ _ _ _ _ _ _ _ E X1 (reach_start _) X2 Ec Es).
Qed.
Print Assumptions C107_read_refuted.
(** 17 channels: the fresh unit has all of them; setting its current choice leaves 16. *)
Theorem C107_again_refuted : ~ C107_again_claim.
Proof.
  intros H. destruct (prepare_from_supernet (ex_mut CSeq ex_args) (ex_ts 17)) as [m'|] eqn:E; [|discriminate].
  destruct (current_choices ex_mi (mt_units m')) as [cs|] eqn:Ec; [|vm_compute in E; apply Ok_inj in E; subst m'; vm_compute in Ec; discriminate].
  destruct (set_choices (mt_units m') cs) as [us' r] eqn:Es.
  assert (X : NoDup (names (mt_units m')) /\ us' <> mt_units m').
  { vm_compute in E. apply Ok_inj in E. subst m'. vm_compute in Ec. apply Ok_inj in Ec. subst cs. vm_compute in Es. inversion Es; subst.
    split; [vm_compute; constructor; [intros []|constructor]|]. vm_compute. discriminate. }
  destruct X as [X1 X2]. apply X2. apply (H _ _ _ _ _ _ _ _ E X1 (reach_start _) Ec Es).
Qed.
Print Assumptions C107_again_refuted.

(** Two units, of 16 channels with candidates 4 and 16, and of 8; one draw for each. *)
Definition ex_args2 : iargs := {| a_n := None; a_num := Some true; a_div := Some 4; a_min := None; a_ratio := None; a_cands := Some [NInt 8; NInt 4] |}.
Definition ex_ts2 : traced := [(UGiven 0, (16%nat, ([ex_c 3; ex_c 4], [ex_c 2]))); (UGiven 1, (8%nat, ([ex_c 5], [ex_c 3])))].
Example C107_case :
  exists m', prepare_from_supernet (ex_mut COneShot ex_args2) ex_ts2 = Ok m' /\
    Forall neat (mt_units m') /\ NoDup (names (mt_units m')) /\
    (let draw k := match k with UAuto 2 _ _ _ => 0 | _ => 1 end in
     drawn (mt_units m') draw /\
     let cs := [(UAuto 2 0 16 16, NInt 4); (UAuto 3 0 8 8, NInt 8)] in
     sample_choices ex_mi (mt_units m') draw = Ok cs /\
     current_choices ex_mi (fst (set_choices (mt_units m') cs)) = Ok cs /\
     snd (set_choices (mt_units m') (cs ++ [(UGiven 0, NInt 4)])) = Raise KeyError /\
     current_choices ex_mi (fst (set_choices (mt_units m') (cs ++ [(UGiven 0, NInt 4)]))) = Ok cs).
Proof.
  eexists. split; [vm_compute; reflexivity|]. cbv zeta. split.
  - repeat (constructor; [constructor; cbn [m_cfg m_cands u_num u_div u_min u_ratio u_n]; [reflexivity|lia|split; discriminate|first [exists 4; reflexivity|exists 2; reflexivity]|lia|lia|right; lia|intros k [H|[H|[]]]; inversion H; lia]|]). constructor.
  - split; [vm_compute; repeat constructor; intros H; repeat destruct H as [H|H]; try discriminate H; destruct H|].
    split; [intros u [<-|[<-|[]]]; cbn; lia|]. repeat split; vm_compute; reflexivity.
Qed.
