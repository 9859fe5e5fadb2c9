(** C238 - the widest and the narrowest choices of a one-shot channel mutator. *)
From Verif Require Import Prelude PyNum Channel_Model Channel_Lemmas Divisible_Model Divisible_Props Mutator_Model Mutator_Lemmas Mutator3_Props Kinds_Model.
From Coq Require Import Sorting.Sorted.

(** ** Specification *)
Definition widest (l : list num) (v : num) : Prop := In v l /\ forall c, In c l -> num_leb c v = true.
Definition narrowest (l : list num) (v : num) : Prop := In v l /\ forall c, In c l -> num_leb v c = true.
Definition no_sequential (us : list munit) : Prop := forall u, In u us -> m_cls u <> CSeq.
(** Every mutable unit has a choice that is the best of its candidates; the others are as before. *)
Definition at_extreme (ext : list num -> num -> Prop) (mi : minfo) (u u' : munit) : Prop :=
  if is_mutable mi u then exists v, get_choice u' = Ok v /\ ext (m_cands u) v else u' = u.

(** ** Lemmas *)
Lemma made_cands u : made u -> neat u -> m_cls u <> CSeq -> m_cands u <> [] /\ Sorted ile (m_cands u) /\ all_int (m_cands u).
Proof.
  induction 1 as [c a u E|u rn i o M IH|u k M IH|u v u' M IH E]; intros N C.
  - unfold init_unit in E. destruct (a_n a) as [n|]; [|discriminate]. set (w := {| u_n := n; u_num := _; u_div := _; u_min := _; u_ratio := _ |}) in E.
    destruct (match c with CSeq => _ | _ => _ end) as [cands|] eqn:Ec; [|discriminate]. cbn [bind] in E. apply Ok_inj in E. subst u. cbn [m_cfg m_cands m_cls m_ch] in *.
    assert (X : exists l, oneshot_unit_candidates w l = Ok cands) by (destruct c; [congruence| |]; eauto). destruct X as [l X].
    destruct (cands_ok w l cands (n_num _ N) (n_div _ N) (n_min_div _ N) X) as (A & B & D). split; [exact A|]. split; [exact B|]. intros x Hx. destruct (D x Hx) as (k & -> & _). eauto.
  - exact (IH (neat_back u (with_related u _ _) eq_refl eq_refl N) C).
  - exact (IH (neat_back u (with_name u k) eq_refl eq_refl N) C).
  - destruct (set_same _ _ _ E) as [c0 ->]. exact (IH (neat_back u (with_ch u c0) eq_refl eq_refl N) C).
Qed.
Lemma prepare_same u u' : prepare_unit u = Ok u' -> exists c, u' = with_ch u c.
Proof.
  unfold prepare_unit. destruct (m_cls u).
  - intros H. apply Ok_inj in H. subst. exists (m_ch u'). destruct u'; reflexivity.
  - destruct (max_choice u); [|discriminate]. apply set_same.
  - destruct (max_choice u); [|discriminate]. apply set_same.
Qed.
Lemma prepared_cands m ts m' u : prepare_from_supernet m ts = Ok m' -> Forall neat (mt_units m') -> In u (mt_units m') -> m_cls u <> CSeq ->
  m_cands u <> [] /\ Sorted ile (m_cands u) /\ all_int (m_cands u).
Proof.
  intros H N Hu C. destruct (prepared_from m ts m' H) as (us & M & E). apply mapM_each in E. rewrite Forall_forall in M, N.
  assert (exists w, In w us /\ prepare_unit w = Ok u) as (w & W1 & W2).
  { clear -E Hu. induction E as [|a b l l' H E IH]; [destruct Hu|]. destruct Hu as [<-|Hu]; [exists a; cbn; auto|]. destruct (IH Hu) as (w & A & B). exists w. cbn. auto. }
  destruct (prepare_same _ _ W2) as [c ->]. apply (made_cands w); [auto|exact (neat_back w (with_ch w c) eq_refl eq_refl (N _ Hu))|exact C].
Qed.
Lemma ile_trans_int a b c : ile (NInt a) (NInt b) -> ile (NInt b) (NInt c) -> ile (NInt a) (NInt c).
Proof. unfold ile. rewrite !leb_int. lia. Qed.
Lemma sorted_first x l : Sorted ile (x :: l) -> all_int (x :: l) -> narrowest (x :: l) x.
Proof.
  revert x. induction l as [|y l IH]; intros x S A.
  - split; [left; reflexivity|]. intros c [<-|[]]. destruct (A x (or_introl eq_refl)) as [k ->]. rewrite leb_int. lia.
  - inversion S as [|a b S1 S2]; subst. inversion S2; subst. split; [left; reflexivity|]. intros c [<-|Hc].
    + destruct (A x (or_introl eq_refl)) as [k ->]. rewrite leb_int. lia.
    + destruct (IH y S1) as [_ L]; [intros z Hz; apply A; right; exact Hz|]. specialize (L c Hc).
      destruct (A x) as [p ->]; [left; reflexivity|]. destruct (A y) as [q ->]; [right; left; reflexivity|]. destruct (A c) as [r ->]; [right; exact Hc|].
      eapply ile_trans_int; [eassumption|exact L].
Qed.
Lemma sorted_last x l : Sorted ile (l ++ [x]) -> all_int (l ++ [x]) -> widest (l ++ [x]) x.
Proof.
  induction l as [|y l IH]; intros S A; cbn [app] in *.
  - split; [left; reflexivity|]. intros c [<-|[]]. destruct (A x (or_introl eq_refl)) as [k ->]. rewrite leb_int. lia.
  - inversion S as [|a b S1 S2]; subst. destruct IH as [I L]; [exact S1|intros z Hz; apply A; right; exact Hz|]. split; [right; exact I|]. intros c [<-|Hc]; [|apply L, Hc].
    destruct (sorted_first y (l ++ [x]) S A) as [_ F]. apply F. right. exact I.
Qed.

(** Reading the template and the units by name. *)
Lemma unit_at_ok us u : NoDup (names us) -> In u us -> unit_at us (name_of u) = Ok u.
Proof.
  intros D Hu. unfold unit_at. destruct (last_named_in us (name_of u)) as [i El]; [apply in_map, Hu|]. rewrite El.
  destruct (last_named_some _ _ _ El) as (w & En & Ew). rewrite En. apply In_nth_error in Hu. destruct Hu as [j Hj].
  assert (i = j) by (eapply nodup_nth; eauto). subst j. rewrite Hj in En. inversion En; reflexivity.
Qed.
Lemma good_template mi us : NoDup (names us) -> Forall good us ->
  choice_template (mutable_units mi us) [] = Ok (map (fun u => (name_of u, choice_of u)) (mutable_units mi us)).
Proof.
  intros D G. rewrite (template_from _ choice_of []); [reflexivity|apply names_nodup_filter, D|]. intros u Hu. apply (good_all us G). apply filter_In in Hu. apply Hu.
Qed.
Lemma mapM_pairs (f : uname -> outcome (uname * num)) (g : munit -> num) ms :
  (forall u, In u ms -> f (name_of u) = Ok (name_of u, g u)) ->
  mapM f (map name_of ms) = Ok (map (fun u => (name_of u, g u)) ms).
Proof. induction ms as [|u ms IH]; intros H; [reflexivity|]. cbn [map mapM]. rewrite H by (left; reflexivity). cbn [bind]. rewrite IH by (intros; apply H; right; assumption). reflexivity. Qed.

(** Any choice function that picks candidates: what it returns is set and read back. *)
Lemma pick_set mi us (g : munit -> num) :
  Forall good us -> NoDup (names us) -> (forall u, In u us -> m_cls u <> CSeq /\ In (g u) (m_cands u)) ->
  exists us', set_choices us (map (fun u => (name_of u, g u)) (mutable_units mi us)) = (us', Ok tt) /\
    Forall2 (fun u u' => if is_mutable mi u then get_choice u' = Ok (g u) else u' = u) us us'.
Proof.
  intros G D P. set (ms := mutable_units mi us). set (cs := map _ ms).
  assert (I : forall u, In u ms <-> In u us /\ is_mutable mi u = true) by (intros u; apply filter_In).
  assert (Dm : NoDup (names ms)) by (apply names_nodup_filter; exact D).
  assert (Fst : map fst cs = names ms) by (unfold cs, names; rewrite map_map; reflexivity).
  assert (Gt : forall u, In u ms -> d_get cs (name_of u) = Some (g u)).
  { intros u Hu. apply d_get_nodup; [rewrite Fst; exact Dm|]. unfold cs. apply (in_map (fun u => (name_of u, g u))). exact Hu. }
  assert (Gn : forall u, In u us -> is_mutable mi u = false -> d_get cs (name_of u) = None).
  { intros u Hu Hm. apply d_get_none. rewrite Fst. intros X. apply in_map_iff in X. destruct X as (w & W1 & W2). apply I in W2. destruct W2 as [W2 W3].
    apply In_nth_error in Hu as [i Hi]. apply In_nth_error in W2 as [j Hj]. assert (j = i) by exact (nodup_nth us j i w u D Hj Hi W1). subst j. rewrite Hi in Hj. inversion Hj; subst. congruence. }
  assert (St : forall u, In u us -> exists u', chosen cs u = Ok u' /\ if is_mutable mi u then get_choice u' = Ok (g u) else u' = u).
  { intros u Hu. assert (Gu : good u) by (rewrite Forall_forall in G; apply G, Hu). unfold chosen. destruct (is_mutable mi u) eqn:Em.
    - rewrite Gt by (apply I; auto). destruct (P u Hu) as [Cu Pu]. destruct Gu as [k0 Gu]. destruct (b_cands u (proj1 Gu) _ Pu) as (k & Ek & F). rewrite Ek in *.
      destruct (set_fine u k (proj1 Gu) F (fun _ => Pu)) as (u' & E & S & A & _). exists u'. split; [exact E|]. apply at_get, A.
    - rewrite Gn by assumption. exists u. auto. }
  assert (exists us', Forall2 (fun u u' => chosen cs u = Ok u' /\ if is_mutable mi u then get_choice u' = Ok (g u) else u' = u) us us') as [us' F].
  { clearbody cs. clear -St. induction us as [|u us IH]; [exists []; constructor|]. destruct (St u) as [u' H]; [left; reflexivity|]. destruct IH as [us' F]; [intros; apply St; right; assumption|]. exists (u' :: us'). constructor; assumption. }
  exists us'. split.
  - apply C107_effect; [exact D|rewrite Fst; exact Dm|]. split.
    + rewrite Fst. intros k Hk. apply in_map_iff in Hk. destruct Hk as (u & <- & Hu). apply in_map. apply I, Hu.
    + apply each_mapM. revert F. apply Forall2_imp. intros a b H. exact (proj1 H).
  - revert F. apply Forall2_imp. intros a b H. exact (proj2 H).
Qed.

(** Units reached from a prepared mutator. *)
Lemma reach_cands m ts m' us : prepare_from_supernet m ts = Ok m' -> Forall neat (mt_units m') -> reach (mt_units m') us -> no_sequential us ->
  forall u, In u us -> m_cands u <> [] /\ Sorted ile (m_cands u) /\ all_int (m_cands u).
Proof.
  intros P N R C u Hu. pose proof (prepared_good m ts m' P N) as G0. destruct (reach_good _ _ G0 R) as [_ S1].
  assert (exists w, In w (mt_units m') /\ same w u) as (w & W1 & [mk ->]).
  { clear -S1 Hu. induction S1 as [|a b l l' H E IH]; [destruct Hu|]. destruct Hu as [<-|Hu]; [exists a; cbn; auto|]. destruct (IH Hu) as (w & A & B). exists w. cbn. auto. }
  exact (prepared_cands m ts m' w P N W1 (C _ Hu)).
Qed.
Definition best_max (u : munit) : num := last (m_cands u) (NInt 0).
Definition best_min (u : munit) : num := hd (NInt 0) (m_cands u).
Lemma max_ok u : m_cls u <> CSeq -> m_cands u <> [] /\ Sorted ile (m_cands u) /\ all_int (m_cands u) ->
  attr_max u = Ok (best_max u) /\ widest (m_cands u) (best_max u).
Proof.
  intros C (N & S & A). destruct (exists_last N) as (l & x & E). unfold best_max. assert (X : last (m_cands u) (NInt 0) = x) by (rewrite E; apply last_last). rewrite X. split.
  - unfold attr_max, max_choice. rewrite E, rev_app_distr. cbn. destruct (m_cls u); congruence.
  - rewrite E in *. apply sorted_last; assumption.
Qed.
Lemma min_ok u : m_cls u <> CSeq -> m_cands u <> [] /\ Sorted ile (m_cands u) /\ all_int (m_cands u) ->
  attr_min u = Ok (best_min u) /\ narrowest (m_cands u) (best_min u).
Proof.
  intros C (N & S & A). unfold best_min. destruct (m_cands u) as [|x l] eqn:E; [congruence|]. cbn [hd]. split.
  - unfold attr_min, min_choice. rewrite E. destruct (m_cls u); congruence.
  - apply sorted_first; assumption.
Qed.

(** ** Theorems *)
(** The widest choices, asked for either way, are one entry for each mutable unit, in order, and
    each is the largest candidate of its unit; set, every mutable unit has its largest candidate
    and the other units are as before. *)
Theorem C238_widest m ts m' mi us draw :
  prepare_from_supernet m ts = Ok m' -> Forall neat (mt_units m') -> NoDup (names (mt_units m')) ->
  reach (mt_units m') us -> no_sequential us ->
  exists cs us', sample_kind mi us KMax draw = Ok cs /\ max_choices mi us = Ok cs /\
    Forall2 (fun u kv => fst kv = name_of u /\ widest (m_cands u) (snd kv)) (mutable_units mi us) cs /\
    set_max_choices mi us = (us', Ok tt) /\ Forall2 (at_extreme widest mi) us us'.
Proof.
  intros P N D R C. pose proof (prepared_good m ts m' P N) as G0. destruct (reach_good _ _ G0 R) as [G S1].
  assert (D' : NoDup (names us)) by (rewrite (same_names _ _ S1); exact D). pose proof (reach_cands m ts m' us P N R C) as K.
  assert (B : forall u, In u us -> attr_max u = Ok (best_max u) /\ widest (m_cands u) (best_max u)) by (intros u Hu; apply max_ok; auto).
  assert (I : forall u, In u (mutable_units mi us) -> In u us) by (intros u Hu; apply filter_In in Hu; apply Hu).
  destruct (pick_set mi us best_max G D') as (us' & E & F); [intros u Hu; split; [auto|apply B, Hu]|].
  assert (M : max_choices mi us = Ok (map (fun u => (name_of u, best_max u)) (mutable_units mi us))).
  { unfold max_choices. rewrite good_template by assumption. cbn [bind]. rewrite map_map. cbn [fst]. apply mapM_pairs. intros u Hu. rewrite unit_at_ok by auto. cbn [bind]. rewrite (proj1 (B u (I u Hu))). reflexivity. }
  exists (map (fun u => (name_of u, best_max u)) (mutable_units mi us)), us'. split; [exact M|]. split; [exact M|]. split; [|split].
  - clear -B I. induction (mutable_units mi us) as [|u ms IH]; constructor; [|apply IH; intros; apply I; right; assumption]. split; [reflexivity|]. apply B, I. left. reflexivity.
  - unfold set_max_choices. rewrite M. exact E.
  - clear -F B. induction F as [|a b l l' H F IH]; constructor; [|apply IH; intros; apply B; right; assumption]. unfold at_extreme. destruct (is_mutable mi a); [|exact H]. exists (best_max a). split; [exact H|]. apply B. left. reflexivity.
Qed.
(** Likewise for the narrowest. *)
Theorem C238_narrowest m ts m' mi us draw :
  prepare_from_supernet m ts = Ok m' -> Forall neat (mt_units m') -> NoDup (names (mt_units m')) ->
  reach (mt_units m') us -> no_sequential us ->
  exists cs us', sample_kind mi us KMin draw = Ok cs /\ min_choices mi us = Ok cs /\
    Forall2 (fun u kv => fst kv = name_of u /\ narrowest (m_cands u) (snd kv)) (mutable_units mi us) cs /\
    set_min_choices mi us = (us', Ok tt) /\ Forall2 (at_extreme narrowest mi) us us'.
Proof.
  intros P N D R C. pose proof (prepared_good m ts m' P N) as G0. destruct (reach_good _ _ G0 R) as [G S1].
  assert (D' : NoDup (names us)) by (rewrite (same_names _ _ S1); exact D). pose proof (reach_cands m ts m' us P N R C) as K.
  assert (B : forall u, In u us -> attr_min u = Ok (best_min u) /\ narrowest (m_cands u) (best_min u)) by (intros u Hu; apply min_ok; auto).
  assert (I : forall u, In u (mutable_units mi us) -> In u us) by (intros u Hu; apply filter_In in Hu; apply Hu).
  destruct (pick_set mi us best_min G D') as (us' & E & F); [intros u Hu; split; [auto|apply B, Hu]|].
  assert (M : min_choices mi us = Ok (map (fun u => (name_of u, best_min u)) (mutable_units mi us))).
  { unfold min_choices. rewrite good_template by assumption. cbn [bind]. rewrite map_map. cbn [fst]. apply mapM_pairs. intros u Hu. rewrite unit_at_ok by auto. cbn [bind]. rewrite (proj1 (B u (I u Hu))). reflexivity. }
  exists (map (fun u => (name_of u, best_min u)) (mutable_units mi us)), us'. split; [exact M|]. split; [exact M|]. split; [|split].
  - clear -B I. induction (mutable_units mi us) as [|u ms IH]; constructor; [|apply IH; intros; apply I; right; assumption]. split; [reflexivity|]. apply B, I. left. reflexivity.
  - unfold set_min_choices. rewrite M. exact E.
  - clear -F B. induction F as [|a b l l' H F IH]; constructor; [|apply IH; intros; apply B; right; assumption]. unfold at_extreme. destruct (is_mutable mi a); [|exact H]. exists (best_min a). split; [exact H|]. apply B. left. reflexivity.
Qed.

(** 'random' is what every channel mutator samples. *)
Theorem C238_random mi us draw : sample_kind mi us KRandom draw = sample_choices mi us draw.
Proof.
  unfold sample_kind, sample_choices. destruct (choice_template _ _) as [d|]; [|reflexivity]. cbn [bind].
  generalize (map fst d). intros ks. induction ks as [|k ks IH]; [reflexivity|]. cbn [mapM]. rewrite IH.
  replace (kind_key us KRandom draw k) with (sample_key us draw k); [reflexivity|]. unfold kind_key, sample_key, unit_at. destruct (last_named us k) as [i|]; [|reflexivity]. destruct (nth_error us i); reflexivity.
Qed.

Lemma template_keys us : forall d cs, choice_template us d = Ok cs -> forall k, In k (map fst cs) <-> In k (map fst d) \/ In k (names us).
Proof.
  assert (Put : forall (d : list (uname * num)) k v x, In x (map fst (d_put d k v)) <-> In x (map fst d) \/ x = k).
  { intros d k v x. induction d as [|[k' v'] d IH]; cbn [d_put map fst]; [cbn; intuition|]. destruct (uname_eqb k' k) eqn:E; cbn [map fst In].
    - apply uname_eqb_eq in E. subst. intuition.
    - rewrite IH. intuition. }
  induction us as [|u us IH]; intros d cs H k; cbn [choice_template] in H; [apply Ok_inj in H; subst; cbn; intuition|].
  destruct (get_choice u) as [v|]; [|discriminate]. cbn [bind] in H. rewrite (IH _ _ H k), Put. cbn [names map In]. unfold names. intuition.
Qed.
(** Any other kind is refused as soon as there is a mutable unit; without one nothing is asked and
    the empty dictionary is returned, whatever the kind. *)
Theorem C238_unknown mi us draw d :
  choice_template (mutable_units mi us) [] = Ok d ->
  (mutable_units mi us = [] -> forall kd, sample_kind mi us kd draw = Ok []) /\
  (mutable_units mi us <> [] -> sample_kind mi us KOther draw = Raise NotImplementedError).
Proof.
  intros H. unfold sample_kind. split.
  - intros E kd. rewrite E. reflexivity.
  - intros E. rewrite H. cbn [bind]. destruct d as [|[k v] d]; [|reflexivity]. exfalso. destruct (mutable_units mi us) as [|u ms] eqn:M; [congruence|].
    destruct (template_keys _ _ _ H (name_of u)) as [_ X]. apply X. right. left. reflexivity.
Qed.
(** A sequential unit has no widest choice. *)
Theorem C238_sequential mi us draw u :
  Forall good us -> NoDup (names us) -> In u us -> is_mutable mi u = true -> m_cls u = CSeq ->
  (forall w, In w us -> m_cls w = CSeq) ->
  sample_kind mi us KMax draw = Raise AttributeError /\ sample_kind mi us KMin draw = Raise AttributeError /\
  set_max_choices mi us = (us, Raise AttributeError) /\ set_min_choices mi us = (us, Raise AttributeError).
Proof.
  intros G D Hu Hm _ Al. assert (Hin : In u (mutable_units mi us)) by (apply filter_In; auto).
  assert (I : forall u, In u (mutable_units mi us) -> In u us) by (intros x Hx; apply filter_In in Hx; apply Hx).
  unfold set_max_choices, set_min_choices, max_choices, min_choices, sample_kind. rewrite good_template by assumption. cbn [bind]. rewrite map_map. cbn [fst].
  destruct (mutable_units mi us) as [|w ms]; [destruct Hin|]. cbn [map mapM kind_key]. rewrite unit_at_ok by (auto; apply I; left; reflexivity). cbn [bind].
  unfold attr_max, attr_min. rewrite Al by (apply I; left; reflexivity). auto.
Qed.

(** Two units, of 16 channels and of 8, with candidates 4 and 8; the first cannot be mutated in
    the second model. *)
Example C238_case :
  exists m', prepare_from_supernet (ex_mut COneShot ex_args2) ex_ts2 = Ok m' /\
    Forall neat (mt_units m') /\ NoDup (names (mt_units m')) /\ no_sequential (mt_units m') /\
    sample_kind ex_mi (mt_units m') KMin (fun _ => 0) = Ok [(UAuto 2 0 16 16, NInt 4); (UAuto 3 0 8 8, NInt 4)] /\
    max_choices ex_mi (mt_units m') = Ok [(UAuto 2 0 16 16, NInt 8); (UAuto 3 0 8 8, NInt 8)] /\
    snd (set_min_choices ex_mi (mt_units m')) = Ok tt /\
    current_choices ex_mi (fst (set_min_choices ex_mi (mt_units m'))) = Ok [(UAuto 2 0 16 16, NInt 4); (UAuto 3 0 8 8, NInt 4)] /\
    sample_kind ex_mi (mt_units m') KOther (fun _ => 0) = Raise NotImplementedError /\
    sample_kind (fun _ => None) (mt_units m') KOther (fun _ => 0) = Ok [].
Proof.
  eexists. split; [vm_compute; reflexivity|]. split.
  - repeat (constructor; [constructor; cbn [m_cfg m_cands u_num u_div u_min u_ratio u_n]; [reflexivity|lia|split; discriminate|first [exists 4; reflexivity|exists 2; reflexivity]|lia|lia|right; lia|intros k [H|[H|[]]]; inversion H; lia]|]). constructor.
  - split; [vm_compute; repeat constructor; intros H; repeat destruct H as [H|H]; try discriminate H; destruct H|].
    split; [intros u [<-|[<-|[]]]; cbn; discriminate|]. repeat split; vm_compute; reflexivity.
Qed.
Print Assumptions C238_widest.
Print Assumptions C238_narrowest.
Print Assumptions C238_random.
Print Assumptions C238_unknown.
Print Assumptions C238_sequential.
