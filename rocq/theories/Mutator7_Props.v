(** C117 - where the arguments of a channel unit come from. *)
From Coq Require Import String Sorted Permutation.
From Verif Require Import Prelude PyNum Channel_Model Channel_Lemmas Divisible_Model ChannelFloat_Props Mutator_Model Mutator_Lemmas Mutator3_Props.
Local Open Scope Z_scope.

(** ** Specification *)
(** The unit's own argument if given, else the default of the mutator, else that of the class. *)
Definition pick {A : Type} (own default : option A) (d : A) : A :=
  match own, default with Some x, _ => x | None, Some x => x | None, None => d end.
Definition made (c : ucls) (own default : iargs) (u : munit) : Prop :=
  m_cls u = c /\ u_num (m_cfg u) = pick (a_num own) (a_num default) (match c with COneShot => false | CSeq | CSlim => true end) /\
  u_div (m_cfg u) = pick (a_div own) (a_div default) 1 /\ u_min (m_cfg u) = pick (a_min own) (a_min default) 1 /\
  u_ratio (m_cfg u) = pick (a_ratio own) (a_ratio default) (9 # 10)%Q.
Definition no_args : iargs := {| a_n := None; a_num := None; a_div := None; a_min := None; a_ratio := None; a_cands := None |}.
Definition own_args (g : ucfg) : iargs := match c_args g with Some a => a | None => no_args end.
(** Whatever way the units are made, a unit listed in the configuration has those arguments. *)
Definition C117_claim : Prop :=
  forall m ts m' u g, prepare_from_supernet m ts = Ok m' -> In u (mt_units m') ->
    d_get (mt_units_cfg m) (name_of u) = Some g -> made (mt_cls m) (own_args g) (mt_default m) u.

(** ** Proof *)
Lemma init_made c a u : init_unit c a = Ok u -> made c a no_args u /\ m_name u = None /\ a_n a = Some (u_n (m_cfg u)) /\ m_in u = [] /\ m_out u = [].
Proof.
  unfold init_unit. destruct (a_n a) as [n|]; [|discriminate]. destruct (match c, a_cands a with CSeq, Some _ => _ | CSeq, None => _ | _, _ => _ end) as [l|]; [|discriminate]. cbn [bind]. intros H. apply Ok_inj in H. subst u.
  unfold made, pick, get_or. cbn [m_cls m_cfg u_num u_div u_min u_ratio m_name u_n no_args a_num a_div a_min a_ratio m_in m_out]. destruct c; destruct (a_num a), (a_div a), (a_min a), (a_ratio a); repeat split.
Qed.
Lemma made_update c own default u : made c (args_update default own) no_args u -> made c own default u.
Proof.
  unfold made, pick, args_update, or_else, no_args. cbn [a_num a_div a_min a_ratio]. intros (A & B & D & E & F).
  split; [exact A|]. split; [destruct (a_num own), (a_num default); exact B|]. split; [destruct (a_div own), (a_div default); exact D|]. split; [destruct (a_min own), (a_min default); exact E|]. destruct (a_ratio own), (a_ratio default); exact F.
Qed.
Lemma made_default c default u : made c default no_args u -> made c no_args default u.
Proof.
  unfold made, pick, no_args. cbn [a_num a_div a_min a_ratio]. intros (A & B & D & E & F).
  split; [exact A|]. split; [destruct (a_num default); exact B|]. split; [destruct (a_div default); exact D|]. split; [destruct (a_min default); exact E|]. destruct (a_ratio default); exact F.
Qed.
Lemma made_n c a d u n : made c (set_n a n) d u -> made c a d u.
Proof. intros H. exact H. Qed.
Lemma made_prepared c a d u u' : prepare_unit u = Ok u' -> made c a d u -> made c a d u' /\ name_of u' = name_of u.
Proof.
  unfold prepare_unit. intros H M. assert (X : exists k, u' = with_ch u k).
  { destruct (m_cls u); [apply Ok_inj in H; subst; exists (m_ch u'); destruct u'; reflexivity| |]; (destruct (max_choice u); [|discriminate]; exact (set_same _ _ _ H)). }
  destruct X as [k ->]. split; [exact M|reflexivity].
Qed.
Lemma prepared_all (Pr : munit -> Prop) : (forall u u', prepare_unit u = Ok u' -> Pr u -> Pr u') -> forall us us', mapM prepare_unit us = Ok us' -> Forall Pr us -> Forall Pr us'.
Proof.
  intros H. induction us as [|u us IH]; intros us' E F; [apply Ok_inj in E; subst; constructor|]. cbn in E. destruct (prepare_unit u) as [u1|] eqn:E1; [|discriminate]. cbn in E. destruct (mapM prepare_unit us) as [us1|]; [|discriminate]. apply Ok_inj in E. subst us'. inversion F; subst. constructor; [eapply H; eauto|auto].
Qed.
Lemma d_put_other d k v k' : k' <> k -> d_get (d_put d k v) k' = @d_get ucfg d k'.
Proof.
  intros N. induction d as [|[k0 v0] d IH]; cbn [d_put d_get].
  - destruct (uname_eqb k k') eqn:E; [|reflexivity]. apply uname_eqb_eq in E. congruence.
  - destruct (uname_eqb k0 k) eqn:E; cbn [d_get].
    + apply uname_eqb_eq in E. subst k0. destruct (uname_eqb k k') eqn:E'; [apply uname_eqb_eq in E'; congruence|reflexivity].
    + destruct (uname_eqb k0 k'); [reflexivity|exact IH].
Qed.
Lemma d_put_eq d k v : d_get (d_put d k v) k = @Some ucfg v.
Proof. induction d as [|[k0 v0] d IH]; cbn [d_put d_get]; [rewrite uname_eqb_refl; reflexivity|]. destruct (uname_eqb k0 k) eqn:E; cbn [d_get]; rewrite E; [reflexivity|exact IH]. Qed.
Lemma cfg_keys c default shared ts : forall ks cfg own us r,
  from_cfg_keys c default shared ts cfg own ks = Ok (us, r) -> NoDup ks ->
  (forall k g, In k ks -> d_get cfg k = Some g -> c_channels g <> None) ->
  Forall2 (fun k u => name_of u = k /\ exists g, d_get cfg k = Some g /\ made c (own_args g) default u) ks us.
Proof.
  induction ks as [|k ks IH]; intros cfg own us r E N H; cbn [from_cfg_keys] in E.
  { apply Ok_inj in E. inversion E; subst. constructor. }
  destruct (from_cfg_key c default shared ts cfg own k) as [[u [cfg1 own1]]|] eqn:E1; [|discriminate]. cbn [bind fst snd] in E.
  destruct (from_cfg_keys c default shared ts cfg1 own1 ks) as [[us1 r1]|] eqn:E2; [|discriminate]. cbn [bind fst snd] in E. apply Ok_inj in E. inversion E; subst us r. clear E.
  apply NoDup_cons_iff in N as [N1 N2]. unfold from_cfg_key in E1. destruct (d_get cfg k) as [g|] eqn:Eg; [|discriminate].
  destruct (c_channels g) as [[ci co]|] eqn:Ec; [|exfalso; exact (H k g (or_introl eq_refl) Eg Ec)].
  unfold init_from_cfg in E1. cbn [c_args c_channels c_choice] in E1. set (a := match c_args g with Some a => args_update default a | None => default end) in E1.
  destruct (init_unit c a) as [u0|] eqn:E0; [|discriminate]. cbn [bind] in E1. destruct (init_made _ _ _ E0) as (M & _ & _).
  set (u1 := with_related u0 (related (u_n (m_cfg u0)) false ci) (related (u_n (m_cfg u0)) true co)) in E1.
  assert (X : exists ch, u = with_name (with_ch u1 ch) k /\ cfg1 = d_put cfg k {| c_args := Some a; c_channels := Some (ci, co); c_choice := c_choice g |}).
  { destruct (c_choice g) as [v|].
    - destruct (set_choice u1 v) as [u2|] eqn:E3; [|discriminate]. cbn [bind] in E1. apply Ok_inj in E1. inversion E1; subst. destruct (set_same _ _ _ E3) as [ch ->]. exists ch. split; reflexivity.
    - cbn [bind] in E1. apply Ok_inj in E1. inversion E1; subst. exists (m_ch u1). split; reflexivity. }
  destruct X as (ch & -> & ->). constructor.
  - split; [reflexivity|]. exists g. split; [exact Eg|]. unfold own_args. unfold a in M. destruct (c_args g) as [o|]; [apply made_update; exact M|apply made_default; exact M].
  - specialize (IH _ _ _ _ E2 N2). assert (K : forall k', In k' ks -> d_get (d_put cfg k {| c_args := Some a; c_channels := Some (ci, co); c_choice := c_choice g |}) k' = d_get cfg k') by (intros k' I; apply d_put_other; intros ->; contradiction).
    specialize (IH ltac:(intros k' g' I; rewrite K by exact I; apply H; right; exact I)). clear -IH K.
    revert IH. generalize us1. induction ks as [|k1 ks IHk]; intros us F; inversion F as [|? u ? us2 F1 F2]; subst; [constructor|]. constructor; [rewrite (K k1 (or_introl eq_refl)) in F1; exact F1|]. apply IHk; [intros k' I; apply K; right; exact I|exact F2].
Qed.
Lemma prepared_two {A} (Pr : A -> munit -> Prop) : (forall a u u', prepare_unit u = Ok u' -> Pr a u -> Pr a u') -> forall l us us', mapM prepare_unit us = Ok us' -> Forall2 Pr l us -> Forall2 Pr l us'.
Proof.
  intros H. induction l as [|a l IH]; intros us us' E F; inversion F as [|? u ? us1 F1 F2]; subst; cbn in E; [apply Ok_inj in E; subst; constructor|]. destruct (prepare_unit u) as [u1|] eqn:E1; [|discriminate]. cbn in E. destruct (mapM prepare_unit us1) as [us2|] eqn:E2; [|discriminate]. apply Ok_inj in E. subst us'. constructor; [eapply H; eauto|eapply IH; eauto].
Qed.
(** Units read from a configuration that gives their channels. *)
Theorem C117_config_partial m ts m' :
  p_type (mt_parse m) = PConfig -> mt_file m = false -> NoDup (map fst (mt_units_cfg m)) ->
  (forall k g, d_get (mt_units_cfg m) k = Some g -> c_channels g <> None) -> prepare_from_supernet m ts = Ok m' ->
  Forall2 (fun k u => name_of u = k /\ exists g, d_get (mt_units_cfg m) k = Some g /\ made (mt_cls m) (own_args g) (mt_default m) u) (map fst (mt_units_cfg m)) (mt_units m').
Proof.
  intros T Fl N H E. unfold prepare_from_supernet in E. rewrite T, Fl in E. cbn [negb] in E.
  destruct (from_cfg_keys (mt_cls m) (mt_default m) true None (mt_units_cfg m) (mt_units_cfg m) (map fst (mt_units_cfg m))) as [[us r]|] eqn:Ek; [|discriminate]. cbn [bind fst snd] in E.
  destruct (mapM prepare_unit us) as [us'|] eqn:Eu; [|discriminate]. cbn [bind] in E. apply Ok_inj in E. subst m'. cbn [mt_units].
  eapply prepared_two; [|exact Eu|eapply cfg_keys; [exact Ek|exact N|intros k g _; apply H]].
  intros k u u' Eu' (A & g & B & C). destruct (made_prepared _ _ _ _ _ Eu' C) as [D F]. split; [congruence|]. exists g. split; assumption.
Qed.
(** Units found by the tracer: the unit's own arguments replace the default arguments altogether. *)
Definition listed (cfg : list (uname * ucfg)) (k : uname) : option iargs := match d_get cfg k with Some g => c_args g | None => None end.
Definition traced_made (c : ucls) (default : iargs) (cfg : list (uname * ucfg)) (u : munit) : Prop :=
  match listed cfg (name_of u) with Some own => made c own no_args u | None => made c no_args default u end.
Lemma tracer_made c default : forall ts cfg us r, from_tracer c default cfg ts = Ok (us, r) -> Forall (traced_made c default cfg) us.
Proof.
  induction ts as [|[k t] ts IH]; intros cfg us r E; cbn [from_tracer] in E; [apply Ok_inj in E; inversion E; constructor|].
  destruct (convert_unit c default cfg t) as [[u cfg1]|] eqn:E1; [|discriminate]. cbn [bind fst snd] in E. destruct (from_tracer c default cfg1 ts) as [[us1 r1]|] eqn:E2; [|discriminate]. cbn [bind fst snd] in E. apply Ok_inj in E. inversion E; subst us r. clear E.
  unfold convert_unit in E1. destruct t as [n [ci co]]. set (i := related n false ci) in E1. set (o := related n true co) in E1.
  assert (NM : forall u0 a, init_unit c (set_n a n) = Ok u0 -> name_of (with_related u0 i o) = auto_name i o n).
  { intros u0 a E0. destruct (init_made _ _ _ E0) as (_ & A & B & _). unfold name_of. cbn [with_related m_name m_in m_out m_cfg]. rewrite A. cbn [get_or]. cbn [set_n a_n] in B. injection B as <-. reflexivity. }
  assert (DEF : listed cfg (auto_name i o n) = None -> (do u <- init_unit c (set_n default n); Ok (with_related u i o, cfg)) = Ok (u, cfg1) -> traced_made c default cfg u /\ cfg1 = cfg).
  { intros L X. destruct (init_unit c (set_n default n)) as [u0|] eqn:E0; [|discriminate]. cbn [bind] in X. apply Ok_inj in X. inversion X; subst. split; [|reflexivity]. unfold traced_made. rewrite (NM _ _ E0), L. apply made_default. exact (proj1 (init_made _ _ _ E0)). }
  destruct (d_get cfg (auto_name i o n)) as [[[a|] cs ch]|] eqn:Eg.
  - destruct (init_unit c (set_n a n)) as [u0|] eqn:E0; [|discriminate]. cbn [bind] in E1. apply Ok_inj in E1. inversion E1; subst u cfg1. clear E1. constructor.
    + unfold traced_made. rewrite (NM _ _ E0). unfold listed. rewrite Eg. cbn [c_args]. exact (proj1 (init_made _ _ _ E0)).
    + specialize (IH _ _ _ E2). eapply Forall_impl; [|exact IH]. intros u1. unfold traced_made, listed. destruct (uname_dec (name_of u1) (auto_name i o n)) as [->|Ne]; [|rewrite d_put_other by exact Ne; auto].
      rewrite Eg. cbn [c_args]. rewrite d_put_eq. cbn [c_args]. intros X. exact X.
  - destruct DEF as [A ->]; [unfold listed; rewrite Eg; reflexivity|exact E1|]. constructor; [exact A|]. apply (IH _ _ _ E2).
  - destruct DEF as [A ->]; [unfold listed; rewrite Eg; reflexivity|exact E1|]. constructor; [exact A|]. apply (IH _ _ _ E2).
Qed.
Theorem C117_tracer_partial m ts m' :
  p_type (mt_parse m) = PAnalyzer -> p_from_cfg (mt_parse m) = false -> prepare_from_supernet m ts = Ok m' ->
  Forall (traced_made (mt_cls m) (mt_default m) (mt_units_cfg m)) (mt_units m').
Proof.
  intros T Fc E. unfold prepare_from_supernet in E. rewrite T, Fc in E.
  destruct (from_tracer (mt_cls m) (mt_default m) (mt_units_cfg m) ts) as [[us r]|] eqn:Ek; [|discriminate]. cbn [bind fst snd] in E.
  destruct (mapM prepare_unit us) as [us'|] eqn:Eu; [|discriminate]. cbn [bind] in E. apply Ok_inj in E. subst m'. cbn [mt_units].
  eapply prepared_all; [|exact Eu|eapply tracer_made; exact Ek].
  intros u u' Eu' A. unfold traced_made in *. destruct (listed _ (name_of u)) as [a|] eqn:L; destruct (made_prepared _ _ _ _ _ Eu' A) as [D F]; rewrite F, L; exact D.
Qed.
(** The candidates of a unit: min_choice and max_choice are the ends, and a prepared unit of these
    classes starts at the largest. *)
Theorem C117_ends c a u :
  init_unit c a = Ok u -> c <> CSeq -> Forall finite (m_cands u) ->
  exists lo hi, min_choice u = Ok lo /\ max_choice u = Ok hi /\ In lo (m_cands u) /\ In hi (m_cands u) /\ forall x, In x (m_cands u) -> le lo x /\ le x hi.
Proof.
  unfold init_unit. destruct (a_n a) as [n|]; [|discriminate]. set (uc := Build_unit_cfg _ _ _ _ _). intros H Hc F.
  assert (X : exists l, m_cands u = init_candidates (u_n uc) (u_num uc) (num_sort l)).
  { assert (Y : exists l cands, oneshot_unit_candidates uc l = Ok cands /\ m_cands u = cands).
    { destruct c; [congruence| |]; [destruct (oneshot_unit_candidates uc (get_or (a_cands a) (default_cands COneShot))) as [k|] eqn:E|destruct (oneshot_unit_candidates uc (get_or (a_cands a) (default_cands CSlim))) as [k|] eqn:E]; try discriminate H; cbn [bind] in H; apply Ok_inj in H; subst u; eexists; exists k; (split; [exact E|reflexivity]). }
    destruct Y as (l & cands & E & ->). unfold oneshot_unit_candidates, prepare_candidates in E. destruct (mapM (prepare_candidate uc) _) as [ys|]; [|discriminate]. cbn [bind] in E. apply Ok_inj in E. exists ys. congruence. }
  destruct X as [l X]. rewrite X in F. unfold init_candidates in X, F. set (l1 := num_sort (num_sort l)) in X, F.
  assert (SS : StronglySorted le (m_cands u) /\ m_cands u <> []).
  { rewrite X. destruct l1 as [|x r] eqn:El1; [split; [repeat constructor|discriminate]|]. split; [|discriminate]. rewrite <- El1. apply ChannelFloat_Props.sort_sorted. rewrite <- El1 in F. rewrite Forall_forall in *. intros z Z. apply F. apply (Permutation_in _ (Permutation_sym (num_sort_perm _))). exact Z. }
  destruct SS as [SS NE]. assert (F' : Forall finite (m_cands u)) by (rewrite X; exact F). clear X F H. unfold min_choice, max_choice. generalize dependent (m_cands u). intros cs SS NE F.
  destruct cs as [|lo r] eqn:Ecs; [congruence|]. rewrite <- Ecs in *. destruct (rev cs) as [|hi r'] eqn:Er; [apply (f_equal (@rev _)) in Er; rewrite rev_involutive in Er; cbn in Er; congruence|].
  assert (Hh : nth_error cs (length cs - 1) = Some hi). { rewrite <- (rev_involutive cs), Er. cbn [rev]. rewrite app_length. cbn [length]. rewrite Nat.add_sub, nth_error_app2 by lia. rewrite Nat.sub_diag. reflexivity. }
  assert (Hl : nth_error cs 0 = Some lo) by (rewrite Ecs; reflexivity).
  exists lo, hi. split; [reflexivity|]. split; [reflexivity|]. split; [eapply nth_error_In; exact Hl|]. split; [eapply nth_error_In; exact Hh|]. intros x I. eapply sorted_ends; eauto.
Qed.
(** The default divisor 8 is lost when the unit gives another argument and is found by the tracer. *)
Definition ex_own : list (uname * ucfg) :=
  [(UAuto 2 0 16 16, {| c_args := Some {| a_n := None; a_num := None; a_div := None; a_min := Some 4; a_ratio := None; a_cands := None |};
                        c_channels := None; c_choice := None |})].
Definition ex_found : traced := [(UAuto 2 0 16 16, (16%nat, ([ex_c 3], [ex_c 2])))].
Definition ex_mut (t : ptype) (units : list (uname * ucfg)) : mutator := new_mutator CSeq ex_args false units {| p_type := t; p_from_cfg := false |}.
Theorem C117_refuted : ~ C117_claim.
Proof.
  intros H. destruct (prepare_from_supernet (ex_mut PAnalyzer ex_own) ex_found) as [m1|] eqn:E1; [|vm_compute in E1; discriminate].
  specialize (H _ _ _ (nth 0 (mt_units m1) {| m_cls := CSeq; m_cfg := {| u_n := 0; u_num := true; u_div := 0; u_min := 0; u_ratio := 0 |}; m_cands := []; m_in := []; m_out := []; m_name := None; m_ch := new_seq 0 true |}) (snd (nth 0 ex_own (UEmpty 0, {| c_args := None; c_channels := None; c_choice := None |}))) E1).
  vm_compute in E1. apply Ok_inj in E1. subst m1. specialize (H (or_introl eq_refl) eq_refl). destruct H as (_ & _ & H & _). vm_compute in H. discriminate H.
Qed.
Example C117_tracer_case : exists m1 u, prepare_from_supernet (ex_mut PAnalyzer ex_own) ex_found = Ok m1 /\ mt_units m1 = [u] /\ u_min (m_cfg u) = 4 /\ u_div (m_cfg u) = 1.
Proof. eexists. eexists. vm_compute. repeat split. Qed.
Example C117_config_case :
  let cfg := [(UGiven 7, {| c_args := Some {| a_n := Some 16%nat; a_num := None; a_div := None; a_min := Some 4; a_ratio := None; a_cands := None |};
                            c_channels := Some ([ex_c 3], [ex_c 2]); c_choice := None |})] in
  exists m1 u, prepare_from_supernet (ex_mut PConfig cfg) [] = Ok m1 /\ mt_units m1 = [u] /\ name_of u = UGiven 7 /\ u_min (m_cfg u) = 4 /\ u_div (m_cfg u) = 8.
Proof. eexists. eexists. vm_compute. repeat split. Qed.
Example C117_ends_case : exists u, init_unit COneShot {| a_n := Some 8%nat; a_num := Some true; a_div := None; a_min := None; a_ratio := None; a_cands := Some [NInt 4; NInt 8; NInt 2] |} = Ok u /\
  min_choice u = Ok (NInt 2) /\ max_choice u = Ok (NInt 8).
Proof. eexists. vm_compute. repeat split. Qed.
Print Assumptions C117_config_partial.
Print Assumptions C117_tracer_partial.
Print Assumptions C117_ends.
Print Assumptions C117_refuted.
