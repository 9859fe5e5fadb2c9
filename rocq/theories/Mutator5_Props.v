(** C110, C111 - units config as dictionary or file; preparing a mutator twice. *)
From Verif Require Import Prelude PyNum Channel_Model Divisible_Model Mutator_Model Mutator_Lemmas Mutator3_Props.

(** * C110 *)
(** ** Specification *)
Definition C110_claim : Prop :=
  forall c default units p ts m1 m2,
    prepare_from_supernet (new_mutator c default false units p) ts = Ok m1 ->
    prepare_from_supernet (new_mutator c default true units p) ts = Ok m2 -> mt_units m1 = mt_units m2.
(** Every unit lists its channels, or no unit has channels or init_args. *)
Definition all_listed (units : list (uname * ucfg)) : Prop := forall k g, In (k, g) units -> c_channels g <> None.
Definition only_choices (units : list (uname * ucfg)) : Prop := forall k g, In (k, g) units -> c_channels g = None /\ c_args g = None.

(** ** Theorems *)
Definition ex_unit_min : list (uname * ucfg) :=
  [(UAuto 2 0 16 16, {| c_args := Some {| a_n := None; a_num := None; a_div := None; a_min := Some 1; a_ratio := None; a_cands := None |};
                        c_channels := None; c_choice := Some (NInt 5) |})].
Definition ex_named : traced := [(UAuto 2 0 16 16, (16%nat, ([ex_c 3], [ex_c 2])))].
(** default_args give divisor 8, the unit's own init_args min_value 1: as a dictionary the choice 5
    becomes 8, as a file it stays 5. *)
Theorem C110_dict_or_file_refuted : ~ C110_claim.
Proof.
  intros H. set (p := {| p_type := PAnalyzer; p_from_cfg := true |}).
  destruct (prepare_from_supernet (new_mutator CSeq ex_args false ex_unit_min p) ex_named) as [m1|] eqn:E1; [|vm_compute in E1; discriminate].
  destruct (prepare_from_supernet (new_mutator CSeq ex_args true ex_unit_min p) ex_named) as [m2|] eqn:E2; [|vm_compute in E2; discriminate].
  specialize (H _ _ _ _ _ _ _ E1 E2). vm_compute in E1. apply Ok_inj in E1. subst m1. vm_compute in E2. apply Ok_inj in E2. subst m2. discriminate H.
Qed.
Print Assumptions C110_dict_or_file_refuted.

Lemma d_put_get {A} (d : list (uname * A)) k v k' : d_get (d_put d k v) k' = if uname_eqb k k' then Some v else d_get d k'.
Proof.
  induction d as [|[a b] d IH]; cbn [d_put]; [reflexivity|]. destruct (uname_eqb a k) eqn:E.
  - apply uname_eqb_eq in E. subst a. cbn [d_get]. destruct (uname_eqb k k') eqn:E'; [reflexivity|]. reflexivity.
  - cbn [d_get]. destruct (uname_eqb a k') eqn:E'; [|exact IH]. apply uname_eqb_eq in E'. subst a. rewrite uname_neqb; [reflexivity|]. intros ->. rewrite uname_eqb_refl in E. discriminate.
Qed.
Lemma d_put_keys {A} (d : list (uname * A)) k v w : d_get d k = Some w -> map fst (d_put d k v) = map fst d.
Proof.
  induction d as [|[a b] d IH]; cbn; [discriminate|]. destruct (uname_eqb a k); cbn; [reflexivity|]. intros H. rewrite IH by exact H. reflexivity.
Qed.

(** All entries list their channels: the tracer and units_cfg do not matter. *)
Lemma keys_listed c default ks : forall cfg sh sh' ts ts' own own',
  (forall k g, d_get cfg k = Some g -> c_channels g <> None) ->
  (do r <- from_cfg_keys c default sh ts cfg own ks; Ok (fst r)) = (do r <- from_cfg_keys c default sh' ts' cfg own' ks; Ok (fst r)).
Proof.
  induction ks as [|k ks IH]; intros cfg sh sh' ts ts' own own' L; [reflexivity|]. cbn [from_cfg_keys]. unfold from_cfg_key.
  destruct (d_get cfg k) as [g|] eqn:G; [|reflexivity]. cbv zeta. pose proof (L k g G) as Lk. destruct (c_channels g) as [ch|] eqn:Ech; [|contradiction].
  set (g1 := {| c_args := _; c_channels := _; c_choice := _ |}). destruct (init_from_cfg c g1) as [u|]; [|reflexivity]. cbn [bind fst snd].
  assert (L1 : forall k' g', d_get (d_put cfg k g1) k' = Some g' -> c_channels g' <> None).
  { intros k' g'. rewrite d_put_get. destruct (uname_eqb k k'); [intros [= <-]; discriminate|apply L]. }
  specialize (IH (d_put cfg k g1) sh sh' ts ts' own own' L1).
  destruct (from_cfg_keys c default sh ts (d_put cfg k g1) own ks) as [r|], (from_cfg_keys c default sh' ts' (d_put cfg k g1) own' ks) as [r'|]; cbn [bind] in *; try congruence.
  apply Ok_inj in IH. rewrite IH. reflexivity.
Qed.

(** Entries with choices only. *)
Definition dull (default : iargs) (cfg : list (uname * ucfg)) : Prop :=
  forall k g a, d_get cfg k = Some g -> c_args g = Some a -> forall n, set_n a n = set_n default n.
Definition match_choice (cfg cfg' : list (uname * ucfg)) : Prop :=
  forall k, match d_get cfg k, d_get cfg' k with
            | None, None => True
            | Some g, Some g' => c_channels g = None /\ c_channels g' = None /\ c_choice g = c_choice g'
            | _, _ => False
            end.
Lemma set_n_twice a n n' : set_n (set_n a n) n' = set_n a n'.
Proof. reflexivity. Qed.
Lemma dull_put default cfg k g a : dull default cfg -> c_args g = Some a -> (forall n, set_n a n = set_n default n) -> dull default (d_put cfg k g).
Proof.
  intros D G A k' g' a'. rewrite d_put_get. destruct (uname_eqb k k'); [|apply D]. intros [= <-] E. rewrite G in E. inversion E; subst. exact A.
Qed.
Lemma convert_dull c default cfg n i o : dull default cfg ->
  (do u <- init_unit c (set_n default n); Ok (with_related u (related n false i) (related n true o)))
  = (do r <- convert_unit c default cfg (n, (i, o)); Ok (fst r)).
Proof.
  intros D. unfold convert_unit. destruct (d_get cfg _) as [[[a|] cs ch]|] eqn:G.
  - rewrite (D _ _ _ G eq_refl n). destruct (init_unit c (set_n default n)); reflexivity.
  - destruct (init_unit c (set_n default n)); reflexivity.
  - destruct (init_unit c (set_n default n)); reflexivity.
Qed.
Lemma convert_after c default cfg t r : convert_unit c default cfg t = Ok r ->
  snd r = cfg \/ exists nm a cs ch n, d_get cfg nm = Some {| c_args := Some a; c_channels := cs; c_choice := ch |} /\
    snd r = d_put cfg nm {| c_args := Some (set_n a n); c_channels := cs; c_choice := ch |}.
Proof.
  destruct t as [n [i o]]. unfold convert_unit. destruct (d_get cfg _) as [[[a|] cs ch]|] eqn:G.
  - destruct (init_unit c (set_n a n)) as [u|]; [|discriminate]. cbn [bind]. intros H. apply Ok_inj in H. subst r. right. exists (auto_name (related n false i) (related n true o) n), a, cs, ch, n. auto.
  - destruct (init_unit c (set_n default n)); [|discriminate]. cbn [bind]. intros H. apply Ok_inj in H. subst r. left. reflexivity.
  - destruct (init_unit c (set_n default n)); [|discriminate]. cbn [bind]. intros H. apply Ok_inj in H. subst r. left. reflexivity.
Qed.
Lemma after_dull c default cfg t r : convert_unit c default cfg t = Ok r -> dull default cfg -> dull default (snd r).
Proof.
  intros E D. destruct (convert_after c default cfg t r E) as [->|(nm & a & cs & ch & n & G & ->)]; [exact D|].
  eapply dull_put; [exact D|reflexivity|]. intros n'. rewrite set_n_twice. exact (D nm _ a G eq_refl n').
Qed.
Lemma match_refl_put cfg cfg' k g : match_choice cfg cfg' -> d_get cfg k <> None -> c_channels g = None ->
  (forall g0, d_get cfg k = Some g0 -> c_choice g = c_choice g0) -> match_choice (d_put cfg k g) cfg'.
Proof.
  intros M N C H k'. specialize (M k'). rewrite d_put_get. destruct (uname_eqb k k') eqn:E; [|exact M]. apply uname_eqb_eq in E. subst k'.
  destruct (d_get cfg k) as [g0|]; [|congruence]. destruct (d_get cfg' k) as [g0'|]; [|destruct M]. destruct M as (M1 & M2 & M3). specialize (H g0 eq_refl). split; [exact C|]. split; [exact M2|congruence].
Qed.
Lemma match_sym a b : match_choice a b -> match_choice b a.
Proof. intros M k. specialize (M k). destruct (d_get a k), (d_get b k); auto. destruct M as (X & Y & Z). auto. Qed.
Lemma after_match c default cfg cfg' t r : convert_unit c default cfg t = Ok r -> match_choice cfg cfg' -> match_choice (snd r) cfg'.
Proof.
  intros E M. destruct (convert_after c default cfg t r E) as [->|(nm & a & cs & ch & n & G & ->)]; [exact M|].
  apply match_refl_put; [exact M|congruence| |].
  - specialize (M nm). rewrite G in M. destruct (d_get cfg' nm); [destruct M as (M & _); exact M|destruct M].
  - intros g0 G0. rewrite G in G0. inversion G0; subst. reflexivity.
Qed.
Lemma keys_choices c default ts ks : forall cfg cfg' own own',
  match_choice cfg cfg' -> dull default cfg -> dull default cfg' -> dull default own ->
  (do r <- from_cfg_keys c default true (Some ts) cfg own' ks; Ok (fst r)) = (do r <- from_cfg_keys c default false (Some ts) cfg' own ks; Ok (fst r)).
Proof.
  induction ks as [|k ks IH]; intros cfg cfg' own own' M D D' Do; [reflexivity|]. cbn [from_cfg_keys]. unfold from_cfg_key.
  pose proof (M k) as Mk. destruct (d_get cfg k) as [g|] eqn:G, (d_get cfg' k) as [g'|] eqn:G'; try destruct Mk; [|reflexivity]. destruct H0 as [Mk2 Mk3]. rewrite H, Mk2, <- Mk3. cbv zeta.
  set (g1 := {| c_args := _; c_channels := None; c_choice := c_choice g |}). set (g1' := {| c_args := _; c_channels := None; c_choice := c_choice g |}).
  assert (U : forall a, (forall n, set_n a n = set_n default n) -> forall n, set_n (args_update default a) n = set_n default n).
  { intros a A n. specialize (A n). destruct a, default. unfold set_n, args_update in *. cbn in *. inversion A; subst. destruct a_num0, a_div0, a_min0, a_ratio0, a_cands0; reflexivity. }
  assert (A1 : forall n, set_n (match c_args g with Some a => args_update default a | None => default end) n = set_n default n).
  { intros n. destruct (c_args g) as [a|] eqn:Ea; [|reflexivity]. apply U. exact (D k g a G Ea). }
  assert (A1' : forall n, set_n (match c_args g' with Some a => args_update default a | None => default end) n = set_n default n).
  { intros n. destruct (c_args g') as [a|] eqn:Ea; [|reflexivity]. apply U. exact (D' k g' a G' Ea). }
  assert (D1 : dull default (d_put cfg k g1)) by (eapply dull_put; [exact D|reflexivity|exact A1]).
  assert (D1' : dull default (d_put cfg' k g1')) by (eapply dull_put; [exact D'|reflexivity|exact A1']).
  assert (M1 : match_choice (d_put cfg k g1) (d_put cfg' k g1')).
  { apply match_refl_put; [apply match_sym; apply match_refl_put; [apply match_sym; exact M|congruence|reflexivity|intros g0 G0; rewrite G' in G0; inversion G0; subst; exact Mk3]|congruence|reflexivity|intros g0 G0; rewrite G in G0; inversion G0; subst; reflexivity]. }
  destruct (d_get ts k) as [[n [i o]]|]; [|reflexivity].
  pose proof (convert_dull c default (d_put cfg k g1) n i o D1) as C1. pose proof (convert_dull c default own n i o Do) as C2. rewrite C1 in C2.
  destruct (convert_unit c default (d_put cfg k g1) (n, (i, o))) as [r|] eqn:E1, (convert_unit c default own (n, (i, o))) as [r'|] eqn:E2; cbn [bind] in *; try congruence. apply Ok_inj in C2. rewrite C2.
  destruct (match c_choice g with Some v => set_choice (fst r') v | None => Ok (fst r') end) as [u|]; [|reflexivity]. cbn [bind fst snd].
  specialize (IH (snd r) (d_put cfg' k g1') (snd r') own'). 
  assert (X1 : match_choice (snd r) (d_put cfg' k g1')) by (eapply after_match; [exact E1|exact M1]).
  specialize (IH X1 (after_dull _ _ _ _ _ E1 D1) D1' (after_dull _ _ _ _ _ E2 Do)).
  destruct (from_cfg_keys c default true (Some ts) (snd r) own' ks) as [x|], (from_cfg_keys c default false (Some ts) (d_put cfg' k g1') (snd r') ks) as [y|]; cbn [bind] in *; try congruence.
  apply Ok_inj in IH. rewrite IH. reflexivity.
Qed.
Lemma prepare_units m ts m' : prepare_from_supernet m ts = Ok m' ->
  exists r, (match p_type (mt_parse m) with
             | PAnalyzer =>
                 if p_from_cfg (mt_parse m)
                 then let cfg := if mt_file m then mt_disk m else mt_units_cfg m in
                      (do r <- from_cfg_keys (mt_cls m) (mt_default m) (negb (mt_file m)) (Some ts) cfg (mt_units_cfg m) (map fst cfg); Ok (fst r))
                 else (do r <- from_tracer (mt_cls m) (mt_default m) (mt_units_cfg m) ts; Ok (fst r))
             | PConfig => let cfg := if mt_file m then mt_disk m else mt_units_cfg m in
                 (do r <- from_cfg_keys (mt_cls m) (mt_default m) (negb (mt_file m)) None cfg (mt_units_cfg m) (map fst cfg); Ok (fst r))
             end) = Ok r /\ mapM prepare_unit r = Ok (mt_units m').
Proof.
  unfold prepare_from_supernet. cbv zeta. intros H. destruct (p_type (mt_parse m)); [destruct (p_from_cfg (mt_parse m))|].
  - destruct (from_cfg_keys _ _ _ _ _ _ _) as [r|]; [|discriminate]. cbn [bind] in *. destruct (mapM prepare_unit (fst r)) as [us|] eqn:E; [|discriminate]. cbn [bind] in H. apply Ok_inj in H. subst m'. eauto.
  - destruct (from_tracer _ _ _ _) as [r|]; [|discriminate]. cbn [bind] in *. destruct (mapM prepare_unit (fst r)) as [us|] eqn:E; [|discriminate]. cbn [bind] in H. apply Ok_inj in H. subst m'. eauto.
  - destruct (from_cfg_keys _ _ _ _ _ _ _) as [r|]; [|discriminate]. cbn [bind] in *. destruct (mapM prepare_unit (fst r)) as [us|] eqn:E; [|discriminate]. cbn [bind] in H. apply Ok_inj in H. subst m'. eauto.
Qed.

(** Without 'from_cfg', or when all units list their channels, or when the units hold nothing but
    choices. *)
Theorem C110_dict_or_file_partial c default units p ts m1 m2 :
  (p_type p = PAnalyzer /\ p_from_cfg p = false) \/ all_listed units \/ (p_type p = PAnalyzer /\ only_choices units) ->
  prepare_from_supernet (new_mutator c default false units p) ts = Ok m1 ->
  prepare_from_supernet (new_mutator c default true units p) ts = Ok m2 -> mt_units m1 = mt_units m2.
Proof.
  intros C H1 H2. apply prepare_units in H1. apply prepare_units in H2. cbn [new_mutator mt_parse mt_cls mt_default mt_file mt_disk mt_units_cfg negb] in *.
  destruct H1 as (r1 & A1 & B1). destruct H2 as (r2 & A2 & B2). cbv zeta in *.
  assert (E : Ok r1 = Ok r2); [|apply Ok_inj in E; congruence]. rewrite <- A1, <- A2.
  assert (Li : all_listed units -> forall ts, (do r <- from_cfg_keys c default true ts units units (map fst units); Ok (fst r)) = (do r <- from_cfg_keys c default false ts units units (map fst units); Ok (fst r))).
  { intros L ts0. apply keys_listed. intros k g G. apply d_get_in in G. exact (L k g G). }
  destruct (p_type p) eqn:Ep; [destruct (p_from_cfg p) eqn:Ef|].
  - destruct C as [[_ C]|[C|[_ C]]]; [discriminate|apply Li, C|]. apply keys_choices.
    + intros k. destruct (d_get units k) as [g|] eqn:G; [|exact I]. apply d_get_in in G. destruct (C k g G) as [X _]. auto.
    + intros k g a G. apply d_get_in in G. destruct (C k g G) as [_ X]. congruence.
    + intros k g a G. apply d_get_in in G. destruct (C k g G) as [_ X]. congruence.
    + intros k g a G. apply d_get_in in G. destruct (C k g G) as [_ X]. congruence.
  - reflexivity.
  - destruct C as [[C _]|[C|[C _]]]; [discriminate|apply Li, C|discriminate].
Qed.
Print Assumptions C110_dict_or_file_partial.
Definition ex_choices : list (uname * ucfg) := [(UAuto 2 0 16 16, {| c_args := None; c_channels := None; c_choice := Some (NInt 5) |})].
Example C110_case :
  only_choices ex_choices /\
  forall file, (do m <- prepare_from_supernet (new_mutator CSeq ex_args file ex_choices {| p_type := PAnalyzer; p_from_cfg := true |}) ex_named;
                Ok (map get_choice (mt_units m))) = Ok [Ok (NInt 8)].
Proof. split; [intros k g [E|[]]; inversion E; auto|]. intros [|]; vm_compute; reflexivity. Qed.

(** * C111 *)
(** ** Specification *)
Definition C111_claim : Prop :=
  forall m ts m1 m2, prepare_from_supernet m ts = Ok m1 -> prepare_from_supernet m1 ts = Ok m2 -> mt_units m2 = mt_units m1.

(** ** Theorems *)
(** The unit config sets choice 5 (made 8); preparing again ignores it: 16. *)
Theorem C111_prepare_again_refuted : ~ C111_claim.
Proof.
  intros H. set (p := {| p_type := PAnalyzer; p_from_cfg := true |}).
  destruct (prepare_from_supernet (new_mutator CSeq ex_args false ex_choices p) ex_named) as [m1|] eqn:E1; [|vm_compute in E1; discriminate].
  destruct (prepare_from_supernet m1 ex_named) as [m2|] eqn:E2; [|vm_compute in E1; apply Ok_inj in E1; subst m1; vm_compute in E2; discriminate].
  specialize (H _ _ _ _ E1 E2). vm_compute in E1. apply Ok_inj in E1. subst m1. vm_compute in E2. apply Ok_inj in E2. subst m2. discriminate H.
Qed.
Print Assumptions C111_prepare_again_refuted.

(** The number of channels in a name. *)
Definition name_n (k : uname) : nat := match k with UAuto _ _ _ n => n | UEmpty n => n | UGiven _ => O end.
Lemma auto_n i o n : name_n (auto_name i o n) = n.
Proof. unfold auto_name. destruct (o ++ i); reflexivity. Qed.
Definition later (cfg cfg' : list (uname * ucfg)) : Prop :=
  forall k, match d_get cfg k, d_get cfg' k with
            | None, None => True
            | Some g, Some g' =>
                match c_args g, c_args g' with
                | None, None => True
                | Some a, Some a' => set_n a' (name_n k) = set_n a (name_n k)
                | _, _ => False
                end
            | _, _ => False
            end.
Lemma later_refl cfg : later cfg cfg.
Proof. intros k. destruct (d_get cfg k) as [g|]; [|exact I]. destruct (c_args g); [reflexivity|exact I]. Qed.
Lemma later_trans a b c : later a b -> later b c -> later a c.
Proof.
  intros X Y k. specialize (X k). specialize (Y k). destruct (d_get a k) as [g|], (d_get b k) as [g'|], (d_get c k) as [g''|]; try contradiction; auto.
  destruct (c_args g), (c_args g'), (c_args g''); try contradiction; auto. congruence.
Qed.
Lemma convert_step c default cfg t r : convert_unit c default cfg t = Ok r -> later cfg (snd r).
Proof.
  intros E. destruct (convert_after c default cfg t r E) as [->|(nm & a & cs & ch & n & G & ->)]; [apply later_refl|].
  intros k. rewrite d_put_get. destruct (uname_eqb nm k) eqn:Ek; [apply uname_eqb_eq in Ek; subst k; rewrite G; reflexivity|]. apply later_refl.
Qed.
Lemma convert_later c default cfg cfg' t r : later cfg cfg' -> convert_unit c default cfg t = Ok r ->
  exists r', convert_unit c default cfg' t = Ok r' /\ fst r' = fst r /\ later (snd r) (snd r').
Proof.
  intros L E. destruct t as [n [i o]]. unfold convert_unit in *. set (nm := auto_name _ _ n) in *. pose proof (L nm) as Ln.
  assert (Nn : name_n nm = n) by apply auto_n. rewrite Nn in Ln.
  destruct (d_get cfg nm) as [[[a|] cs ch]|] eqn:G, (d_get cfg' nm) as [[[a'|] cs' ch']|] eqn:G'; cbn [c_args] in Ln; try contradiction.
  - rewrite Ln. destruct (init_unit c (set_n a n)) as [u|]; [|discriminate]. cbn [bind] in *. apply Ok_inj in E. subst r. eexists. split; [reflexivity|]. split; [reflexivity|]. cbn [snd].
    intros k. rewrite !d_put_get. destruct (uname_eqb nm k); [cbn [c_args]; reflexivity|apply L].
  - destruct (init_unit c (set_n default n)) as [u|]; [|discriminate]. cbn [bind] in *. apply Ok_inj in E. subst r. eexists. split; [reflexivity|]. split; [reflexivity|exact L].
  - destruct (init_unit c (set_n default n)) as [u|]; [|discriminate]. cbn [bind] in *. apply Ok_inj in E. subst r. eexists. split; [reflexivity|]. split; [reflexivity|exact L].
Qed.
Lemma tracer_later c default ts : forall cfg cfg' r, later cfg cfg' -> from_tracer c default cfg ts = Ok r ->
  exists r', from_tracer c default cfg' ts = Ok r' /\ fst r' = fst r.
Proof.
  induction ts as [|[k t] ts IH]; intros cfg cfg' r L E; cbn [from_tracer] in *; [apply Ok_inj in E; subst; eexists; split; reflexivity|].
  destruct (convert_unit c default cfg t) as [x|] eqn:Ex; [|discriminate]. cbn [bind] in E. destruct (convert_later _ _ _ _ _ _ L Ex) as (x' & Ex' & F & Lx). rewrite Ex'. cbn [bind].
  destruct (from_tracer c default (snd x) ts) as [y|] eqn:Ey; [|discriminate]. cbn [bind] in E. apply Ok_inj in E. subst r. destruct (IH _ _ _ Lx Ey) as (y' & Ey' & F'). rewrite Ey'. cbn [bind].
  eexists. split; [reflexivity|]. cbn [fst]. congruence.
Qed.
Lemma tracer_step c default ts : forall cfg r, from_tracer c default cfg ts = Ok r -> later cfg (snd r).
Proof.
  induction ts as [|[k t] ts IH]; intros cfg r E; cbn [from_tracer] in *; [apply Ok_inj in E; subst; apply later_refl|].
  destruct (convert_unit c default cfg t) as [x|] eqn:Ex; [|discriminate]. cbn [bind] in E. destruct (from_tracer c default (snd x) ts) as [y|] eqn:Ey; [|discriminate]. cbn [bind] in E. apply Ok_inj in E. subst r. cbn [snd].
  eapply later_trans; [eapply convert_step, Ex|eapply IH, Ey].
Qed.

(** Type 'Config'. *)
Definition eff (default : iargs) (g : ucfg) : ucfg :=
  {| c_args := Some (match c_args g with Some a => args_update default a | None => default end); c_channels := c_channels g; c_choice := c_choice g |}.
Definition merged (default : iargs) (cfg cfg' : list (uname * ucfg)) : Prop :=
  forall k, option_map (eff default) (d_get cfg k) = option_map (eff default) (d_get cfg' k).
Lemma update_twice d a : args_update d (args_update d a) = args_update d a.
Proof. unfold args_update, or_else. cbn [a_n a_num a_div a_min a_ratio a_cands]. destruct a as [[] [] [] [] [] []], d as [[] [] [] [] [] []]; reflexivity. Qed.
Lemma update_self d : args_update d d = d.
Proof. unfold args_update, or_else. cbn [a_n a_num a_div a_min a_ratio a_cands]. destruct d as [[] [] [] [] [] []]; reflexivity. Qed.
Lemma eff_twice d g : eff d (eff d g) = eff d g.
Proof. unfold eff. cbn [c_args c_channels c_choice]. destruct (c_args g); rewrite ?update_twice, ?update_self; reflexivity. Qed.
Lemma merged_put d cfg k g : d_get cfg k = Some g -> merged d cfg (d_put cfg k (eff d g)).
Proof. intros G k'. rewrite d_put_get. destruct (uname_eqb k k') eqn:E; [|reflexivity]. apply uname_eqb_eq in E. subst k'. rewrite G. cbn [option_map]. rewrite eff_twice. reflexivity. Qed.
Lemma key_config c d sh cfg own k r :
  from_cfg_key c d sh None cfg own k = Ok r ->
  exists g u, d_get cfg k = Some g /\ c_channels g <> None /\ init_from_cfg c (eff d g) = Ok u /\ r = (with_name u k, (d_put cfg k (eff d g), own)).
Proof.
  unfold from_cfg_key. destruct (d_get cfg k) as [g|]; [|discriminate]. cbv zeta. destruct (c_channels g) as [ch|] eqn:Ec; [|discriminate]. intros H.
  exists g. unfold eff. rewrite Ec. destruct (init_from_cfg c _) as [u|]; [|discriminate]. cbn [bind] in H. apply Ok_inj in H. subst r. exists u. split; [reflexivity|]. split; [congruence|]. auto.
Qed.
Lemma keys_config c d sh sh' ks : forall cfg cfg' own own' r, merged d cfg cfg' ->
  from_cfg_keys c d sh None cfg own ks = Ok r -> exists r', from_cfg_keys c d sh' None cfg' own' ks = Ok r' /\ fst r' = fst r.
Proof.
  induction ks as [|k ks IH]; intros cfg cfg' own own' r M E; cbn [from_cfg_keys] in *; [apply Ok_inj in E; subst; eexists; split; reflexivity|].
  destruct (from_cfg_key c d sh None cfg own k) as [x|] eqn:Ex; [|discriminate]. cbn [bind] in E. destruct (key_config _ _ _ _ _ _ _ Ex) as (g & u & G & Cg & Iu & ->). cbn [fst snd] in E.
  pose proof (M k) as Mk. rewrite G in Mk. destruct (d_get cfg' k) as [g'|] eqn:G'; [|discriminate]. cbn [option_map] in Mk. assert (Eg : eff d g' = eff d g) by congruence.
  assert (Ex' : from_cfg_key c d sh' None cfg' own' k = Ok (with_name u k, (d_put cfg' k (eff d g'), own'))).
  { unfold from_cfg_key. rewrite G'. cbv zeta. fold (eff d g'). assert (Cc : c_channels g' = c_channels g) by (apply (f_equal c_channels) in Eg; exact Eg).
    destruct (c_channels g') as [ch|] eqn:Ec; [|congruence]. replace {| c_args := _; c_channels := Some ch; c_choice := c_choice g' |} with (eff d g') by (unfold eff; rewrite Ec; reflexivity). rewrite Eg, Iu. reflexivity. }
  rewrite Ex'. cbn [bind fst snd].
  destruct (from_cfg_keys c d sh None (d_put cfg k (eff d g)) own ks) as [y|] eqn:Ey; [|discriminate]. cbn [bind] in E. apply Ok_inj in E. subst r.
  assert (M1 : merged d (d_put cfg k (eff d g)) (d_put cfg' k (eff d g'))) by (intros k'; rewrite <- (merged_put d cfg k g G k'), <- (merged_put d cfg' k g' G' k'); apply M).
  destruct (IH _ _ _ own' _ M1 Ey) as (y' & Ey' & F). rewrite Ey'. cbn [bind]. eexists. split; [reflexivity|]. cbn [fst]. congruence.
Qed.
Lemma keys_step c d sh ks : forall cfg own r, from_cfg_keys c d sh None cfg own ks = Ok r ->
  merged d cfg (fst (snd r)) /\ map fst (fst (snd r)) = map fst cfg /\ snd (snd r) = own.
Proof.
  induction ks as [|k ks IH]; intros cfg own r E; cbn [from_cfg_keys] in *; [apply Ok_inj in E; subst; split; [intros k; reflexivity|auto]|].
  destruct (from_cfg_key c d sh None cfg own k) as [x|] eqn:Ex; [|discriminate]. cbn [bind] in E. destruct (key_config _ _ _ _ _ _ _ Ex) as (g & u & G & Cg & Iu & ->). cbn [fst snd] in E.
  destruct (from_cfg_keys c d sh None (d_put cfg k (eff d g)) own ks) as [y|] eqn:Ey; [|discriminate]. cbn [bind] in E. apply Ok_inj in E. subst r. cbn [fst snd]. destruct (IH _ _ _ Ey) as (A & B & C).
  split; [intros k'; rewrite (merged_put d cfg k g G k'); apply A|]. split; [|exact C]. rewrite B. eapply d_put_keys, G.
Qed.

(** Without 'from_cfg', or with type 'Config', preparing again works and gives the same units. *)
Theorem C111_prepare_again_partial m ts m1 :
  p_type (mt_parse m) = PConfig \/ p_from_cfg (mt_parse m) = false ->
  prepare_from_supernet m ts = Ok m1 ->
  exists m2, prepare_from_supernet m1 ts = Ok m2 /\ mt_units m2 = mt_units m1.
Proof.
  intros C H. unfold prepare_from_supernet in H. cbv zeta in H. destruct (p_type (mt_parse m)) eqn:Ep; [destruct (p_from_cfg (mt_parse m)) eqn:Ef; [destruct C; discriminate|]|].
  - destruct (from_tracer _ _ _ _) as [r|] eqn:Er; [|discriminate]. cbn [bind] in H. destruct (mapM prepare_unit (fst r)) as [us|] eqn:Eu; [|discriminate]. cbn [bind] in H. apply Ok_inj in H. subst m1.
    unfold prepare_from_supernet. cbn [mt_parse mt_cls mt_default mt_file mt_disk mt_units_cfg]. rewrite Ep, Ef.
    destruct (tracer_later _ _ _ _ _ _ (tracer_step _ _ _ _ _ Er) Er) as (r' & Er' & F). rewrite Er'. cbn [bind]. rewrite F, Eu. cbn [bind]. eexists. split; reflexivity.
  - destruct (from_cfg_keys _ _ _ _ _ _ _) as [r|] eqn:Er; [|discriminate]. cbn [bind] in H. destruct (mapM prepare_unit (fst r)) as [us|] eqn:Eu; [|discriminate]. cbn [bind] in H. apply Ok_inj in H. subst m1.
    unfold prepare_from_supernet. cbn [mt_parse mt_cls mt_default mt_file mt_disk mt_units_cfg]. rewrite Ep. cbv zeta.
    destruct (keys_step _ _ _ _ _ _ _ Er) as (A & B & _). destruct (mt_file m) eqn:Efi; cbn [negb] in *.
    + assert (M0 : merged (mt_default m) (mt_disk m) (mt_disk m)) by (intros k; reflexivity).
      destruct (keys_config _ _ _ false _ _ _ _ (snd (snd r)) _ M0 Er) as (r' & Er' & F). rewrite Er'. cbn [bind]. rewrite F, Eu. cbn [bind]. eexists. split; reflexivity.
    + rewrite B. destruct (keys_config _ _ _ true _ _ _ _ (fst (snd r)) _ A Er) as (r' & Er' & F). rewrite Er'. cbn [bind]. rewrite F, Eu. cbn [bind]. eexists. split; reflexivity.
Qed.
Print Assumptions C111_prepare_again_partial.
Definition ex_own : list (uname * ucfg) :=
  [(UAuto 2 0 16 16, {| c_args := Some {| a_n := None; a_num := None; a_div := None; a_min := Some 3; a_ratio := None; a_cands := None |};
                        c_channels := Some ([ex_c 3], [ex_c 2]); c_choice := Some (NInt 5) |})].
Example C111_case :
  let again c own p := do m1 <- prepare_from_supernet (new_mutator c {| a_n := Some 16%nat; a_num := None; a_div := Some 4; a_min := None; a_ratio := None; a_cands := None |} false own p) ex_named;
                       do m2 <- prepare_from_supernet m1 ex_named;
                       Ok (map get_choice (mt_units m2), map (fun u => (u_div (m_cfg u), u_min (m_cfg u))) (mt_units m2)) in
  again CSeq ex_own {| p_type := PConfig; p_from_cfg := false |} = Ok ([Ok (NInt 8)], [(4, 3)]) /\
  again CSeq ex_own {| p_type := PAnalyzer; p_from_cfg := false |} = Ok ([Ok (NInt 16)], [(1, 3)]).
Proof. split; vm_compute; reflexivity. Qed.
