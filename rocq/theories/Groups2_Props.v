(** C24, C62 and C63, continued: models with derived mutables, empty groups. *)
From Verif Require Import Prelude Groups_Model Groups_Props Evolution_Model FixSubnet_Model.

(** No mutable has an alias. *)
Definition no_alias (ms : list modl) : Prop := forall m s, In m ms -> In s (md_srcs m) -> snd s = None.
Lemma no_alias_keys ms : no_alias ms -> alias_keys ms = [].
Proof.
  intros H. unfold alias_keys. assert (E : flat_map (fun m => flat_map (fun s : nat * option string => match snd s with Some a => [a] | None => [] end) (md_srcs m)) ms = []).
  { induction ms as [|m ms IH]; [reflexivity|]. cbn [flat_map]. rewrite IH by (intros m' s Hm; apply H; right; exact Hm). rewrite app_nil_r.
    assert (K : forall l : list (nat * option string), (forall s, In s l -> snd s = None) -> flat_map (fun s : nat * option string => match snd s with Some a => [a] | None => [] end) l = []).
    { induction l as [|s l IHl]; intros K; [reflexivity|]. cbn [flat_map]. rewrite (K s (or_introl eq_refl)). apply IHl. intros s' Hs'. apply K. right. exact Hs'. }
    apply K. intros s Hs. apply (H m s); [left; reflexivity|exact Hs]. }
  rewrite E. reflexivity.
Qed.
(** Without aliases and custom groups every registration gets its own group, in order. *)
Theorem C24_no_custom :
  forall ms, no_alias ms ->
    build_search_groups ms [] = Ok (map (fun s => [fst s]) (flat_map md_srcs ms)).
Proof.
  intros ms H. unfold build_search_groups. cbn [custom_phase bind fst snd concat filter]. rewrite no_alias_keys by exact H. cbn [alias_phase bind snd fst nodupb assert_ app].
  f_equal. unfold single_phase. clear H. induction ms as [|m ms IH]; [reflexivity|]. cbn [flat_map]. rewrite map_app, IH. reflexivity.
Qed.
Print Assumptions C24_no_custom.
(** A custom group that names one module holds only the last of its sources; the other
    sources are in no group unless they are registered elsewhere. *)
Theorem C24_named_module :
  forall pre m post i srcs, no_alias (pre ++ m :: post) -> NoDup (map md_name (pre ++ m :: post)) ->
    md_srcs m = srcs ++ [(i, None)] ->
    build_search_groups (pre ++ m :: post) [[md_name m]] = Ok ([i] :: map (fun s => [fst s]) (flat_map md_srcs (pre ++ post))).
Proof.
  intros pre m post i srcs H N E. set (ms := pre ++ m :: post) in *.
  assert (Hne : forall x, In x (pre ++ post) -> md_name x <> md_name m).
  { intros x Hx He. unfold ms in N. rewrite map_app in N. cbn [map] in N. apply NoDup_remove_2 in N. apply N. rewrite <- map_app, <- He. apply in_map. exact Hx. }
  assert (L : name2mutable ms (md_name m) = Some i).
  { unfold name2mutable, ms. assert (F : find (fun x => String.eqb (md_name x) (md_name m) && negb (Nat.eqb (length (md_srcs x)) 0)) (pre ++ m :: post) = Some m).
    { assert (P : forall x, In x pre -> md_name x <> md_name m) by (intros x Hx; apply Hne, in_or_app; left; exact Hx). clear - P E.
      induction pre as [|x pre IH]; cbn [app find].
      - rewrite String.eqb_refl, E, app_length. cbn [length andb]. replace (length srcs + 1)%nat with (S (length srcs)) by lia. reflexivity.
      - destruct (String.eqb_spec (md_name x) (md_name m)) as [Q|Q]; [exfalso; apply (P x); [left; reflexivity|exact Q]|]. cbn [andb]. apply IH. intros y Hy. apply P. right. exact Hy. }
    rewrite F, E. rewrite app_length. cbn [length]. replace (length srcs + 1 - 1)%nat with (length srcs) by lia.
    rewrite nth_error_app2, Nat.sub_diag by lia. reflexivity. }
  unfold build_search_groups, check_valid. rewrite no_alias_keys by exact H. cbn [concat app forallb]. unfold legal_key. rewrite no_alias_keys by exact H.
  cbn [memb existsb orb negb]. rewrite L. cbn [andb assert_ bind custom_phase]. unfold resolve. rewrite no_alias_keys by exact H. cbn [flat_map memb existsb app mapM rev].
  unfold lookup_name. rewrite L. cbn [bind fst snd filter alias_phase nodupb memb existsb negb andb assert_ app].
  do 2 f_equal. unfold single_phase, ms. rewrite !flat_map_app. cbn [flat_map]. rewrite map_app.
  assert (K : forall l, (forall x, In x l -> md_name x <> md_name m) ->
     flat_map (fun m0 => if memb (md_name m0) [md_name m] then [] else map (fun s : nat * option string => [fst s]) (md_srcs m0)) l = map (fun s => [fst s]) (flat_map md_srcs l)).
  { induction l as [|x l IH]; intros P; [reflexivity|]. cbn [flat_map]. rewrite map_app, IH by (intros y Hy; apply P; right; exact Hy). f_equal.
    cbn [memb existsb]. destruct (String.eqb_spec (md_name x) (md_name m)) as [Q|Q]; [exfalso; apply (P x); [left; reflexivity|exact Q]|]. reflexivity. }
  rewrite !K by (intros x Hx; apply Hne, in_or_app; auto).
  cbn [memb existsb]. rewrite String.eqb_refl. reflexivity.
Qed.
Print Assumptions C24_named_module.
(** Full claim: every mutable is in some group. *)
Definition C24_claim_covered : Prop :=
  forall ms custom groups, NoDup (map md_name ms) -> build_search_groups ms custom = Ok groups ->
    forall m s, In m ms -> In s (md_srcs m) -> In (fst s) (concat groups).
Definition ex_derived : list modl := [{| md_name := "out"; md_srcs := [(0, None); (1, None)]%nat |}; {| md_name := "k"; md_srcs := [(2, None)]%nat |}].
Theorem C24_sources_refuted : ~ C24_claim_covered.
Proof.
  intros H. assert (N : NoDup (map md_name ex_derived)) by (cbn; repeat constructor; cbn; intuition discriminate).
  specialize (H ex_derived [["out"%string]] [[1]; [2]]%nat N eq_refl (nth 0 ex_derived {| md_name := ""; md_srcs := [] |}) (0%nat, None)).
  cbn in H. destruct H as [H|[H|[]]]; [left; reflexivity|left; reflexivity|discriminate|discriminate].
Qed.
Print Assumptions C24_sources_refuted.
Example C24_named_module_case :
  build_search_groups ex_derived [["out"%string]] = Ok [[1]; [2]]%nat /\ build_search_groups ex_derived [] = Ok [[0]; [1]; [2]]%nat.
Proof. split; reflexivity. Qed.

(** Empty custom groups: as first group an error, later on accepted and kept as an empty
    group, which then breaks [current_choices]. *)
Theorem C62_empty_group :
  forall ms custom, check_valid ms ([] :: custom) = Ok tt -> build_search_groups ms ([] :: custom) = Raise GenericException.
Proof. intros ms custom H. unfold build_search_groups. rewrite H. reflexivity. Qed.
Theorem C62_later_empty_group :
  forall pre m post i srcs, no_alias (pre ++ m :: post) -> NoDup (map md_name (pre ++ m :: post)) ->
    md_srcs m = srcs ++ [(i, None)] ->
    build_search_groups (pre ++ m :: post) [[md_name m]; []] = Ok ([i] :: [] :: map (fun s => [fst s]) (flat_map md_srcs (pre ++ post))).
Proof.
  intros pre m post i srcs H N E. pose proof (C24_named_module pre m post i srcs H N E) as B.
  unfold build_search_groups in *. revert B. unfold check_valid. cbn [concat app].
  set (ms := pre ++ m :: post). intros B.
  destruct (assert_ (forallb (legal_key ms) [md_name m])) as [?|?]; cbn [bind] in *; [|discriminate].
  destruct (assert_ _) as [?|?]; cbn [bind] in *; [|discriminate].
  cbn [custom_phase flat_map rev app mapM bind] in *.
  destruct (mapM (lookup_name ms) _) as [ids|] eqn:E1; cbn [bind] in *; [|discriminate].
  destruct (lookup_name ms (md_name m)) as [j|] eqn:E2; cbn [bind fst snd app] in *; [|discriminate].
  destruct (alias_phase _ _ _ _) as [[ga out]|] eqn:E3; cbn [bind fst snd app] in *; [|discriminate].
  destruct (assert_ (nodupb out)); cbn [bind] in *; [|discriminate]. apply Ok_inj in B. injection B as B1 B2. rewrite B1, B2. reflexivity.
Qed.
Theorem C63_empty_group :
  forall g h n, In (n, []) g -> current_choices g h = Raise IndexError.
Proof.
  induction g as [|[n0 l] r IH]; intros h n H; [destruct H|]. cbn [current_choices]. destruct l as [|i l]; [reflexivity|].
  destruct H as [H|H]; [discriminate|]. rewrite (IH h n H). reflexivity.
Qed.
Print Assumptions C62_empty_group.
Print Assumptions C62_later_empty_group.
Print Assumptions C63_empty_group.
Example C62_empty_group_case :
  build_search_groups ex_ms [[]; ["op1"]]%string = Raise GenericException /\
  build_search_groups ex_derived [["k"]; []]%string = Ok [[2]; []; [0]; [1]]%nat /\
  current_choices [("value_0", [2]%nat); ("value_1", [])]%string (fun _ => "8"%string) = Raise IndexError.
Proof. repeat split. Qed.
