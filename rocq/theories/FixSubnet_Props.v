(** C25, C63. *)
From Verif Require Import Prelude Evolution_Model Evolution_Props FixSubnet_Model.
From Coq Require Import Ascii.

(** * Specification *)
(** Renaming all modules of a network. *)
Definition rename (f : string -> string) (m : net) : net := map (fun nk => (f (fst nk), snd nk)) m.
(** [h'] is [h0] with every (not already fixed) mutable of [m] fixed to its choice in [h]. *)
Definition loaded (m : net) (h h0 h' : heap) : Prop :=
  forall i, (In i (map snd (uses m)) -> m_fixed (h0 i) = false -> h' i = {| m_fixed := true; m_choice := m_choice (h i) |}) /\
            (~ In i (map snd (uses m)) \/ m_fixed (h0 i) = true -> h' i = h0 i).

Definition C25_claim : Prop :=
  (forall alias m h h0, NoDup (map fst m) -> exists h', load alias "" "" m (export alias m h) h0 = Ok h' /\ loaded m h h0 h') /\
  (forall alias m h h0 p, NoDup (map fst m) -> p <> ""%string ->
     exists h', load alias p "" (rename (append p) m) (export alias m h) h0 = Ok h' /\ loaded m h h0 h').
Definition ex_heap : heap := fun i => {| m_fixed := false; m_choice := match i with O => "k3" | 1%nat => "k5" | _ => "k7" end |}.
Definition no_alias : nat -> option string := fun _ => None.
(** Two sources of one derived mutable share one key: the second overwrites the first. *)
Theorem C25_derived_refuted : ~ C25_claim.
Proof.
  intros [H _]. destruct (H no_alias [("d"%string, KDerived [0%nat; 1%nat])] ex_heap ex_heap) as (h' & Hl & Hs).
  - repeat constructor; cbn; tauto.
  - destruct (Hs 0%nat) as [H0 _]. specialize (H0 (or_introl eq_refl) eq_refl).
    vm_compute in Hl. apply Ok_inj in Hl. subst h'. vm_compute in H0. discriminate.
Qed.
Print Assumptions C25_derived_refuted.
(** [name.lstrip(prefix)] strips characters, not the prefix: 'backbone.op' becomes 'p'. *)
Theorem C25_prefix_refuted : ~ C25_claim.
Proof.
  intros [_ H]. destruct (H no_alias [("op"%string, KMutable 0%nat)] ex_heap ex_heap "backbone."%string) as (h' & Hl & _).
  - repeat constructor; cbn; tauto.
  - discriminate.
  - vm_compute in Hl. discriminate.
Qed.
Print Assumptions C25_prefix_refuted.

Lemma sget_dget d k : sget d k = dget d k.
Proof. induction d as [|[k0 v] r IH]; cbn; [reflexivity|]. rewrite IH. reflexivity. Qed.

Section Alias.
Variable alias : nat -> option string.
(** Key of a mutable reached under a module name. *)
Definition key (n : string) (i : nat) : string := match alias i with Some a => a | None => n end.
(** Two mutables that are stored under one key have the same choice. *)
Definition consistent (m : net) (h : heap) : Prop :=
  forall n1 i1 n2 i2, In (n1, i1) (uses m) -> In (n2, i2) (uses m) -> key n1 i1 = key n2 i2 -> m_choice (h i1) = m_choice (h i2).

Lemma export_get m h n i : consistent m h -> In (n, i) (uses m) -> sget (export alias m h) (key n i) = Some (m_choice (h i)).
Proof.
  intros Hc. unfold export. rewrite sget_dget.
  assert (Hgen : forall l d, (forall x, In x l -> In x (uses m)) -> In (n, i) (uses m) ->
     (In (n, i) l \/ dget d (key n i) = Some (m_choice (h i))) ->
     dget (fold_left (fun d ni => dput d (match alias (snd ni) with Some a => a | None => fst ni end) (m_choice (h (snd ni)))) l d) (key n i) = Some (m_choice (h i))).
  { induction l as [|[n0 i0] l IH]; intros d Hsub Hin Hor; cbn [fold_left]; [destruct Hor as [[]|Hor]; exact Hor|].
    apply IH; [intros x Hx; apply Hsub; right; exact Hx|exact Hin|]. cbn [fst snd]. rewrite dget_dput. fold (key n0 i0).
    destruct (String.eqb (key n0 i0) (key n i)) eqn:E.
    - right. apply String.eqb_eq in E. f_equal. eapply Hc; [apply Hsub; left; reflexivity|exact Hin|exact E].
    - destruct Hor as [[Hor|Hor]|Hor]; [|left; exact Hor|right; exact Hor].
      inversion Hor; subst. rewrite String.eqb_refl in E. discriminate. }
  intros Hin. apply Hgen; auto.
Qed.

Lemma load_all_spec p e d h : forall l h0,
  (forall n i, In (n, i) l -> sget d (key (load_name p e n) i) = Some (m_choice (h i))) ->
  exists h', load_all alias p e d h0 l = Ok h' /\
    forall i, (In i (map snd l) -> m_fixed (h0 i) = false -> h' i = {| m_fixed := true; m_choice := m_choice (h i) |}) /\
              (~ In i (map snd l) \/ m_fixed (h0 i) = true -> h' i = h0 i).
Proof.
  induction l as [|[n i] r IH]; intros h0 Hk; cbn [load_all].
  - exists h0. split; [reflexivity|]. intros i. cbn. tauto.
  - assert (Hone : load_one alias p e d h0 (n, i) = Ok (if m_fixed (h0 i) then h0 else hset h0 i {| m_fixed := true; m_choice := m_choice (h i) |})).
    { unfold load_one. cbn [fst snd]. specialize (Hk n i (or_introl eq_refl)). unfold key in Hk.
      destruct (alias i) as [a|]; rewrite Hk; cbn; destruct (m_fixed (h0 i)); reflexivity. }
    rewrite Hone. cbn [bind].
    set (h1 := if m_fixed (h0 i) then h0 else hset h0 i {| m_fixed := true; m_choice := m_choice (h i) |}).
    destruct (IH h1) as (h' & El & Hs); [intros n' i' Hin; apply Hk; right; exact Hin|].
    exists h'. split; [exact El|]. intros j. destruct (Hs j) as [Hs1 Hs2]. cbn [map snd].
    assert (H1 : h1 j = if Nat.eqb i j then (if m_fixed (h0 i) then h0 i else {| m_fixed := true; m_choice := m_choice (h i) |}) else h0 j).
    { unfold h1, hset. destruct (Nat.eqb i j) eqn:E.
      - apply Nat.eqb_eq in E. subst j. destruct (m_fixed (h0 i)); [reflexivity|]. rewrite Nat.eqb_refl. reflexivity.
      - destruct (m_fixed (h0 i)); [reflexivity|]. rewrite E. reflexivity. }
    destruct (Nat.eqb i j) eqn:E.
    + apply Nat.eqb_eq in E. subst j. split.
      * intros _ Hf. rewrite Hf in H1. rewrite Hs2 by (right; rewrite H1; reflexivity). exact H1.
      * intros [Hn|Hf]; [exfalso; apply Hn; left; reflexivity|]. rewrite Hf in H1. rewrite Hs2 by (right; rewrite H1; exact Hf). exact H1.
    + apply Nat.eqb_neq in E. rewrite H1 in Hs1, Hs2. split.
      * intros [Hi|Hi] Hf; [congruence|]. apply Hs1; assumption.
      * intros [Hn|Hf]; apply Hs2; [left; intros Hc; apply Hn; right; exact Hc|right; exact Hf].
Qed.
End Alias.

Lemma uses_rename f m : uses (rename f m) = map (fun ni => (f (fst ni), snd ni)) (uses m).
Proof.
  unfold uses, rename. induction m as [|[n k] r IH]; cbn; [reflexivity|]. rewrite IH, map_app. f_equal.
  destruct k; cbn; try reflexivity. rewrite map_map. reflexivity.
Qed.
Lemma snd_rename f m : map snd (uses (rename f m)) = map snd (uses m).
Proof. rewrite uses_rename, map_map. reflexivity. Qed.
Lemma lstrip_all p chars s : (forall c, char_in c p = true -> char_in c chars = true) -> lstrip (append p s) chars = lstrip s chars.
Proof.
  induction p as [|c p IH]; intros H; cbn; [reflexivity|]. rewrite (H c) by (cbn; rewrite Ascii.eqb_refl; reflexivity).
  apply IH. intros d Hd. apply H. cbn. rewrite Hd. apply orb_true_r.
Qed.

(** The first character of [n] is not a character of [p] (so stripping stops at [n]). *)
Definition stops (p n : string) : Prop := match n with EmptyString => True | String c _ => char_in c p = false end.
Lemma lstrip_prefix p n : stops p n -> lstrip (append p n) p = n.
Proof.
  intros H. rewrite lstrip_all by auto. destruct n as [|c n]; cbn; [reflexivity|]. cbn in H. rewrite H. reflexivity.
Qed.

(** C25, proved part: mutables stored under one key agree; prefix stripping does not eat into
    the names. *)
Theorem C25_roundtrip_partial :
  forall alias m h h0, consistent alias m h ->
    (exists h', load alias "" "" m (export alias m h) h0 = Ok h' /\ loaded m h h0 h') /\
    (forall p, p <> ""%string -> (forall n i, In (n, i) (uses m) -> stops p n) ->
       exists h', load alias p "" (rename (append p) m) (export alias m h) h0 = Ok h' /\ loaded m h h0 h').
Proof.
  intros alias m h h0 Hc. split.
  - unfold load. cbn [String.eqb negb andb]. apply load_all_spec. intros n i Hin. unfold load_name. cbn. apply export_get; assumption.
  - intros p Hp Hst. unfold load. rewrite andb_false_r.
    destruct (load_all_spec alias p "" (export alias m h) h (uses (rename (append p) m)) h0) as (h' & El & Hs).
    + intros n i Hin. rewrite uses_rename in Hin. apply in_map_iff in Hin as ([n0 i0] & He & Hin). cbn in He. inversion He; subst.
      unfold load_name. destruct (String.eqb p "") eqn:E; [apply String.eqb_eq in E; congruence|]. cbn [negb].
      rewrite lstrip_prefix by (eapply Hst; exact Hin). apply export_get; assumption.
    + exists h'. split; [exact El|]. unfold loaded. rewrite snd_rename in Hs. exact Hs.
Qed.
Print Assumptions C25_roundtrip_partial.

(** [extra_prefix]: loading a part of the network the dictionary was exported from. *)
Theorem C25_extra_prefix_partial :
  forall alias m h h0 e, consistent alias (rename (append e) m) h ->
    exists h', load alias "" e m (export alias (rename (append e) m) h) h0 = Ok h' /\ loaded m h h0 h'.
Proof.
  intros alias m h h0 e Hc. unfold load. cbn [String.eqb negb andb]. apply load_all_spec. intros n i Hin.
  assert (Hn : load_name "" e n = append e n).
  { unfold load_name. cbn. destruct e; reflexivity. }
  rewrite Hn. apply export_get; [exact Hc|]. rewrite uses_rename. apply in_map_iff. exists (n, i). auto.
Qed.
Print Assumptions C25_extra_prefix_partial.

(** Loading raises if some mutable has no entry, whatever the prefixes. *)
Theorem C25_missing_raises :
  forall alias p e m d h0 n i, In (n, i) (uses m) ->
    sget d (key alias (load_name p e n) i) = None -> exists ex, load alias p e m d h0 = Raise ex.
Proof.
  intros alias p e m d h0 n i Hin Hn. unfold load. destruct (_ && _); [eauto|].
  revert h0 Hin. generalize (uses m) as l. induction l as [|[n0 i0] r IH]; intros h0 Hin; [destruct Hin|]. cbn [load_all].
  destruct Hin as [He|Hin].
  - inversion He; subst. unfold load_one. cbn [fst snd]. unfold key in Hn. destruct (alias i); rewrite Hn; cbn; eauto.
  - destruct (load_one alias p e d h0 (n0, i0)) as [h1|ex]; cbn [bind]; [apply IH; exact Hin|eauto].
Qed.
Print Assumptions C25_missing_raises.

Definition ex_alias : nat -> option string := fun i => if Nat.eqb i 2 then Some "stage"%string else None.
Definition ex_net : net :=
  [("conv1"%string, KMutable 0); ("conv1.c"%string, KContainer); ("op2"%string, KMutable 1);
   ("op3"%string, KMutable 2); ("sum"%string, KDerived [2%nat]); ("relu"%string, KOther)].
Example C25_example :
  export ex_alias ex_net ex_heap = [("conv1", "k3"); ("op2", "k5"); ("stage", "k7")]%string /\
  consistent ex_alias ex_net ex_heap /\
  (forall n i, In (n, i) (uses ex_net) -> stops "m." n).
Proof.
  split; [vm_compute; reflexivity|]. split.
  - intros n1 i1 n2 i2 H1 H2. cbn in H1, H2.
    repeat (destruct H1 as [H1|H1]; [inversion H1; subst; clear H1|]); try destruct H1;
    repeat (destruct H2 as [H2|H2]; [inversion H2; subst; clear H2|]); try destruct H2; cbn; intros E; try discriminate; reflexivity.
  - intros n i H. cbn in H. repeat (destruct H as [H|H]; [inversion H; subst; reflexivity|]). destruct H.
Qed.

(** * C63: choices of search groups *)
(** If every mutable is in one group and no group is empty, setting the choices makes all
    mutables of a group take that group's choice, leaves all others alone, and reading the
    choices returns what was set. *)
Lemma cset_fold c l : forall h i, fold_left (fun h i => cset h i c) l h i = if existsb (Nat.eqb i) l then c else h i.
Proof.
  induction l as [|j l IH]; intros h i; cbn; [reflexivity|]. rewrite IH. unfold cset. rewrite (Nat.eqb_sym i j).
  destruct (Nat.eqb j i), (existsb (Nat.eqb i) l); reflexivity.
Qed.
Theorem C63_set_choices :
  forall (g : groups) choices h,
    NoDup (map fst g) -> NoDup (concat (map snd g)) -> (forall n l, In (n, l) g -> l <> []) ->
    (forall n, In n (map fst g) -> sget choices n <> None) ->
    exists h', set_choices g choices h = Ok h' /\
      (forall n l i, In (n, l) g -> In i l -> sget choices n = Some (h' i)) /\
      (forall i, ~ In i (concat (map snd g)) -> h' i = h i) /\
      exists cur, current_choices g h' = Ok cur /\ map fst cur = map fst g /\
        (forall n, In n (map fst g) -> sget cur n = sget choices n).
Proof.
  intros g choices h Hn Hd Hne Hk.
  assert (Hset : forall g h, NoDup (concat (map snd g)) -> (forall n, In n (map fst g) -> sget choices n <> None) ->
     exists h', set_choices g choices h = Ok h' /\
      (forall n l i, In (n, l) g -> In i l -> sget choices n = Some (h' i)) /\
      (forall i, ~ In i (concat (map snd g)) -> h' i = h i)).
  { clear. induction g as [|[n l] r IH]; intros h Hd Hk; cbn [set_choices].
    - exists h. split; [reflexivity|]. split; [intros ? ? ? []|reflexivity].
    - destruct (sget choices n) as [c|] eqn:Ec; [|exfalso; eapply Hk; [left; reflexivity|exact Ec]].
      cbn in Hd. assert (Hr : NoDup (concat (map snd r)) /\ forall i, In i l -> ~ In i (concat (map snd r))).
      { revert Hd. generalize (concat (map snd r)) as b. clear. intros b. induction l as [|x l IH]; cbn; intros H; [split; [exact H|tauto]|].
        inversion H; subst. destruct (IH H3) as [A B]. split; [exact A|]. intros i [<-|Hi]; [intros Hb; apply H2, in_app_iff; auto|auto]. }
      destruct Hr as [Hr1 Hr2].
      destruct (IH (fold_left (fun h i => cset h i c) l h) Hr1) as (h' & E & A & B); [intros k Hin; apply Hk; right; exact Hin|].
      exists h'. split; [exact E|]. split.
      + intros n' l' i [He|Hin] Hi; [|eauto]. inversion He; subst. rewrite (B i) by (apply Hr2; exact Hi). rewrite cset_fold.
        assert (Hx : existsb (Nat.eqb i) l' = true) by (apply existsb_exists; exists i; split; [exact Hi|apply Nat.eqb_refl]). rewrite Hx. exact Ec.
      + intros i Hi. cbn in Hi. rewrite in_app_iff in Hi. rewrite B by tauto. rewrite cset_fold.
        destruct (existsb (Nat.eqb i) l) eqn:Hx; [|reflexivity]. apply existsb_exists in Hx as (j & Hj & He). apply Nat.eqb_eq in He. subst j. tauto. }
  destruct (Hset g h Hd Hk) as (h' & E & A & B). exists h'. split; [exact E|]. split; [exact A|]. split; [exact B|].
  clear E B Hset Hd. revert A Hn Hne. induction g as [|[n l] r IH]; intros A Hn Hne.
  - exists []. cbn. split; [reflexivity|]. split; [reflexivity|tauto].
  - cbn in Hn. apply NoDup_cons_iff in Hn as [Hn1 Hn2]. destruct IH as (cur & Ec & Ef & Eg); auto.
    { intros k Hin. apply Hk. right. exact Hin. }
    { intros n' l' i Hin Hi. apply (A n' l' i); [right; exact Hin|exact Hi]. }
    { intros n' l' Hin. apply (Hne n' l'). right. exact Hin. }
    destruct l as [|i l]; [exfalso; exact (Hne n [] (or_introl eq_refl) eq_refl)|]. cbn [current_choices]. rewrite Ec. cbn [bind].
    exists ((n, h' i) :: cur). split; [reflexivity|]. cbn [map fst]. split; [f_equal; exact Ef|].
    intros k [<-|Hin]; cbn [sget].
    + rewrite String.eqb_refl. symmetry. apply (A n (i :: l) i); [left; reflexivity|left; reflexivity].
    + destruct (String.eqb n k) eqn:Ek; [apply String.eqb_eq in Ek; subst; tauto|]. apply Eg. exact Hin.
Qed.
Print Assumptions C63_set_choices.
(** A missing group raises KeyError. *)
Theorem C63_missing_group :
  forall (g : groups) choices h n, In n (map fst g) -> sget choices n = None -> set_choices g choices h = Raise KeyError.
Proof.
  induction g as [|[n0 l] r IH]; intros choices h n Hin Hc; [destruct Hin|]. cbn [set_choices]. destruct Hin as [<-|Hin].
  - cbn [fst] in Hc. rewrite Hc. reflexivity.
  - destruct (sget choices n0); [eapply IH; eassumption|reflexivity].
Qed.
Print Assumptions C63_missing_group.
(** A mutable that is in two groups (see C24_derived_refuted) breaks the round trip. *)
Definition C63_claim_shared : Prop :=
  forall (g : groups) choices h h' n l i, NoDup (map fst g) -> set_choices g choices h = Ok h' ->
    In (n, l) g -> In i l -> sget choices n = Some (h' i).
Theorem C63_shared_refuted : ~ C63_claim_shared.
Proof.
  intros H.
  set (g := [("value_0"%string, [0%nat]); ("value_1"%string, [0%nat])]).
  set (h' := cset (cset (fun _ => ""%string) 0%nat "4"%string) 0%nat "8"%string).
  assert (Hn : NoDup (map fst g)) by (cbn; repeat constructor; cbn; intuition discriminate).
  specialize (H g [("value_0", "4"); ("value_1", "8")]%string (fun _ => ""%string) h' "value_0"%string [0%nat] 0%nat Hn eq_refl (or_introl eq_refl) (or_introl eq_refl)).
  vm_compute in H. discriminate.
Qed.
Print Assumptions C63_shared_refuted.
Example C63_example :
  let g := [("value_0", [0; 3]%nat); ("module_1", [1]%nat)]%string in
  exists h', set_choices g [("module_1", "conv3"); ("value_0", "8")]%string (fun _ => "old"%string) = Ok h' /\
    map h' [0; 1; 2; 3]%nat = ["8"; "conv3"; "old"; "8"]%string /\
    current_choices g h' = Ok [("value_0", "8"); ("module_1", "conv3")]%string.
Proof. cbv zeta. eexists. split; [reflexivity|]. split; reflexivity. Qed.
