(** C02 - A channel container's mask lays out its registered mutables.
    C55 - Reading a container's mask has no side effect on later registrations. *)
From Verif Require Import Prelude IndexDict_Model IndexDict_Lemmas Container_Model Container_Lemmas.
From Coq Require Import Sorting.Sorted Sorting.Permutation.

(** ** Specification *)

(** [m] is the mask of a container of [n] channels in which mutable [id] is stored
    over [s, e) for every ((s,e),id) in [regs], [env id] being that mutable's mask. *)
Definition mask_layout (n : Z) (regs : (Z * Z) -> nat -> Prop)
           (env : nat -> list bool) (m : list bool) : Prop :=
  Z.of_nat (length m) = n /\
  (forall s e id i, regs (s, e) id -> s <= i < e ->
     0 <= i /\ nth_error m (Z.to_nat i) = nth_error (env id) (Z.to_nat (i - s))) /\
  (forall i, 0 <= i < n ->
     (forall s e id, regs (s, e) id -> ~ (s <= i < e)) ->
     nth_error m (Z.to_nat i) = Some true).

(** Mutable [id] is stored over the range [k] in container [c]. *)
Definition stored (c : container) (k : Z * Z) (id : nat) : Prop :=
  In (k, Reg id) (slots c).

(** Every stored mutable has as many channels as the range it is stored over. *)
Definition sizes_match (c : container) (env : nat -> list bool) : Prop :=
  forall s e id, stored c (s, e) id -> Z.of_nat (length (env id)) = e - s.

(** The full claim: for any registration history whose stored ranges lie in [0, n)
    and do not overlap, reading the mask succeeds with the right layout. *)
Definition C02_claim : Prop :=
  forall n rs env,
    let c := register_all n rs in
    0 <= n -> sizes_match c env ->
    (forall s e id, stored c (s, e) id -> 0 <= s /\ e <= n) ->
    (forall s1 e1 i1 s2 e2 i2 x, stored c (s1, e1) i1 -> stored c (s2, e2) i2 ->
       s1 <= x < e1 -> s2 <= x < e2 -> (s1, e1) = (s2, e2)) ->
    exists c' m, current_mask env c = Ok (c', m) /\ mask_layout n (stored c) env m.

(** ** Theorems *)

(** The code violates the claim: 6 channels, one mutable over [2,6): raises. *)
Lemma C02_witness : forall env,
  current_mask env (register_all 6 [(0%nat, (2, 6))]) = Raise RuntimeError.
Proof. intros env. vm_compute. reflexivity. Qed.

Theorem C02_mask_layout_refuted : ~ C02_claim.
Proof.
  intros H. specialize (H 6 [(0%nat, (2, 6))] (fun _ => repeat true 4)).
  assert (Hs : forall s e id, stored (register_all 6 [(0%nat, (2, 6))]) (s, e) id ->
                s = 2 /\ e = 6).
  { intros s e id Hin. cbv in Hin. destruct Hin as [Heq|[]]. inversion Heq; auto. }
  cbv zeta in H. destruct H as (c' & m & Hr & _).
  - lia.
  - intros s e id Hin. apply Hs in Hin as [-> ->]. reflexivity.
  - intros s e id Hin. apply Hs in Hin as [-> ->]. lia.
  - intros s1 e1 i1 s2 e2 i2 x H1 H2 _ _. apply Hs in H1 as [-> ->].
    apply Hs in H2 as [-> ->]. reflexivity.
  - rewrite C02_witness in Hr. discriminate.
Qed.
Print Assumptions C02_mask_layout_refuted.

(** Whatever the registration history (overlaps and gaps included): if reading the
    mask returns at all, the mask is right. *)
Theorem C02_mask_layout_sound :
  forall n rs env c' m,
    let c := register_all n rs in
    0 <= n -> sizes_match c env ->
    current_mask env c = Ok (c', m) ->
    mask_layout n (stored c) env m.
Proof.
  intros n rs env c' m c Hn Hsz H. unfold current_mask in H.
  destruct (Nat.eqb (length (slots c)) 0) eqn:E.
  - inversion H; subst c' m. apply Nat.eqb_eq in E. unfold c.
    rewrite register_all_num. unfold stored. fold c.
    assert (Hnil : slots c = []) by (destruct (slots c); [reflexivity|discriminate]).
    rewrite Hnil. split; [rewrite repeat_length; lia|]. split; [intros s e id i []|].
    intros i Hi _. apply nth_error_repeat. lia.
  - apply bind_ok in H as [c1 [Hf H]]. apply bind_ok in H as [u [Hv H]].
    inversion H; subst c1 m; clear H.
    apply fill_spec in Hf as [Hnum [new [Hp Hnew]]].
    unfold assert_mutables_valid in Hv.
    apply bind_ok in Hv as [u1 [_ Hv]]. apply bind_ok in Hv as [last [Hc Hl]].
    apply assert_ok in Hl. apply Z.eqb_eq in Hl. subst last.
    pose proof (register_all_regs n rs) as Hregs. fold c in Hregs.
    assert (Hlen : forall s e v, In ((s, e), v) (slots c') ->
              s < e /\ length (slot_mask env v) = Z.to_nat (e - s)).
    { intros s e v Hin. apply (Permutation_in _ Hp) in Hin. apply in_app_or in Hin.
      destruct Hin as [Hin|Hin].
      - apply Hnew in Hin as [-> Hlt]. split; [exact Hlt|]. cbn. apply repeat_length.
      - pose proof (Hregs _ _ _ Hin) as [Hlt [id ->]]. split; [exact Hlt|].
        cbn [slot_mask]. pose proof (Hsz _ _ _ Hin). lia. }
    destruct (concat_slots env (slots c') 0 _ Hc Hlen) as (Hge & Hl & Hin' & Hcov).
    assert (Hnc : num_channels c' = n) by (rewrite Hnum; apply register_all_num).
    rewrite Hnc in *. split; [rewrite Hl; lia|]. split.
    + intros s e id i Hst Hi.
      assert (Hin : In ((s, e), Reg id) (slots c')).
      { eapply Permutation_in; [symmetry; exact Hp|]. apply in_or_app. right; exact Hst. }
      destruct (Hin' _ _ _ _ Hin Hi) as [Hb Hnth]. split; [lia|].
      rewrite Z.sub_0_r in Hnth. exact Hnth.
    + intros i Hi Hun. destruct (Hcov i Hi) as (s & e & v & Hin & Hr).
      destruct (Hin' _ _ _ _ Hin Hr) as [_ Hnth]. rewrite Z.sub_0_r in Hnth. rewrite Hnth.
      apply (Permutation_in _ Hp) in Hin. apply in_app_or in Hin. destruct Hin as [Hin|Hin].
      * apply Hnew in Hin as [-> Hlt]. cbn. apply nth_error_repeat. lia.
      * pose proof (Hregs _ _ _ Hin) as [_ [id ->]]. exfalso. exact (Hun s e id Hin Hr).
Qed.
Print Assumptions C02_mask_layout_sound.
Example C02_sound_example :
  exists c', current_mask (fun id => match id with O => [true; false; true] | _ => [false; true] end)
    (register_all 7 [(1%nat, (3, 5)); (0%nat, (0, 3))])
  = Ok (c', [true; false; true; false; true; true; true]).
Proof. eexists. vm_compute. reflexivity. Qed.

(** Reading succeeds, with the right layout, when the stored ranges tile a prefix
    [0, b) of the channels.  Missing compared to [C02_claim]: layouts with a gap
    before or between stored ranges (the code raises there). *)
Definition tiles_prefix (ks : list (Z * Z)) (b : Z) : Prop :=
  (ks = [] /\ b = 0) \/
  (exists e, nth_error ks 0 = Some (0, e)) /\
  (forall j s1 e1 s2 e2, nth_error ks j = Some (s1, e1) ->
     nth_error ks (S j) = Some (s2, e2) -> s2 = e1) /\
  (forall j s e, nth_error ks j = Some (s, e) -> S j = length ks -> e = b).

Lemma tiles_contiguous ks a b :
  (ks = [] -> a = b) ->
  (forall s e, nth_error ks 0 = Some (s, e) -> s = a) ->
  (forall j s1 e1 s2 e2, nth_error ks j = Some (s1, e1) ->
     nth_error ks (S j) = Some (s2, e2) -> s2 = e1) ->
  (forall j s e, nth_error ks j = Some (s, e) -> S j = length ks -> e = b) ->
  contiguous_from ks a = Ok b.
Proof.
  revert a; induction ks as [|[s e] r IH]; intros a H0 H1 H2 H3; cbn [contiguous_from].
  - f_equal; auto.
  - rewrite (H1 s e eq_refl), Z.eqb_refl. cbn [bind assert_]. apply IH.
    + intros ->. apply (H3 0%nat s e); reflexivity.
    + intros s2 e2 Hn. apply (H2 0%nat s e s2 e2); [reflexivity|exact Hn].
    + intros j s1 e1 s2 e2 Ha Hb. apply (H2 (S j) s1 e1 s2 e2); assumption.
    + intros j s1 e1 Ha Hb. apply (H3 (S j) s1 e1); [exact Ha|cbn; congruence].
Qed.

Theorem C02_mask_layout_partial :
  forall n rs env b,
    let c := register_all n rs in
    0 <= n -> sizes_match c env ->
    tiles_prefix (map fst (slots c)) b -> b <= n ->
    exists c' m, current_mask env c = Ok (c', m) /\ mask_layout n (stored c) env m.
Proof.
  intros n rs env b c Hn Hsz Ht Hb.
  assert (Hex : exists c' m, current_mask env c = Ok (c', m)).
  { unfold current_mask. destruct (Nat.eqb (length (slots c)) 0) eqn:E; [eauto|].
    assert (Hc : contiguous_from (keys (slots c)) 0 = Ok b).
    { unfold keys. destruct Ht as [[Hnil Hz]|(Hz & Hcons & Hlast)].
      - rewrite Hnil. cbn. congruence.
      - apply tiles_contiguous; auto.
        + intros Hnil. rewrite Hnil in Hz. destruct Hz as [e Hz]. discriminate.
        + intros s e Hs. destruct Hz as [e' Hz]. congruence. }
    pose proof (register_all_regs n rs) as Hregs. fold c in Hregs.
    destruct (fill_contig c b Hc) as (c' & Hf & Hnum & Hc' & Hsl).
    - intros s e v Hin. apply (Hregs _ _ _ Hin).
    - unfold c. rewrite register_all_num. exact Hb.
    - rewrite Hf. cbn [bind]. unfold assert_mutables_valid.
      assert (En : Nat.eqb (length (slots c')) 0 = false).
      { rewrite Hsl, app_length. apply Nat.eqb_neq in E. apply Nat.eqb_neq. lia. }
      rewrite En, Hc', Hnum. cbn [bind negb assert_]. rewrite Z.eqb_refl. cbn [bind assert_]. eauto. }
  destruct Hex as (c' & m & Hr). exists c', m. split; [exact Hr|].
  exact (C02_mask_layout_sound n rs env c' m Hn Hsz Hr).
Qed.
Print Assumptions C02_mask_layout_partial.
Example C02_partial_example :
  tiles_prefix (map fst (slots (register_all 7 [(1%nat, (3, 5)); (0%nat, (0, 3))]))) 5.
Proof.
  right. vm_compute slots. split; [exists 3; reflexivity|]. split.
  - intros [|[|[|j]]] s1 e1 s2 e2; cbn; intros H1 H2; try discriminate; congruence.
  - intros [|[|[|j]]] s e; cbn; intros H1 H2; try discriminate; congruence.
Qed.

(** ** C55 - reading is free of side effects on later registrations. *)
Definition C55_claim : Prop :=
  forall n rs env c' m id s e,
    current_mask env (register_all n rs) = Ok (c', m) ->
    (exists c1, register (register_all n rs) (Reg id) s e = Ok c1) ->
    exists c2, register c' (Reg id) s e = Ok c2.

(** 10 channels, a mutable over [0,5), read the mask, then register over [5,10). *)
Theorem C55_read_then_register_refuted : ~ C55_claim.
Proof.
  intros H.
  destruct (H 10 [(0%nat, (0, 5))] (fun _ => repeat true 5)
              {| num_channels := 10; slots := [((0, 5), Reg 0); ((5, 10), Filled 5)] |}
              (repeat true 10) 1%nat 5 10) as [c2 Hc2].
  - vm_compute. reflexivity.
  - eexists. vm_compute. reflexivity.
  - vm_compute in Hc2. discriminate.
Qed.
Print Assumptions C55_read_then_register_refuted.

(** What holds: reading never changes what later reads return, and never changes
    which mutables are stored where. *)
Theorem C55_read_then_read_partial :
  forall n rs env env' c' m,
    let c := register_all n rs in
    0 <= n -> sizes_match c env' ->
    current_mask env c = Ok (c', m) ->
    (forall k id, stored c' k id <-> stored c k id) /\
    (exists m', current_mask env' c' = Ok (c', m')) /\
    (forall m', current_mask env' c' = Ok (c', m') -> exists c'',
        current_mask env' c = Ok (c'', m')).
Proof.
  intros n rs env env' c' m c Hn Hsz H. unfold current_mask in H.
  destruct (Nat.eqb (length (slots c)) 0) eqn:E.
  - inversion H; subst c' m. split; [tauto|]. unfold current_mask. rewrite E.
    split; [eauto|]. intros m' Hm. exists c. exact Hm.
  - apply bind_ok in H as [c1 [Hf H]]. apply bind_ok in H as [u [Hv H]].
    inversion H; subst c1 m; clear H.
    assert (Hread : forall ev, current_mask ev c
       = Ok (c', concat (map (fun kv => slot_mask ev (snd kv)) (slots c')))).
    { intros ev. unfold current_mask. rewrite E, Hf. cbn [bind]. rewrite Hv. reflexivity. }
    pose proof Hf as Hf0.
    apply fill_spec in Hf as [Hnum [new [Hp Hnew]]].
    pose proof Hv as Hv0. unfold assert_mutables_valid in Hv.
    apply bind_ok in Hv as [u1 [Hne Hv]]. apply bind_ok in Hv as [last [Hc Hl]].
    apply assert_ok in Hl. apply Z.eqb_eq in Hl. subst last.
    pose proof (register_all_regs n rs) as Hregs. fold c in Hregs.
    assert (Hlt : forall s e v, In ((s, e), v) (slots c') -> s < e).
    { intros s e v Hin. apply (Permutation_in _ Hp) in Hin. apply in_app_or in Hin.
      destruct Hin as [Hin|Hin]; [apply Hnew in Hin; tauto|apply Hregs in Hin; tauto]. }
    assert (Hread' : forall ev, current_mask ev c'
       = Ok (c', concat (map (fun kv => slot_mask ev (snd kv)) (slots c')))).
    { intros ev. unfold current_mask. apply assert_ok in Hne.
      apply negb_true_iff in Hne. rewrite Hne.
      destruct (fill_contig c' (num_channels c') Hc Hlt) as (c2 & Hf2 & Hn2 & _ & Hs2); [lia|].
      assert (Eirr : (num_channels c' <? num_channels c') = false) by lia.
      rewrite Eirr, app_nil_r in Hs2.
      assert (c2 = c') by (destruct c2, c'; cbn in *; congruence). subst c2.
      rewrite Hf2. cbn [bind]. rewrite Hv0. reflexivity. }
    split; [|split].
    + intros [s e] id. unfold stored. split; intros Hin.
      * apply (Permutation_in _ Hp) in Hin. apply in_app_or in Hin.
        destruct Hin as [Hin|Hin]; [apply Hnew in Hin as [Hx _]; discriminate|exact Hin].
      * eapply Permutation_in; [symmetry; exact Hp|]. apply in_or_app; right; exact Hin.
    + eexists. apply Hread'.
    + intros m' Hm'. rewrite Hread' in Hm'. inversion Hm'; subst. exists c'. apply Hread.
Qed.
Print Assumptions C55_read_then_read_partial.
Example C55_partial_example :
  current_mask (fun _ => [true; false]) (register_all 4 [(0%nat, (0, 2))])
  = Ok ({| num_channels := 4; slots := [((0, 2), Reg 0); ((2, 4), Filled 2)] |},
        [true; false; true; true]).
Proof. vm_compute. reflexivity. Qed.
