(** C08 - a derived mutable's mask agrees with its choice.
    C59 - a derived mutable follows its source mutables. *)
From Verif Require Import Prelude PyNum Channel_Model Channel_Lemmas Divisible_Model
  Divisible_Props Derived_Model.
From Coq Require Import Qround Lqa.
Ltac Zify.zify_post_hook ::= Z.div_mod_to_equations.

(** Induction over derived expressions, through concatenations. *)
Lemma dexpr_ind' (P : dexpr -> Prop) :
  (forall i, P (DChan i)) ->
  (forall e r, P e -> P (DExpandInt e r)) ->
  (forall e r, P e -> P (DExpandFloat e r)) ->
  (forall i j, P (DMulValue i j)) ->
  (forall e r c m, P e -> P (DDivide e r c m)) ->
  (forall es, Forall P es -> P (DConcat es)) ->
  forall e, P e.
Proof.
  intros H1 H2 H3 H4 H5 H6.
  fix IH 1. intros [i|e r|e r|i j|e r c m|es].
  - apply H1. - apply H2, IH. - apply H3, IH. - apply H4. - apply H5, IH.
  - apply H6. induction es as [|e es IHes]; constructor; [apply IH|exact IHes].
Qed.

(** make_divisible with the default minimum is monotone. *)
Lemma md_mono d a b ra rb :
  0 < d -> 0 <= a <= b ->
  make_divisible a d None (9 # 10) = Ok ra -> make_divisible b d None (9 # 10) = Ok rb ->
  0 <= ra <= rb.
Proof.
  intros Hd Hab Ha Hb. rewrite md_unfold in * by exact Hd.
  apply Ok_inj in Ha as Ha'. apply Ok_inj in Hb as Hb'. clear Ha Hb. cbv zeta in *.
  assert (Hm : eff_min None d = d) by (unfold eff_min; lia). rewrite Hm in *.
  destruct (round_bounds a d Hd ltac:(lia)) as (A1 & A2 & A3 & A4).
  destruct (round_bounds b d Hd ltac:(lia)) as (B1 & B2 & B3 & B4).
  assert (HR : Z.quot (2 * a + d) 2 / d * d <= Z.quot (2 * b + d) 2 / d * d).
  { apply Z.mul_le_mono_nonneg_r; [lia|]. apply Z.div_le_mono; [lia|].
    apply Z.quot_le_mono; lia. }
  assert (Hda : (d | Z.quot (2 * a + d) 2 / d * d)) by apply Z.divide_factor_r.
  assert (Hdb : (d | Z.quot (2 * b + d) 2 / d * d)) by apply Z.divide_factor_r.
  set (A := Z.quot (2 * a + d) 2 / d * d) in *. set (B := Z.quot (2 * b + d) 2 / d * d) in *.
  assert (HdA : (d | Z.max d A)) by (apply Z.max_case; [apply Z.divide_refl|exact Hda]).
  assert (HdB : (d | Z.max d B)) by (apply Z.max_case; [apply Z.divide_refl|exact Hdb]).
  assert (HN : Z.max d A <= Z.max d B) by lia.
  assert (H0A : d <= Z.max d A) by lia.
  clearbody A B. set (NA := Z.max d A) in *. set (NB := Z.max d B) in *. clearbody NA NB.
  clear A B A1 A2 A3 A4 B1 B2 B3 B4 HR Hda Hdb Hm.
  destruct (Qle_bool ((9 # 10) * inject_Z a) (inject_Z NA)) eqn:EA; cbn [negb] in *.
  - destruct (Qle_bool _ (inject_Z NB)); cbn [negb] in *; lia.
  - assert (Hbump : NA < NB \/ NA = NB) by lia. destruct Hbump as [Hlt|Heq]; [|subst NA].
    + assert (NA + d <= NB).
      { destruct HdA as [p Hp]. destruct HdB as [q Hq]. subst NA NB.
        assert (p < q) by (apply Z.mul_lt_mono_pos_r with d; lia).
        assert ((p + 1) * d <= q * d) by (apply Z.mul_le_mono_nonneg_r; lia). lia. }
      destruct (Qle_bool _ (inject_Z NB)); cbn [negb] in *; lia.
    + destruct (Qle_bool ((9 # 10) * inject_Z b) (inject_Z NB)) eqn:EB; cbn [negb] in *; [|lia].
      exfalso. apply Qle_bool_iff in EB.
      assert (Hc : ((9 # 10) * inject_Z a <= inject_Z NB)%Q).
      { apply Qle_trans with ((9 # 10) * inject_Z b)%Q; [|exact EB].
        rewrite Qmult_comm, (Qmult_comm (9 # 10)). apply Qmult_le_compat_r; [|discriminate].
        rewrite <- Zle_Qle. lia. }
      apply Qle_bool_iff in Hc. congruence.
Qed.

Section C08.
Variable rmul : Z -> Q -> Z.
(** Rounding of products is monotone in both factors and nonnegative on nonnegatives:
    true of exact and of IEEE arithmetic. *)
Hypothesis rmul_mono : forall a b q r, 0 <= a <= b -> (0 <= q)%Q -> (q <= r)%Q ->
  0 <= rmul a q <= rmul b r.

(** Mask and choice agree: as many active entries as the choice says. *)
Definition agrees (s : store) (e : dexpr) : Prop :=
  forall m, dmask rmul s e = Ok m -> dchoice rmul s e = Ok (Z.of_nat (count_true m)).

(** The claim: any derived mutable whose closures evaluate has an agreeing mask. *)
Definition C08_claim : Prop :=
  forall s i r d, (0 < d) -> agrees s (derive_divide s (DChan i) r d).

(** Ratios are positive and current value choices do not exceed the maximal one. *)
Fixpoint sane (s : store) (e : dexpr) : Prop :=
  match e with
  | DChan _ => True
  | DExpandInt e r => 0 <= r /\ sane s e
  | DExpandFloat e r => (0 <= r)%Q /\ sane s e
  | DMulValue i j => (0 <= fst (value s j))%Q /\ (fst (value s j) <= snd (value s j))%Q
  | DDivide e ratio cdiv mdiv => 0 < ratio /\ 0 < cdiv /\ cdiv = mdiv /\ sane s e
  | DConcat es => fold_right (fun e acc => sane s e /\ acc) True es
  end.

Lemma new_mask_ok size c m :
  new_mask size c = Ok m -> 0 <= c <= size ->
  Z.of_nat (count_true m) = c /\ Z.of_nat (length m) = size.
Proof.
  unfold new_mask. intros H Hc. destruct (size <? 0) eqn:E; [discriminate|].
  inversion H; subst. rewrite leading_count, leading_length, slice_stop_in by lia. lia.
Qed.

Lemma div_mono d ratio a b ra rb :
  0 < d -> 0 < ratio -> 0 <= a <= b ->
  divide_and_divise a ratio d = Ok ra -> divide_and_divise b ratio d = Ok rb -> 0 <= ra <= rb.
Proof.
  intros Hd Hr Hab Ha Hb. unfold divide_and_divise in *.
  assert (E : (ratio =? 0) = false) by lia. rewrite E in *.
  eapply md_mono; [exact Hd| |exact Ha|exact Hb]. split.
  - apply Z.div_pos; lia.
  - apply Z.div_le_mono; lia.
Qed.

Lemma derived_sound s e :
  sane s e -> forall m, dmask rmul s e = Ok m ->
  dchoice rmul s e = Ok (Z.of_nat (count_true m)).
Proof.
  induction e as [i|e r IH|e r IH|i j|e ratio c md IH|es IH] using dexpr_ind'; intros Hs m Hm;
    cbn [dmask dchoice sane] in *.
  - inversion Hm; subst. rewrite leading_count. reflexivity.
  - destruct Hs as [Hr Hs]. destruct (dmask rmul s e) as [m0|] eqn:E; [|discriminate].
    specialize (IH Hs m0 eq_refl). rewrite IH in *. cbn [bind] in *.
    apply new_mask_ok in Hm as [H1 _]; [rewrite H1; reflexivity|].
    pose proof (count_true_le m0). nia.
  - destruct Hs as [Hr Hs]. destruct (dmask rmul s e) as [m0|] eqn:E; [|discriminate].
    specialize (IH Hs m0 eq_refl). rewrite IH in *. cbn [bind] in *.
    apply new_mask_ok in Hm as [H1 _]; [rewrite H1; reflexivity|].
    apply rmul_mono; [|exact Hr|apply Qle_refl]. pose proof (count_true_le m0). lia.
  - destruct Hs as [H0 H1].
    apply new_mask_ok in Hm as [H2 _]; [rewrite H2; reflexivity|].
    apply rmul_mono; auto. pose proof (slice_stop_le (fst (chan s i)) (snd (chan s i))). lia.
  - destruct Hs as (Hr & Hc & <- & Hs). destruct (dmask rmul s e) as [m0|] eqn:E; [|discriminate].
    specialize (IH Hs m0 eq_refl). rewrite IH in *. cbn [bind] in *.
    destruct (divide_and_divise (Z.of_nat (length m0)) ratio c) as [sz|] eqn:Es; [|discriminate].
    cbn [bind] in Hm.
    destruct (divide_and_divise (Z.of_nat (count_true m0)) ratio c) as [ch|] eqn:Ec; [|discriminate].
    cbn [bind] in *. apply new_mask_ok in Hm as [H1 _]; [rewrite H1; reflexivity|].
    eapply div_mono; [exact Hc|exact Hr| |exact Ec|exact Es].
    pose proof (count_true_le m0). lia.
  - assert (G : forall es, Forall (fun e => sane s e -> forall m, dmask rmul s e = Ok m ->
                   dchoice rmul s e = Ok (Z.of_nat (count_true m))) es ->
              fold_right (fun e acc => sane s e /\ acc) True es ->
              forall m, fold_right (fun x acc => do a <- x; do b <- acc; Ok (a ++ b)) (Ok [])
                          (map (dmask rmul s) es) = Ok m ->
              osum (map (dchoice rmul s) es) = Ok (Z.of_nat (count_true m))).
    { clear. induction es as [|e es IHes]; intros HF Hs m Hm; cbn in *.
      - inversion Hm; subst. reflexivity.
      - inversion HF as [|? ? He HFs]; subst. destruct Hs as [Hse Hss].
        destruct (dmask rmul s e) as [me|] eqn:Ee; [|discriminate]. cbn in Hm.
        destruct (fold_right _ _ _) as [mr|] eqn:Er in Hm; [|discriminate]. cbn in Hm.
        inversion Hm; subst. rewrite (He Hse me eq_refl). cbn.
        change (fold_right (fun x acc => do a <- x; do b <- acc; Ok (a + b)) (Ok 0)
          (map (dchoice rmul s) es)) with (osum (map (dchoice rmul s) es)).
        rewrite (IHes HFs Hss mr Er). cbn. rewrite count_true_app. f_equal. lia. }
    destruct es as [|e es]; [discriminate|]. exact (G (e :: es) IH Hs m Hm).
Qed.

(** Any nesting of expansions, integer divisions, channel*value products and
    concatenations has an agreeing mask.  Missing compared to the claim: divisions whose
    ratio is a float or a mutable. *)
Theorem C08_mask_agrees_partial :
  forall s e m, sane s e -> dmask rmul s e = Ok m ->
    dchoice rmul s e = Ok (Z.of_nat (count_true m)).
Proof. intros s e m Hs Hm. exact (derived_sound s e Hs m Hm). Qed.

(** Concatenation concatenates the source masks in order. *)
Theorem C08_concat_masks :
  forall s es ms, es <> [] -> mapM (dmask rmul s) es = Ok ms ->
    dmask rmul s (DConcat es) = Ok (concat ms).
Proof.
  intros s es ms Hne H. cbn [dmask].
  assert (G : forall es ms, mapM (dmask rmul s) es = Ok ms ->
     fold_right (fun x acc => do a <- x; do b <- acc; Ok (a ++ b)) (Ok [])
       (map (dmask rmul s) es) = Ok (concat ms)).
  { clear. induction es as [|e es IH]; intros ms H; cbn in *; [inversion H; reflexivity|].
    destruct (dmask rmul s e) as [m|]; [|discriminate]. cbn in *.
    destruct (mapM (dmask rmul s) es) as [mr|]; [|discriminate]. cbn in H. inversion H; subst.
    rewrite (IH mr eq_refl). reflexivity. }
  destruct es as [|e es]; [congruence|]. exact (G _ _ H).
Qed.
End C08.
Print Assumptions C08_mask_agrees_partial.
Print Assumptions C08_concat_masks.

(** Exact products, as an instance of [rmul]. *)
Definition exact_rmul (k : Z) (q : Q) : Z := Qtrunc (inject_Z k * q).
Lemma exact_rmul_mono : forall a b q r, 0 <= a <= b -> (0 <= q)%Q -> (q <= r)%Q ->
  0 <= exact_rmul a q <= exact_rmul b r.
Proof.
  intros a b [qn qd] [rn rd] Hab Hq Hqr. unfold exact_rmul, Qtrunc, Qle in *. cbn in *.
  rewrite !Z.quot_div_nonneg by nia. split; [apply Z.div_pos; nia|].
  apply Z.div_le_lower_bound; [lia|].
  pose proof (Z.mul_div_le (a * qn) (Zpos qd) ltac:(lia)) as H.
  assert (Hnn : 0 <= a * qn / Zpos qd) by (apply Z.div_pos; nia).
  set (x := a * qn / Zpos qd) in *.
  assert (Hx : Zpos qd * x * Zpos rd <= a * qn * Zpos rd) by nia.
  assert (Hy : a * (qn * Zpos rd) <= b * (rn * Zpos qd)) by nia.
  assert (Hz : Zpos qd * (Zpos rd * x) <= Zpos qd * (b * rn)) by nia.
  apply Z.mul_le_mono_pos_l in Hz; lia.
Qed.

Definition s0 : store :=
  {| chan := fun i => match i with O => (24%nat, 24) | _ => (16%nat, 10) end;
     value := fun _ => (2, 4)%Q |}.
Example C08_example :
  sane s0 (DConcat [DExpandInt (DChan 1) 3; DDivide (DMulValue 1 0) 2 8 8]) /\
  dchoice exact_rmul s0 (DConcat [DExpandInt (DChan 1) 3; DDivide (DMulValue 1 0) 2 8 8])
  = Ok 46.
Proof. split; [cbn; repeat split; try lia; discriminate|vm_compute; reflexivity]. Qed.

(** channel(24) divided by the float 2.0: the choice is 12 but 16 mask entries are on. *)
Theorem C08_divide_float_refuted : ~ C08_claim exact_rmul.
Proof.
  intros H. specialize (H s0 0%nat (RFloat 2) 8 ltac:(lia)). unfold agrees in H.
  specialize (H (repeat true 16) ltac:(vm_compute; reflexivity)). vm_compute in H. discriminate.
Qed.
Print Assumptions C08_divide_float_refuted.

(** The expansion of SimpleMutableChannel repeats every entry [ratio] times. *)
Theorem C08_simple_expand :
  forall ratio m,
    length (simple_expand ratio m) = (length m * ratio)%nat /\
    count_true (simple_expand ratio m) = (count_true m * ratio)%nat /\
    (forall i, (i < length m * ratio)%nat ->
       nth_error (simple_expand ratio m) i = nth_error m (i / ratio)%nat).
Proof.
  intros ratio m. induction m as [|b m (IH1 & IH2 & IH3)]; [cbn; repeat split; auto; lia|].
  cbn [simple_expand flat_map]. change (flat_map (fun b => repeat b ratio) m) with (simple_expand ratio m).
  rewrite app_length, repeat_length, IH1, count_true_app, IH2.
  split; [cbn; lia|]. split.
  - replace (count_true (b :: m)) with ((if b then 1 else 0) + count_true m)%nat
      by (destruct b; reflexivity).
    destruct b; [rewrite count_true_repeat_true|rewrite count_true_repeat_false]; lia.
  - intros i Hi. cbn [length] in Hi. destruct (Nat.lt_ge_cases i ratio) as [Hlt|Hge].
    + rewrite nth_error_app1 by (rewrite repeat_length; exact Hlt).
      rewrite Nat.div_small by exact Hlt. cbn. apply nth_error_repeat. exact Hlt.
    + rewrite nth_error_app2 by (rewrite repeat_length; exact Hge). rewrite repeat_length.
      rewrite IH3 by lia.
      assert (E : (i / ratio = S ((i - ratio) / ratio))%nat).
      { assert (Hr0 : ratio <> 0%nat) by lia.
        replace i with ((i - ratio) + 1 * ratio)%nat at 1 by lia.
        rewrite Nat.div_add by exact Hr0. apply Nat.add_1_r. }
      rewrite E. reflexivity.
Qed.
Print Assumptions C08_simple_expand.
Example C08_simple_expand_example :
  simple_expand 2 [true; false; true] = [true; true; false; false; true; true].
Proof. reflexivity. Qed.

(** * C59 - a derived mutable follows its source mutables. *)

(** Deriving from channel [i] and value [j] in store [s], then changing choices to
    store [s'], gives the same as deriving in [s'] directly. *)
Definition follows (rmul : Z -> Q -> Z) (derive : store -> dexpr) : Prop :=
  forall s s', dchoice rmul s' (derive s) = dchoice rmul s' (derive s') /\
               dmask rmul s' (derive s) = dmask rmul s' (derive s').
Definition C59_claim : Prop :=
  forall i r, follows exact_rmul (fun s => chan_mul s i r) /\
              follows exact_rmul (fun s => chan_floordiv s i r).

(** [channel // value]: the ratio is read once; later changes of [value] are ignored. *)
Theorem C59_follows_sources_refuted : ~ C59_claim.
Proof.
  intros H. destruct (H 0%nat (RValue 0)) as [_ H2]. unfold follows in H2.
  specialize (H2 s0 {| chan := chan s0; value := fun _ => (4, 4)%Q |}) as [H3 _].
  vm_compute in H3. discriminate.
Qed.
Print Assumptions C59_follows_sources_refuted.

(** Products with a value mutable, and integer/float ratios, do follow their sources. *)
Theorem C59_follows_sources_partial :
  forall rmul i, (forall r, follows rmul (fun s => chan_mul s i r)) /\
    (forall r, (forall j, r <> RValue j) -> follows rmul (fun s => chan_floordiv s i r)).
Proof.
  intros rmul i. split.
  - intros [r|r|j] s s'; cbn; auto.
  - intros [r|r|j] Hr s s'; cbn; auto. exfalso. exact (Hr j eq_refl).
Qed.
Print Assumptions C59_follows_sources_partial.
Example C59_example :
  dchoice exact_rmul s0 (chan_mul {| chan := chan s0; value := fun _ => (4, 4)%Q |} 1 (RValue 0)) = Ok 20.
Proof. vm_compute. reflexivity. Qed.
