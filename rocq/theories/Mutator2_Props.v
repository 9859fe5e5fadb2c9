(** C105 - units made from the analyzer's result start at full width. *)
From Coq Require Import Reals Psatz.
From Flocq Require Import Core.
From Verif Require Import Prelude PyNum Float_Lemmas Channel_Model Channel_Lemmas Divisible_Model Divisible_Props ChannelFloat_Props Mutator_Model Mutator_Props.
Open Scope Z_scope.

(** ** Specification *)
Definition active (u : munit) : nat := count_true (q_mask (m_ch u)).
(** A unit as [init_from_cfg] makes it out of num_channels alone. *)
Definition plain (u : munit) : Prop :=
  m_cls u = CSeq /\ u_num (m_cfg u) = true /\ u_div (m_cfg u) = 1 /\ u_min (m_cfg u) = 1 /\
  u_ratio (m_cfg u) = (9 # 10)%Q /\ q_n (m_ch u) = u_n (m_cfg u) /\ q_num (m_ch u) = true /\
  length (q_mask (m_ch u)) = u_n (m_cfg u).

Definition C105_claim : Prop :=
  forall passes sample us prunable gs us',
    Forall plain us ->
    (forall i, exists k, 1 <= k /\ sample i = NInt k) ->
    analyze_units passes sample us prunable = Ok gs ->
    init_from_channel_analyzer CSeq gs = Ok us' ->
    forall u, In u us' -> active u = u_n (m_cfg u).

(** ** Theorems *)
(** One unit of 10 channels; every run passes. *)
Theorem C105_full_width_refuted : ~ C105_claim.
Proof.
  intros H.
  destruct (init_unit CSeq (set_n no_args 10)) as [u|] eqn:E; [|discriminate].
  assert (P : plain u) by (vm_compute in E; apply Ok_inj in E; subst u; repeat split).
  destruct (analyze_units (fun _ => true) (fun _ => NInt 7) [u] [0%nat]) as [gs|] eqn:Eg;
    [|vm_compute in E; apply Ok_inj in E; subst u; vm_compute in Eg; discriminate].
  destruct (init_from_channel_analyzer CSeq gs) as [us'|] eqn:Eu;
    [|vm_compute in E; apply Ok_inj in E; subst u; vm_compute in Eg; apply Ok_inj in Eg; subst gs; vm_compute in Eu; discriminate].
  specialize (H _ _ _ _ _ _ (Forall_cons u P (Forall_nil _)) (fun _ => ex_intro _ 7 (conj (proj1 (Z.leb_le 1 7) eq_refl) eq_refl)) Eg Eu).
  vm_compute in E. apply Ok_inj in E. subst u. vm_compute in Eg. apply Ok_inj in Eg. subst gs. vm_compute in Eu. apply Ok_inj in Eu. subst us'.
  specialize (H _ (or_introl eq_refl)). vm_compute in H. discriminate.
Qed.
Print Assumptions C105_full_width_refuted.

Lemma md_one k : 1 <= k -> make_divisible k 1 (Some 1) (9 # 10) = Ok k.
Proof.
  intros K. rewrite md_unfold by lia. cbv zeta. unfold eff_min. rewrite Z.div_1_r, Z.mul_1_r, Z.quot_div_nonneg by lia.
  replace ((2 * k + 1) / 2) with k by (apply Z.div_unique with 1; lia). replace (Z.max _ k) with k by lia.
  pose proof (Qle_ratio (9 # 10) k k ltac:(discriminate) ltac:(discriminate) ltac:(lia) ltac:(lia)) as Q. apply Qle_bool_iff in Q. rewrite Q. reflexivity.
Qed.

(** Setting an integer k >= 1 on a plain unit. *)
Lemma plain_set u v k :
  plain u -> ratio2num (u_n (m_cfg u)) v = Ok k -> 1 <= k <= Z.of_nat (u_n (m_cfg u)) ->
  exists u', set_choice u v = Ok u' /\ plain u' /\ m_cfg u' = m_cfg u /\ m_in u' = m_in u /\ m_out u' = m_out u /\
    active u' = Z.to_nat k /\ get_choice u' = Ok (NInt k).
Proof.
  intros (P1 & P2 & P3 & P4 & P5 & P6 & P7 & P8) R K. unfold set_choice. rewrite P1. unfold unit_set, valid_int_choice. rewrite R. cbn [bind].
  unfold u_make_divisible. rewrite P3, P4, P5, md_one by lia. cbn [bind seq_set]. eexists. split; [reflexivity|].
  assert (C : count_true (leading (length (q_mask (m_ch u))) k) = Z.to_nat k) by (rewrite leading_count, P8; unfold slice_stop; destruct (k <? 0) eqn:X; lia).
  split; [|split; [reflexivity|split; [reflexivity|split; [reflexivity|split]]]].
  - repeat split; cbn [with_ch with_mask m_cls m_cfg m_ch q_n q_num q_mask]; try assumption. rewrite leading_length. exact P8.
  - unfold active. cbn [with_ch with_mask m_ch q_mask]. exact C.
  - unfold get_choice, seq_get. cbn [with_ch with_mask m_ch q_mask q_num]. rewrite P7, C, Z2Nat.id by lia. reflexivity.
Qed.

Lemma one_full n : (1 <= n)%nat -> Z.of_nat n <= 2 ^ 48 -> ratio2num n (NFloat (f64_of_Z 1)) = Ok (Z.of_nat n).
Proof.
  intros N B. destruct (f64_int 1) as [F V]; [unfold small; lia|]. rewrite ratio2num_fin; [|lia|exact F|rewrite V; cbn; lra].
  rewrite V, Rmult_1_r, rnd_int by (unfold small; lia). rewrite Zfloor_IZR. f_equal. lia.
Qed.

Definition trial_width (n : nat) : Z := Z.max 1 (9 * Z.of_nat n / 10).
Lemma fr_nine : fr (f64_lit 9 10) = (8106479329266893 * / 9007199254740992)%R.
Proof. unfold fr. set (f := f64_lit 9 10). vm_compute in f. subst f. unfold BinarySingleNaN.SF2R, F2R. cbn -[IZR]. reflexivity. Qed.
Lemma nine_tenths n : (1 <= n)%nat -> Z.of_nat n <= 2 ^ 48 -> ratio2num n (NFloat (f64_lit 9 10)) = Ok (trial_width n).
Proof.
  intros N B. pose proof fr_nine as V. assert (F : fin (f64_lit 9 10)) by (vm_compute; repeat split).
  rewrite ratio2num_fin; [|lia|exact F|rewrite V; lra]. unfold trial_width. f_equal. f_equal. rewrite V.
  set (z := 9 * Z.of_nat n / 10). set (x := (IZR (Z.of_nat n) * _)%R).
  assert (Z1 : 10 * z <= 9 * Z.of_nat n < 10 * z + 10) by (subst z; lia).
  assert (Nr : (1 <= IZR (Z.of_nat n) <= 281474976710656)%R) by (split; apply IZR_le; lia).
  assert (R1 : (10 * IZR z <= 9 * IZR (Z.of_nat n))%R) by (rewrite <- !mult_IZR; apply IZR_le; lia).
  assert (R2 : (9 * IZR (Z.of_nat n) <= 10 * IZR z + 9)%R) by (rewrite <- !mult_IZR, <- plus_IZR; apply IZR_le; lia).
  assert (L : z <= Zfloor (rnd x)). { apply rnd_floor; [unfold small; lia|]. subst x. lra. }
  assert (U : (rnd x <= IZR z + 15 / 16)%R).
  { assert (G : generic_format radix2 fexp64 (IZR z + 15 / 16)%R).
    { apply generic_format_FLT. exists (Float radix2 (16 * z + 15) (-4)); [|cbn [Fnum]; change (Zpower radix2 53) with (2 ^ 53); lia|cbn; unfold SpecFloat.emin; lia].
      unfold F2R. cbn [Fnum Fexp]. rewrite plus_IZR, mult_IZR. cbn. lra. }
    assert (E : rnd (IZR z + 15 / 16) = (IZR z + 15 / 16)%R) by (apply round_generic; auto with typeclass_instances).
    rewrite <- E. apply rnd_le. subst x. lra. }
  assert (T : Zfloor (rnd x) < z + 1); [|lia]. apply lt_IZR. apply Rle_lt_trans with (rnd x); [apply Zfloor_lb|]. rewrite plus_IZR. lra.
Qed.

Lemma try_int k : 1 <= k -> try_choice (NInt k) = NFloat (f64_lit 9 10).
Proof.
  intros K. unfold try_choice.
  assert (A : num_leb (NInt k) (NFloat (f64_lit 1 10)) = false).
  { apply Bool.not_true_is_false. intros E. unfold num_leb, num_val in E. vm_compute f64_val in E. apply Qle_bool_iff in E. unfold Qle, inject_Z in E. cbn [Qnum Qden] in E. lia. }
  assert (B : num_leb (NInt k) (NFloat (f64_lit 9 10)) = false).
  { apply Bool.not_true_is_false. intros E. unfold num_leb, num_val in E. vm_compute f64_val in E. apply Qle_bool_iff in E. unfold Qle, inject_Z in E. cbn [Qnum Qden] in E. lia. }
  cbv zeta. rewrite A, B. reflexivity.
Qed.

Definition small_unit (u : munit) : Prop := plain u /\ (1 <= u_n (m_cfg u))%nat /\ Z.of_nat (u_n (m_cfg u)) <= 2 ^ 48.
(** Same unit apart from the choice, which is k. *)
Definition at_width (u u' : munit) (k : Z) : Prop :=
  small_unit u' /\ m_cfg u' = m_cfg u /\ m_in u' = m_in u /\ m_out u' = m_out u /\ active u' = Z.to_nat k /\ get_choice u' = Ok (NInt k).

Lemma set_ones_ok us :
  Forall small_unit us -> exists us', set_ones us = Ok us' /\
    Forall2 (fun u u' => at_width u u' (Z.of_nat (u_n (m_cfg u)))) us us'.
Proof.
  induction 1 as [|u us (P & N & B) F IH]; [exists []; split; [reflexivity|constructor]|]. cbn [set_ones].
  destruct (plain_set u (NFloat (f64_of_Z 1)) (Z.of_nat (u_n (m_cfg u))) P (one_full _ N B) ltac:(lia)) as (u' & E & P' & C & I & O & A & G).
  destruct IH as (us' & E' & F'). rewrite E. cbn [bind]. rewrite E'. cbn [bind]. exists (u' :: us'). split; [reflexivity|]. constructor; [|exact F'].
  unfold at_width, small_unit. rewrite C. auto 10.
Qed.
Lemma nth_upd {A} (l : list A) i x j : (i < length l)%nat -> nth_error (upd l i x) j = if Nat.eqb j i then Some x else nth_error l j.
Proof.
  intros L. unfold upd. assert (E : Nat.ltb i (length l) = true) by (apply Nat.ltb_lt; exact L). rewrite E.
  destruct (Nat.eqb_spec j i) as [->|D].
  - rewrite nth_error_app2; rewrite firstn_length_le by lia; [|lia]. rewrite Nat.sub_diag. reflexivity.
  - destruct (Nat.lt_ge_cases j i) as [J|J].
    + rewrite nth_error_app1 by (rewrite firstn_length_le; lia). rewrite <- (firstn_skipn i l) at 2. rewrite nth_error_app1 by (rewrite firstn_length_le; lia). reflexivity.
    + rewrite nth_error_app2; rewrite firstn_length_le by lia; [|lia]. replace (j - i)%nat with (S (j - S i)) by lia. cbn [nth_error].
      rewrite <- (firstn_skipn (S i) l) at 2. rewrite nth_error_app2; rewrite firstn_length_le by lia; [|lia]. reflexivity.
Qed.
Lemma upd_length {A} (l : list A) i x : length (upd l i x) = length l.
Proof.
  unfold upd. destruct (Nat.ltb i (length l)) eqn:E.
  - apply Nat.ltb_lt in E. rewrite app_length. cbn [length]. rewrite firstn_length_le, skipn_length by lia. lia.
  - apply Nat.ltb_ge in E. rewrite app_nil_r, firstn_all2 by lia. reflexivity.
Qed.

Definition width_after (try : list nat) (i : nat) (u : munit) : Z :=
  if existsb (Nat.eqb i) try then trial_width (u_n (m_cfg u)) else Z.of_nat (u_n (m_cfg u)).
Lemma set_tried_ok sample try : (forall i, exists k, 1 <= k /\ sample i = NInt k) ->
  forall us0 us us' done,
  length us = length us0 ->
  (forall i u, nth_error us0 i = Some u -> exists u1, nth_error us i = Some u1 /\ small_unit u /\ at_width u u1 (width_after done i u)) ->
  set_tried sample us try = Ok us' ->
  length us' = length us0 /\
  forall i u, nth_error us0 i = Some u -> exists u1, nth_error us' i = Some u1 /\ at_width u u1 (width_after (done ++ try) i u).
Proof.
  intros HS. induction try as [|i try IH]; intros us0 us us' done L H E; cbn [set_tried] in E.
  - apply Ok_inj in E. subst us'. split; [exact L|]. rewrite app_nil_r. intros i u Hi. destruct (H i u Hi) as (u1 & A & _ & B). eauto.
  - destruct (nth_error us i) as [v|] eqn:Ev; [|discriminate].
    assert (Li : (i < length us0)%nat) by (rewrite <- L; apply nth_error_Some; congruence).
    destruct (nth_error us0 i) as [v0|] eqn:Ev0; [|apply nth_error_None in Ev0; lia].
    destruct (H i v0 Ev0) as (v1 & A & Sv0 & (SV & C & I & O & _)). rewrite Ev in A. inversion A; subst v1. clear A.
    destruct (HS i) as (k & K & Ek). rewrite Ek, (try_int k K) in E. destruct SV as (P & N & B).
    assert (TW : 1 <= trial_width (u_n (m_cfg v)) <= Z.of_nat (u_n (m_cfg v))) by (unfold trial_width; split; [lia|apply Z.max_lub; [lia|apply Z.div_le_upper_bound; lia]]).
    destruct (plain_set v _ _ P (nine_tenths _ N B) TW) as (v' & E' & P' & C' & I' & O' & A' & G'). rewrite E' in E. cbn [bind] in E.
    replace (done ++ i :: try) with ((done ++ [i]) ++ try) by (rewrite <- app_assoc; reflexivity).
    apply (IH us0 (upd us i v') us' (done ++ [i])); [rewrite upd_length; exact L| |exact E].
    intros j w Hj. destruct (H j w Hj) as (w1 & A1 & Sw & B1). rewrite nth_upd by lia.
    unfold width_after. rewrite existsb_app. cbn [existsb]. rewrite orb_false_r. destruct (Nat.eqb_spec j i) as [->|D].
    + rewrite orb_true_r. exists v'. split; [reflexivity|]. split; [exact Sw|]. rewrite Ev0 in Hj. inversion Hj; subst w.
      unfold at_width, small_unit. rewrite C'. rewrite C in N, B, A', G'. rewrite C. repeat split; try assumption; try congruence; apply P'.
    + rewrite orb_false_r. exists w1. split; [exact A1|]. split; [exact Sw|exact B1].
Qed.

Lemma mapM_nth {A B} (f : A -> outcome B) l l' :
  mapM f l = Ok l' -> length l' = length l /\ forall j x, nth_error l j = Some x -> exists y, nth_error l' j = Some y /\ f x = Ok y.
Proof.
  revert l'; induction l as [|x r IH]; intros l' H; cbn in H.
  - apply Ok_inj in H. subst. split; [reflexivity|]. intros [|j] x; discriminate.
  - destruct (f x) as [y0|] eqn:E; [|discriminate]. cbn in H. destruct (mapM f r) as [ys|]; [|discriminate]. cbn in H. apply Ok_inj in H. subst.
    destruct (IH _ eq_refl) as [L N]. split; [cbn; lia|]. intros [|j] z Hz; [cbn in Hz; injection Hz as <-; exists y0; split; [reflexivity|exact E]|exact (N j z Hz)].
Qed.

Lemma init_plain n i o k :
  (1 <= n)%nat -> 1 <= k <= Z.of_nat n ->
  exists u, init_from_cfg CSeq {| c_args := Some (set_n no_args n); c_channels := Some (i, o); c_choice := Some (NInt k) |} = Ok u /\
    u_n (m_cfg u) = n /\ active u = Z.to_nat k.
Proof.
  intros N K.
  set (u0 := {| m_cls := CSeq; m_cfg := {| u_n := n; u_num := true; u_div := 1; u_min := 1; u_ratio := 9 # 10 |};
                m_cands := []; m_in := related n false i; m_out := related n true o; m_name := None; m_ch := new_seq n true |}).
  change (exists u, set_choice u0 (NInt k) = Ok u /\ u_n (m_cfg u) = n /\ active u = Z.to_nat k).
  assert (P : plain u0) by (subst u0; repeat split; cbn; apply repeat_length).
  destruct (plain_set u0 (NInt k) k P eq_refl) as (u' & E & _ & C & _ & _ & A & _); [cbn; lia|].
  exists u'. split; [exact E|]. rewrite C. split; [reflexivity|exact A].
Qed.

(** The units shrunk in the last run of [find_mutable] stay at nine tenths of their width, the
    others at full width.  The arguments of units are integers of size below 2^48. *)
Theorem C105_start_width :
  forall passes sample us prunable gs us',
    Forall plain us -> Forall (fun u => (1 <= u_n (m_cfg u))%nat /\ Z.of_nat (u_n (m_cfg u)) <= 2 ^ 48) us ->
    (forall i, exists k, 1 <= k /\ sample i = NInt k) ->
    prunable <> [] ->
    analyze_units passes sample us prunable = Ok gs ->
    init_from_channel_analyzer CSeq gs = Ok us' ->
    let '(kept, tried) := find_mutable (length prunable) passes prunable in
    length us' = length kept /\
    forall j i u u', nth_error kept j = Some i -> nth_error us i = Some u -> nth_error us' j = Some u' ->
      u_n (m_cfg u') = u_n (m_cfg u) /\
      Z.of_nat (active u') =
        if existsb (Nat.eqb i) (last tried []) then Z.max 1 (9 * Z.of_nat (u_n (m_cfg u)) / 10)
        else Z.of_nat (u_n (m_cfg u)).
Proof.
  intros passes sample us prunable gs us' P B HS NE E Ei. unfold analyze_units in E.
  pose proof (C104_find_mutable passes prunable) as FM.
  assert (NT : snd (find_mutable (length prunable) passes prunable) <> []).
  { destruct (passes prunable) eqn:Ep; [rewrite fm_pass by assumption; discriminate|].
    destruct prunable as [|x [|y r]]; [congruence|rewrite fm_one by exact Ep; discriminate|].
    cbn [length]. rewrite fm_step; [cbn [snd]; discriminate|cbn; lia|exact Ep]. }
  destruct (find_mutable (length prunable) passes prunable) as [kept tried]. cbn [snd] in NT. clear FM.
  destruct (after_trials sample us tried) as [usf|] eqn:Ea; [|discriminate]. cbn [bind] in E.
  assert (SU : Forall small_unit us) by (rewrite Forall_forall in *; intros u Hu; split; [apply P, Hu|apply B, Hu]).
  assert (W : length usf = length us /\ forall i u, nth_error us i = Some u -> exists u1, nth_error usf i = Some u1 /\ at_width u u1 (width_after (last tried []) i u)).
  { unfold after_trials in Ea. destruct (rev tried) as [|l tr] eqn:Er; [apply (f_equal (@rev _)) in Er; rewrite rev_involutive in Er; cbn in Er; congruence|].
    assert (El : last tried [] = l). { rewrite <- (rev_involutive tried), Er. cbn [rev]. apply last_last. } rewrite El.
    destruct (set_ones us) as [us1|] eqn:E1; [|discriminate]. cbn [bind] in Ea.
    destruct (set_ones_ok us SU) as (us1' & E1' & F2). rewrite E1 in E1'. apply Ok_inj in E1'. subst us1'.
    assert (L1 : length us1 = length us) by (clear -F2; induction F2; cbn; lia).
    apply (set_tried_ok sample l HS us us1 usf [] L1); [|exact Ea].
    intros i u Hi. assert (X : exists u1, nth_error us1 i = Some u1 /\ at_width u u1 (Z.of_nat (u_n (m_cfg u)))).
    { clear -F2 Hi. revert i Hi. induction F2; intros [|i] Hi; try discriminate; cbn in *; [inversion Hi; subst; eauto|eauto]. }
    destruct X as (u1 & X1 & X2). exists u1. split; [exact X1|]. split; [|exact X2]. rewrite Forall_forall in SU. apply SU. eapply nth_error_In, Hi. }
  destruct W as [Lf W]. destruct (mapM_nth _ _ _ E) as [Lg Ng]. destruct (mapM_nth _ _ _ Ei) as [Lu Nu]. split; [lia|].
  intros j i u u' Hj Hi Hu. destruct (Ng j i Hj) as (g & Hg & Eg). destruct (Nu j g Hg) as (u2 & Hu2 & Eu). rewrite Hu in Hu2. inversion Hu2; subst u2. clear Hu2.
  destruct (W i u Hi) as (u1 & H1 & (S1 & C1 & _ & _ & _ & G1)). rewrite H1, G1 in Eg. cbn [bind] in Eg. apply Ok_inj in Eg. subst g.
  assert (Su : small_unit u) by (rewrite Forall_forall in SU; apply SU; eapply nth_error_In, Hi). destruct Su as (_ & N & Nb).
  assert (K : 1 <= width_after (last tried []) i u <= Z.of_nat (u_n (m_cfg u))).
  { unfold width_after, trial_width. destruct (existsb _ _); [|lia]. split; [lia|apply Z.max_lub; [lia|apply Z.div_le_upper_bound; lia]]. }
  rewrite C1 in Eu. edestruct (init_plain (u_n (m_cfg u))) as (u3 & E3 & N3 & A3); [exact N|exact K|]. rewrite E3 in Eu. apply Ok_inj in Eu. subst u3.
  split; [exact N3|]. rewrite A3, Z2Nat.id by lia. reflexivity.
Qed.
Print Assumptions C105_start_width.

(** When no unit can be pruned the result is empty, so the claim holds; it also holds for units of
    one channel.  Missing compared to the claim: all wider units of the last run. *)
Corollary C105_full_width_partial :
  forall passes sample us prunable gs us',
    Forall plain us -> Forall (fun u => u_n (m_cfg u) = 1%nat) us ->
    (forall i, exists k, 1 <= k /\ sample i = NInt k) ->
    prunable <> [] ->
    analyze_units passes sample us prunable = Ok gs ->
    init_from_channel_analyzer CSeq gs = Ok us' ->
    (forall i, In i prunable -> (i < length us)%nat) ->
    forall u, In u us' -> active u = u_n (m_cfg u).
Proof.
  intros passes sample us prunable gs us' P B HS NE E Ei IB u Hu.
  assert (B' : Forall (fun u => (1 <= u_n (m_cfg u))%nat /\ Z.of_nat (u_n (m_cfg u)) <= 2 ^ 48) us).
  { rewrite Forall_forall in *. intros x Hx. rewrite (B x Hx). split; [lia|cbn; lia]. }
  pose proof (C105_start_width passes sample us prunable gs us' P B' HS NE E Ei) as T.
  pose proof (C104_find_mutable passes prunable) as FM.
  destruct (find_mutable (length prunable) passes prunable) as [kept tried]. destruct T as [L T]. destruct FM as [SQ _].
  apply In_nth_error in Hu. destruct Hu as [j Hj]. assert (Lj : (j < length kept)%nat) by (rewrite <- L; apply nth_error_Some; congruence).
  destruct (nth_error kept j) as [i|] eqn:Ek; [|apply nth_error_None in Ek; lia].
  assert (Hi : (i < length us)%nat) by (apply IB, (subseq_in _ _ _ SQ), (nth_error_In _ _ Ek)).
  destruct (nth_error us i) as [u0|] eqn:E0; [|apply nth_error_None in E0; lia].
  destruct (T j i u0 u Ek E0 Hj) as [T1 T2]. rewrite Forall_forall in B. rewrite (B u0 (nth_error_In _ _ E0)) in T1, T2. rewrite T1. destruct (existsb _ _); cbn in T2; lia.
Qed.
Print Assumptions C105_full_width_partial.

(** Two units of 10 and 16 channels; the second breaks the model, so the last run tries it alone
    and only the first is kept, at full width.  If both pass, they are left at 9 and 14. *)
Example C105_case :
  let mk n := match init_unit CSeq (set_n no_args n) with Ok u => [u] | Raise _ => [] end in
  let widths p := do gs <- analyze_units p (fun _ => NInt 3) (mk 10%nat ++ mk 16%nat) [0; 1]%nat;
                  do us <- init_from_channel_analyzer CSeq gs; Ok (map active us) in
  widths (fun l => negb (existsb (Nat.eqb 1) l)) = Ok [10%nat] /\ widths (fun _ => true) = Ok [9; 14]%nat.
Proof. split; vm_compute; reflexivity. Qed.
