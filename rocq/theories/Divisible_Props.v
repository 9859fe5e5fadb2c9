(** C05 - make_divisible; C57 - every advertised candidate can be selected;
    C58 - a sampled choice fits the unit. *)
From Verif Require Import Prelude PyNum Channel_Model Channel_Lemmas Divisible_Model.
From Coq Require Import Sorting.Permutation Qround Lqa.
Ltac Zify.zify_post_hook ::= Z.div_mod_to_equations.

(** * Arithmetic of make_divisible *)

Definition eff_min (min_value : option Z) (d : Z) : Z :=
  Z.max d (match min_value with None => d | Some m => m end).

Lemma md_unfold v d mv r :
  0 < d ->
  make_divisible v d mv r =
  Ok (let n := Z.max (eff_min mv d) (Z.quot (2 * v + d) 2 / d * d) in
      if negb (Qle_bool (r * inject_Z v) (inject_Z n)) then n + d else n).
Proof.
  intros Hd. unfold make_divisible, eff_min.
  assert (E : (d =? 0) = false) by lia. rewrite E.
  destruct mv as [m|].
  - destruct (m <? d) eqn:Em; [replace (Z.max d m) with d by lia|replace (Z.max d m) with m by lia];
      reflexivity.
  - rewrite Z.ltb_irrefl, Z.max_id. reflexivity.
Qed.

(** The rounded value: nearest multiple of d (halves up). *)
Lemma round_bounds v d :
  0 < d -> 0 <= v ->
  let R := Z.quot (2 * v + d) 2 / d * d in
  v - d < R /\ 2 * R <= 2 * v + d /\ 2 * v < 2 * R + d + 1 /\ 0 <= R.
Proof.
  intros Hd Hv R. subst R. rewrite Z.quot_div_nonneg by lia.
  set (x := (2 * v + d) / 2) in *.
  assert (Hx : 2 * x <= 2 * v + d < 2 * x + 2) by (subst x; lia).
  pose proof (Z.div_mod x d ltac:(lia)) as Hdm. pose proof (Z.mod_pos_bound x d Hd) as Hm.
  set (q := x / d) in *.
  assert (0 <= q) by (subst q; apply Z.div_pos; lia).
  repeat split; nia.
Qed.

Lemma Qle_ratio r v w :
  (0 <= r)%Q -> (r <= 1)%Q -> 0 <= v -> v <= w -> (r * inject_Z v <= inject_Z w)%Q.
Proof.
  intros H0 H1 Hv Hw. apply Qle_trans with (1 * inject_Z v)%Q.
  - apply Qmult_le_compat_r; [exact H1|]. change 0%Q with (inject_Z 0). rewrite <- Zle_Qle. exact Hv.
  - rewrite Qmult_1_l. rewrite <- Zle_Qle. exact Hw.
Qed.

(** * C05 *)
Theorem C05_make_divisible :
  forall value divisor min_value (min_ratio : Q),
    0 < value -> 0 < divisor -> (0 <= min_ratio <= 1)%Q ->
    exists r, make_divisible value divisor min_value min_ratio = Ok r /\
      (* a multiple of the divisor, when the minimum is absent or a multiple *)
      ((forall m, min_value = Some m -> (divisor | m) \/ m <= divisor) -> (divisor | r)) /\
      (* not below the minimum (nor below the divisor) *)
      divisor <= r /\ (forall m, min_value = Some m -> m <= r) /\
      (* at most a (1 - min_ratio) reduction *)
      (min_ratio * inject_Z value <= inject_Z r)%Q /\
      (* within one divisor of the value, when the value is not below the minimum *)
      (divisor <= value -> (forall m, min_value = Some m -> m <= value) ->
         value - divisor < r < value + divisor).
Proof.
  intros v d mv ratio Hv Hd [Hr0 Hr1]. rewrite md_unfold by exact Hd. eexists. split; [reflexivity|].
  destruct (round_bounds v d Hd ltac:(lia)) as (R1 & R2 & R3 & R4).
  set (R := Z.quot (2 * v + d) 2 / d * d) in *. cbv zeta in *.
  set (M := eff_min mv d) in *.
  assert (HM : d <= M) by (subst M; unfold eff_min; lia).
  assert (HdR : (d | R)) by (exists (Z.quot (2 * v + d) 2 / d); reflexivity).
  destruct (Qle_bool (ratio * inject_Z v) (inject_Z (Z.max M R))) eqn:E; cbn [negb].
  - apply Qle_bool_iff in E. split; [|split; [|split; [|split]]].
    + intros Hm. assert (HdM : (d | M)).
      { subst M; unfold eff_min. destruct mv as [m|].
        - destruct (Hm m eq_refl) as [Hm1|Hm1].
          + apply Z.max_case; [apply Z.divide_refl|exact Hm1].
          + rewrite Z.max_l by lia. apply Z.divide_refl.
        - rewrite Z.max_id. apply Z.divide_refl. }
      apply Z.max_case; assumption.
    + lia.
    + intros m ->. subst M. unfold eff_min. lia.
    + exact E.
    + intros Hdv Hmv. assert (M <= v).
      { subst M. unfold eff_min. destruct mv as [m|]; [specialize (Hmv m eq_refl)|]; lia. }
      lia.
  - assert (Hlt : Z.max M R < v).
    { destruct (Z.lt_ge_cases (Z.max M R) v) as [|Hge]; [assumption|exfalso].
      pose proof (Qle_ratio ratio v (Z.max M R) Hr0 Hr1 ltac:(lia) Hge) as Hc.
      apply Qle_bool_iff in Hc. congruence. }
    split; [|split; [|split; [|split]]].
    + intros Hm. assert (HdM : (d | M)).
      { subst M; unfold eff_min. destruct mv as [m|].
        - destruct (Hm m eq_refl) as [Hm1|Hm1].
          + apply Z.max_case; [apply Z.divide_refl|exact Hm1].
          + rewrite Z.max_l by lia. apply Z.divide_refl.
        - rewrite Z.max_id. apply Z.divide_refl. }
      apply Z.divide_add_r; [|apply Z.divide_refl]. apply Z.max_case; assumption.
    + lia.
    + intros m ->. subst M. unfold eff_min in *. lia.
    + apply Qle_ratio; auto; lia.
    + lia.
Qed.
Print Assumptions C05_make_divisible.
Example C05_example :
  make_divisible 100 8 (Some 16) (9 # 10) = Ok 104 /\ make_divisible 3 8 None (9 # 10) = Ok 8 /\
  make_divisible 11 8 None (9 # 10) = Ok 16.
Proof. vm_compute. auto. Qed.

(** * C57 - Every advertised candidate of a one-shot unit can be selected. *)
Definition C57_claim : Prop :=
  forall u l cands c,
    0 < u_div u -> (0 <= u_ratio u <= 1)%Q -> (0 < u_n u)%nat ->
    oneshot_unit_candidates u l = Ok cands -> In c cands ->
    exists ch, oneshot_unit_set u cands (new_seq (u_n u) (u_num u)) c = Ok ch.

(** Ratio mode, 49 channels, candidate 0.05 (2 channels): selecting it raises.  Number
    mode, divisor 8, min_value 13, candidate 3 (advertised as 13): selecting 13 raises. *)
Lemma C57_witness_ratio :
  let u := {| u_n := 49; u_num := false; u_div := 1; u_min := 1; u_ratio := 9 # 10 |} in
  exists cands c, oneshot_unit_candidates u [NFloat (f64_lit 1 20); NFloat (f64_of_Z 1)] = Ok cands /\
    nth_error cands 0 = Some c /\
    oneshot_unit_set u cands (new_seq 49 false) c = Raise AssertionError.
Proof. cbv zeta. eexists. eexists. split; [vm_compute; reflexivity|].
  split; [vm_compute; reflexivity|]. vm_compute; reflexivity. Qed.
Lemma C57_witness_number :
  let u := {| u_n := 32; u_num := true; u_div := 8; u_min := 13; u_ratio := 9 # 10 |} in
  oneshot_unit_candidates u [NInt 3; NInt 32] = Ok [NInt 13; NInt 32] /\
  oneshot_unit_set u [NInt 13; NInt 32] (new_seq 32 true) (NInt 13) = Raise AssertionError.
Proof. vm_compute. auto. Qed.

Theorem C57_candidate_selectable_refuted : ~ C57_claim.
Proof.
  intros H. destruct C57_witness_number as [H1 H2].
  edestruct H as [ch Hch]; [| | |exact H1|left; reflexivity|].
  - reflexivity.
  - split; discriminate.
  - cbn. lia.
  - cbn [u_n u_num] in Hch. rewrite H2 in Hch. discriminate.
Qed.
Print Assumptions C57_candidate_selectable_refuted.

Lemma md_fixpoint v d m ratio r :
  0 < d -> (0 <= ratio <= 1)%Q -> (d | m) \/ m <= d ->
  make_divisible v d (Some m) ratio = Ok r -> make_divisible r d (Some m) ratio = Ok r.
Proof.
  intros Hd [Hr0 Hr1] Hm H. rewrite md_unfold in * by exact Hd. inversion H as [Hr]. clear H.
  set (M := eff_min (Some m) d) in *. set (R := Z.quot (2 * v + d) 2 / d * d) in *.
  assert (HM : d <= M) by (subst M; unfold eff_min; lia).
  assert (HdM : (d | M)).
  { subst M; unfold eff_min. destruct Hm as [Hm|Hm];
      [apply Z.max_case; [apply Z.divide_refl|exact Hm]|rewrite Z.max_l by lia; apply Z.divide_refl]. }
  assert (HdR : (d | R)) by (exists (Z.quot (2 * v + d) 2 / d); reflexivity).
  cbv zeta in Hr. rewrite Hr.
  assert (Hge : M <= r) by (destruct (negb _) in Hr; lia).
  assert (Hdr : (d | r)).
  { destruct (negb _) in Hr; rewrite <- Hr;
      [apply Z.divide_add_r; [|apply Z.divide_refl]|]; apply Z.max_case; assumption. }
  assert (HRr : Z.quot (2 * r + d) 2 / d * d = r).
  { destruct Hdr as [q Hq]. rewrite Z.quot_div_nonneg by lia.
    assert (Hx : (2 * r + d) / 2 = r + d / 2) by lia.
    rewrite Hx, Hq, Z.add_comm, Z.div_add by lia.
    rewrite (Z.div_small (d / 2) d) by lia. lia. }
  cbv zeta. rewrite HRr, Z.max_r by exact Hge.
  pose proof (Qle_ratio ratio r r Hr0 Hr1 ltac:(lia) ltac:(lia)) as Hq.
  apply Qle_bool_iff in Hq. rewrite Hq. reflexivity.
Qed.

Lemma mapM_ok {A B} (f : A -> outcome B) l l' :
  mapM f l = Ok l' -> forall y, In y l' -> exists x, In x l /\ f x = Ok y.
Proof.
  revert l'; induction l as [|x r IH]; intros l' H y Hy; cbn in H.
  - inversion H; subst. destruct Hy.
  - destruct (f x) as [y0|] eqn:E; [|discriminate]. cbn in H.
    destruct (mapM f r) as [ys|] eqn:Er; [|discriminate]. cbn in H. inversion H; subst.
    destruct Hy as [<-|Hy]; [exists x; cbn; auto|].
    destruct (IH _ eq_refl _ Hy) as (x' & Hx & Hf). exists x'. cbn; auto.
Qed.

(** Number mode, minimum absent in effect (<= divisor) or a multiple of the divisor:
    every candidate is selectable from any state, and selects that many channels (all
    of them when the candidate exceeds the width).  Missing compared to the claim: ratio
    mode, and minima that are not multiples of the divisor. *)
Theorem C57_candidate_selectable_partial :
  forall u l cands c ch,
    0 < u_div u -> (0 <= u_ratio u <= 1)%Q ->
    (u_div u | u_min u) \/ u_min u <= u_div u ->
    u_num u = true ->
    oneshot_unit_candidates u l = Ok cands -> In c cands ->
    length (q_mask ch) = u_n u ->
    exists k ch', c = NInt k /\ u_div u <= k /\ (u_div u | k) /\
      oneshot_unit_set u cands ch c = Ok ch' /\
      count_true (q_mask ch') = Nat.min (u_n u) (Z.to_nat k).
Proof.
  intros u l cands c ch Hd Hr Hm Hnum Hc Hin Hlen.
  unfold oneshot_unit_candidates in Hc.
  set (l1 := match l with [] => _ | _ => l end) in Hc.
  destruct (prepare_candidates u l1) as [cs|] eqn:Ep; [|discriminate]. cbn [bind] in Hc.
  unfold prepare_candidates in Ep.
  destruct (mapM (prepare_candidate u) l1) as [ys|] eqn:Em; [|discriminate]. cbn [bind] in Ep.
  inversion Ep; subst cs. clear Ep.
  assert (Hc' : cands = num_sort (num_sort ys)).
  { unfold init_candidates in Hc. inversion Hc as [Hc0]. clear Hc0 Hc.
    destruct (num_sort (num_sort ys)) as [|a t] eqn:En; [exfalso|reflexivity].
    assert (Hl : length (num_sort (num_sort ys)) = length ys) by (rewrite !num_sort_length; reflexivity).
    rewrite En in Hl. destruct ys as [|y ys]; [|discriminate].
    assert (Hl1 : l1 <> []) by (subst l1; destruct l; discriminate).
    destruct l1 as [|x l1']; [congruence|]. cbn in Em.
    destruct (prepare_candidate u x); [|discriminate]. cbn in Em.
    destruct (mapM (prepare_candidate u) l1'); discriminate. }
  assert (Hy : In c ys).
  { eapply Permutation_in; [apply num_sort_perm|]. eapply Permutation_in; [apply num_sort_perm|].
    rewrite <- Hc'. exact Hin. }
  destruct (mapM_ok _ _ _ Em _ Hy) as (x & _ & Hx). unfold prepare_candidate in Hx. rewrite Hnum in Hx.
  destruct x as [z|f]; [|discriminate].
  destruct (u_make_divisible u z) as [k|] eqn:Ek; [|discriminate]. cbn in Hx. inversion Hx; subst c.
  clear Hx. unfold u_make_divisible in Ek.
  pose proof (md_fixpoint _ _ _ _ _ Hd Hr Hm Ek) as Hfix.
  assert (Hk : u_div u <= k /\ (u_div u | k)).
  { rewrite md_unfold in Ek by exact Hd. inversion Ek as [Hk]. clear Ek.
    set (M := eff_min (Some (u_min u)) (u_div u)) in *.
    assert (HM : u_div u <= M) by (subst M; unfold eff_min; lia).
    assert (HdM : (u_div u | M)).
    { subst M; unfold eff_min. destruct Hm as [Hm|Hm];
        [apply Z.max_case; [apply Z.divide_refl|exact Hm]|rewrite Z.max_l by lia; apply Z.divide_refl]. }
    cbv zeta. set (R := Z.quot _ 2 / u_div u * u_div u) in *.
    assert (HdR : (u_div u | R)) by (subst R; apply Z.divide_factor_r).
    destruct (negb _); split; try lia;
      [apply Z.divide_add_r; [|apply Z.divide_refl]|]; apply Z.max_case; assumption. }
  exists k. eexists. split; [reflexivity|]. split; [apply Hk|]. split; [apply Hk|].
  assert (Hi : num_in (NInt k) cands = true) by (apply num_in_In; [discriminate|exact Hin]).
  split.
  - unfold oneshot_unit_set. rewrite Hi. cbn [assert_ bind]. unfold valid_int_choice.
    cbn [ratio2num bind]. unfold u_make_divisible. rewrite Hfix. cbn [bind]. rewrite Hnum. cbn [bind].
    unfold oneshot_set. rewrite Hi. cbn [assert_ bind]. unfold seq_set. cbn [bind]. reflexivity.
  - cbn. rewrite leading_count, Hlen. unfold slice_stop.
    destruct (k <? 0) eqn:E; lia.
Qed.
Print Assumptions C57_candidate_selectable_partial.
Example C57_example :
  oneshot_unit_candidates {| u_n := 40; u_num := true; u_div := 8; u_min := 16; u_ratio := 9 # 10 |}
    [NInt 40; NInt 3; NInt 19] = Ok [NInt 16; NInt 24; NInt 40].
Proof. vm_compute. reflexivity. Qed.

(** * C58 - A sampled choice never asks for more channels than the unit has. *)
Definition C58_claim : Prop :=
  forall u r, 0 < u_div u -> (0 <= u_ratio u <= 1)%Q -> u_num u = true ->
    1 <= r <= Z.of_nat (u_n u) ->
    exists k, unit_sample u r = Ok (NInt k) /\ 1 <= k <= Z.of_nat (u_n u).

(** 12 channels, divisor 8, randint returned 12: the sampled choice is 16. *)
Theorem C58_sample_in_range_refuted : ~ C58_claim.
Proof.
  intros H.
  destruct (H {| u_n := 12; u_num := true; u_div := 8; u_min := 1; u_ratio := 9 # 10 |} 12)
    as (k & Hk & Hb); try (cbn; lia); try reflexivity; [split; discriminate|].
  vm_compute in Hk. inversion Hk; subst. cbn in Hb. lia.
Qed.
Print Assumptions C58_sample_in_range_refuted.

Theorem C58_sample_in_range_partial :
  forall u r, 0 < u_div u -> (0 <= u_ratio u <= 1)%Q -> u_num u = true ->
    (u_div u | Z.of_nat (u_n u)) -> u_min u <= Z.of_nat (u_n u) ->
    (u_div u | u_min u) \/ u_min u <= u_div u ->
    1 <= r <= Z.of_nat (u_n u) ->
    exists k, unit_sample u r = Ok (NInt k) /\ 1 <= k <= Z.of_nat (u_n u) /\ (u_div u | k).
Proof.
  intros u v Hd [Hr0 Hr1] Hnum [q Hq] Hmn Hm Hv. unfold unit_sample, u_make_divisible.
  rewrite md_unfold by exact Hd. cbn [bind]. rewrite Hnum. eexists. split; [reflexivity|].
  set (N := Z.of_nat (u_n u)) in *. set (d := u_div u) in *.
  destruct (round_bounds v d Hd ltac:(lia)) as (R1 & R2 & R3 & R4).
  set (R := Z.quot (2 * v + d) 2 / d * d) in *. cbv zeta in *.
  set (M := eff_min (Some (u_min u)) d) in *.
  assert (HdN : d <= N).
  { assert (1 <= q) by nia. assert (1 * d <= q * d) by (apply Z.mul_le_mono_nonneg_r; lia). lia. }
  assert (HM : d <= M <= N) by (subst M; unfold eff_min; lia).
  assert (HdM : (d | M)).
  { subst M; unfold eff_min. destruct Hm as [Hm|Hm];
      [apply Z.max_case; [apply Z.divide_refl|exact Hm]|rewrite Z.max_l by lia; apply Z.divide_refl]. }
  assert (HdR : (d | R)) by (subst R; apply Z.divide_factor_r).
  assert (HRN : R <= N).
  { destruct HdR as [p Hp]. destruct (Z.le_gt_cases p q) as [Hpq|Hpq].
    - rewrite Hp, Hq. apply Z.mul_le_mono_nonneg_r; lia.
    - exfalso. assert ((q + 1) * d <= p * d) by (apply Z.mul_le_mono_nonneg_r; lia). lia. }
  assert (HX : (d | Z.max M R)) by (apply Z.max_case; assumption).
  destruct (Qle_bool (u_ratio u * inject_Z v) (inject_Z (Z.max M R))) eqn:E; cbn [negb].
  - split; [lia|exact HX].
  - assert (Hlt : Z.max M R < v).
    { destruct (Z.lt_ge_cases (Z.max M R) v) as [|Hge]; [assumption|exfalso].
      pose proof (Qle_ratio (u_ratio u) v (Z.max M R) Hr0 Hr1 ltac:(lia) Hge) as Hc.
      apply Qle_bool_iff in Hc. congruence. }
    split; [|apply Z.divide_add_r; [exact HX|apply Z.divide_refl]].
    destruct HX as [p Hp]. rewrite Hp in *.
    assert (p < q) by (apply Z.mul_lt_mono_pos_r with d; lia).
    assert ((p + 1) * d <= q * d) by (apply Z.mul_le_mono_nonneg_r; lia). lia.
Qed.
Print Assumptions C58_sample_in_range_partial.
Example C58_example :
  unit_sample {| u_n := 24; u_num := true; u_div := 8; u_min := 8; u_ratio := 9 # 10 |} 19
  = Ok (NInt 24).
Proof. vm_compute. reflexivity. Qed.
