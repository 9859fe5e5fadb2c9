(** C03, C04: ratio choices of sequential channel mutables, in binary64.
    C07: value mutables; C06, C57: candidate lists. *)
From Coq Require Import Reals Psatz Sorting.Permutation Sorting.Sorted.
From Flocq Require Import Core Relative.
From Verif Require Import Prelude PyNum Float_Lemmas Channel_Model Channel_Lemmas Channel_Props Divisible_Model Divisible_Props.
Open Scope Z_scope.

(** * C03: a ratio keeps the leading channels too *)
Lemma floor_rnd x z : small z -> (x <= IZR z)%R -> Zfloor (rnd x) <= z.
Proof. intros S H. apply le_IZR. apply Rle_trans with (rnd x); [apply Zfloor_lb|]. rewrite <- (rnd_int z S). apply rnd_le. exact H. Qed.
Lemma rnd_floor x z : small z -> (IZR z <= x)%R -> z <= Zfloor (rnd x).
Proof. intros S H. apply Zfloor_lub. rewrite <- (rnd_int z S). apply rnd_le. exact H. Qed.
Lemma rnd_nonneg x : (0 <= x)%R -> (0 <= rnd x)%R.
Proof. intros H. change 0%R with (IZR 0). rewrite <- (rnd_int 0) by (unfold small; lia). apply rnd_le. exact H. Qed.
Lemma ratio2num_fin n f : Z.of_nat n <= 2 ^ 53 -> fin f -> (0 <= fr f <= 1)%R -> ratio2num n (NFloat f) = Ok (Z.max 1 (Zfloor (rnd (IZR (Z.of_nat n) * fr f)))).
Proof.
  intros N F [F0 F1]. assert (S : small (Z.of_nat n)) by (unfold small; lia). destruct (f64_int _ S) as [A B]. assert (P : (0 <= IZR (Z.of_nat n))%R) by (apply IZR_le; lia).
  assert (M : (Rabs (rnd (fr (f64_of_Z (Z.of_nat n)) * fr f)) < maxr)%R).
  { rewrite B. apply (rnd_max _ (Z.of_nat n) S). rewrite Rabs_pos_eq by nra. nra. }
  destruct (f64mul_ok _ _ A F M) as [C D]. unfold ratio2num. rewrite py_int_ok by apply C. cbn [bind]. rewrite D, B. rewrite Ztrunc_floor by (apply rnd_nonneg; nra). reflexivity.
Qed.
Theorem C03_ratio :
  forall n mode vs f,
    (0 < n)%nat -> Z.of_nat n <= 2 ^ 53 -> fin f -> (0 <= fr f <= 1)%R ->
    exists ch k, seq_set (assign_all (new_seq n mode) vs) (NFloat f) = Ok ch /\
      q_mask ch = repeat true k ++ repeat false (n - k) /\ (1 <= k <= n)%nat /\
      Zfloor (IZR (Z.of_nat n) * fr f) <= Z.of_nat k <= Z.max 1 (Zceil (IZR (Z.of_nat n) * fr f)).
Proof.
  intros n mode vs f N0 N F [F0 F1]. pose proof (assign_all_inv vs (new_seq n mode)) as I. cbn [new_seq q_mask q_n q_num q_fixed] in I. destruct I as (I1 & _ & _ & I4); [apply repeat_length|].
  set (c0 := assign_all (new_seq n mode) vs) in *. unfold seq_set. rewrite I1, (ratio2num_fin n f N F (conj F0 F1)). cbn [bind]. set (x := (IZR (Z.of_nat n) * fr f)%R).
  assert (P : (0 <= IZR (Z.of_nat n))%R) by (apply IZR_le; lia). assert (X0 : (0 <= x)%R) by (unfold x; nra). assert (X1 : (x <= IZR (Z.of_nat n))%R) by (unfold x; nra).
  assert (L : 0 <= Zfloor x) by (apply Zfloor_lub; exact X0). assert (U : Zceil x <= Z.of_nat n) by (apply Zceil_glb; exact X1).
  assert (L' : Zfloor x <= Zfloor (rnd x)). { apply rnd_floor; [|apply Zfloor_lb]. assert (Zfloor x <= Z.of_nat n) by (apply le_IZR; eapply Rle_trans; [apply Zfloor_lb|exact X1]). unfold small. lia. }
  assert (C0 : 0 <= Zceil x) by (apply le_IZR; eapply Rle_trans; [exact X0|apply Zceil_ub]).
  assert (U' : Zfloor (rnd x) <= Zceil x) by (apply floor_rnd; [unfold small; lia|apply Zceil_ub]).
  set (k := Z.max 1 (Zfloor (rnd x))). exists (with_mask c0 (leading (length (q_mask c0)) k)), (Z.to_nat k). split; [reflexivity|]. cbn [with_mask q_mask]. rewrite I4. unfold leading. rewrite slice_stop_in by lia.
  split; [reflexivity|]. split; lia.
Qed.
Print Assumptions C03_ratio.
Example C03_ratio_example : option_map q_mask (match seq_set (new_seq 6 false) (NFloat (f64_lit 1 2)) with Ok c => Some c | Raise _ => None end) = Some [true; true; true; false; false; false]
  /\ option_map q_mask (match seq_set (new_seq 6 false) (NFloat (f64_lit 1 100)) with Ok c => Some c | Raise _ => None end) = Some [true; false; false; false; false; false].
Proof. split; vm_compute; reflexivity. Qed.

(** * C04: what a ratio that is read back does *)
(** Assigning the reported ratio again keeps the number of channels or loses one. *)
Lemma ratio_round_trip n k : 1 <= k <= n -> n <= 2 ^ 51 -> let y := rnd (IZR n * rnd (IZR k / IZR n)) in k - 1 <= Zfloor y <= k.
Proof.
  intros K N y. assert (Pn : (0 < IZR n)%R) by (apply IZR_lt; lia). assert (Pk : (1 <= IZR k)%R) by (apply IZR_le; lia). assert (Kn : (IZR k <= IZR n)%R) by (apply IZR_le; lia).
  assert (B51 : IZR (2 ^ 51) = bpow radix2 51) by reflexivity. assert (Kb : (IZR k <= bpow radix2 51)%R) by (rewrite <- B51; apply IZR_le; lia). assert (Nb : (IZR n <= bpow radix2 51)%R) by (rewrite <- B51; apply IZR_le; lia).
  set (q := (IZR k / IZR n)%R) in *. assert (Q1 : (IZR n * q = IZR k)%R) by (unfold q; field; lra).
  assert (Qpos : (0 < q)%R) by (unfold q; apply Rdiv_lt_0_compat; lra).
  assert (Qlow : (bpow radix2 (-51) <= q)%R).
  { change (-51) with (- (51)). rewrite bpow_opp. assert (T : (0 < bpow radix2 51)%R) by apply bpow_gt_0. apply Rmult_le_reg_l with (bpow radix2 51 * IZR n)%R; [apply Rmult_lt_0_compat; lra|].
    replace (bpow radix2 51 * IZR n * / bpow radix2 51)%R with (IZR n) by (field; lra). replace (bpow radix2 51 * IZR n * q)%R with (bpow radix2 51 * IZR k)%R by (rewrite <- Q1; ring). nra. }
  assert (Er : (Rabs (rnd q - q) <= / 2 * bpow radix2 (- 53 + 1) * Rabs q)%R).
  { unfold rnd. apply (relative_error_N_FLT radix2 (-1074) 53). { reflexivity. } rewrite (Rabs_pos_eq q) by lra. apply Rle_trans with (bpow radix2 (-51)); [apply bpow_le; lia|exact Qlow]. }
  rewrite (Rabs_pos_eq q) in Er by lra. change (- 53 + 1) with (-52) in Er.
  assert (D : (Rabs (IZR n * rnd q - IZR k) <= / 2 * / 2)%R).
  { replace (IZR n * rnd q - IZR k)%R with (IZR n * (rnd q - q))%R by (rewrite <- Q1; ring). rewrite Rabs_mult, (Rabs_pos_eq (IZR n)) by lra.
    apply Rle_trans with (IZR n * (/ 2 * bpow radix2 (-52) * q))%R; [apply Rmult_le_compat_l; lra|].
    replace (IZR n * (/ 2 * bpow radix2 (-52) * q))%R with (/ 2 * (bpow radix2 (-52) * IZR k))%R by (rewrite <- Q1; ring). apply Rmult_le_compat_l; [lra|].
    apply Rle_trans with (bpow radix2 (-52) * bpow radix2 51)%R; [apply Rmult_le_compat_l; [apply bpow_ge_0|exact Kb]|]. rewrite <- bpow_plus. change (-52 + 51) with (-1). cbn. lra. }
  apply Rabs_le_inv in D. split.
  - apply rnd_floor; [unfold small; lia|]. rewrite minus_IZR. change (IZR n * rnd (IZR k / IZR n))%R with (IZR n * rnd q)%R. lra.
  - assert (Hf : generic_format radix2 fexp64 (IZR k + / 2)%R).
    { apply generic_format_FLT. exists (Float radix2 (2 * k + 1) (-1)); [|cbn [Fnum]; change (Zpower radix2 53) with (2 ^ 53); lia|cbn; unfold SpecFloat.emin; lia].
      unfold F2R. cbn [Fnum Fexp]. rewrite plus_IZR, mult_IZR. cbn. lra. }
    assert (R : (y <= IZR k + / 2)%R). { unfold y. assert (E : rnd (IZR k + / 2) = (IZR k + / 2)%R) by (apply round_generic; auto with typeclass_instances). rewrite <- E. apply rnd_le. lra. }
    assert (T : Zfloor y < k + 1); [|lia]. apply lt_IZR. apply Rle_lt_trans with y; [apply Zfloor_lb|]. rewrite plus_IZR. lra.
Qed.
Theorem C04_reapply_ratio_partial :
  forall n vs ch v, 1 <= Z.of_nat n <= 2 ^ 51 ->
    ch = assign_all (new_seq n false) vs -> (1 <= count_true (q_mask ch))%nat ->
    seq_get ch = Ok v ->
    exists ch' k, seq_set ch v = Ok ch' /\ q_mask ch' = repeat true k ++ repeat false (n - k) /\
      (k = count_true (q_mask ch) \/ S k = count_true (q_mask ch)) /\ (1 <= k)%nat.
Proof.
  intros n vs ch v N Hch K G. destruct (assign_all_inv vs (new_seq n false)) as (I1 & I2 & _ & I4); [apply repeat_length|]. cbn [new_seq q_n q_num] in *. rewrite <- Hch in *.
  unfold seq_get in G. rewrite I2, I1 in G. set (k := count_true (q_mask ch)) in *. assert (Kn : (k <= n)%nat) by (unfold k; rewrite <- I4; apply count_true_le).
  unfold num2ratio in G. destruct n as [|n'] eqn:En; [lia|]. rewrite <- En in *. apply Ok_inj in G. subst v.
  assert (S1 : small (Z.of_nat k)) by (unfold small; lia). assert (S2 : small (Z.of_nat n)) by (unfold small; lia). destruct (f64_int _ S1) as [A1 B1], (f64_int _ S2) as [A2 B2].
  assert (Pn : (0 < IZR (Z.of_nat n))%R) by (apply IZR_lt; lia). assert (Pk : (0 <= IZR (Z.of_nat k))%R) by (apply IZR_le; lia). assert (Le : (IZR (Z.of_nat k) <= IZR (Z.of_nat n))%R) by (apply IZR_le; lia).
  assert (Qb : (0 <= IZR (Z.of_nat k) / IZR (Z.of_nat n) <= 1)%R). { split; [apply Rmult_le_pos; [lra|apply Rlt_le, Rinv_0_lt_compat; lra]|]. apply Rmult_le_reg_r with (IZR (Z.of_nat n)); [lra|]. replace (IZR (Z.of_nat k) / IZR (Z.of_nat n) * IZR (Z.of_nat n))%R with (IZR (Z.of_nat k)) by (field; lra). lra. }
  assert (R1 : small 1) by (unfold small; lia).
  destruct (f64div_ok _ _ A1 A2) as [Fd Vd]; [rewrite B2; lra|rewrite B1, B2; apply (rnd_max _ 1 R1); rewrite Rabs_pos_eq by lra; lra|]. rewrite B1, B2 in Vd.
  assert (Fb : (0 <= fr (f64div (f64_of_Z (Z.of_nat k)) (f64_of_Z (Z.of_nat n))) <= 1)%R).
  { rewrite Vd. split; [apply rnd_nonneg; lra|]. change 1%R with (IZR 1). rewrite <- (rnd_int 1 R1). apply rnd_le. lra. }
  unfold seq_set. rewrite I1, (ratio2num_fin n _ ltac:(lia) Fd Fb). cbn [bind]. rewrite Vd.
  pose proof (ratio_round_trip (Z.of_nat n) (Z.of_nat k) ltac:(lia) ltac:(lia)) as T. cbv zeta in T. set (z := Zfloor _) in *. exists (with_mask ch (leading (length (q_mask ch)) (Z.max 1 z))), (Z.to_nat (Z.max 1 z)). split; [reflexivity|].
  cbn [with_mask q_mask]. rewrite I4. unfold leading. rewrite slice_stop_in by lia. split; [reflexivity|]. split; lia.
Qed.
Print Assumptions C04_reapply_ratio_partial.
Example C04_ratio_example :
  let ch := assign_all (new_seq 49 false) [NInt 2] in count_true (q_mask ch) = 2%nat /\
  exists v ch', seq_get ch = Ok v /\ seq_set ch v = Ok ch' /\ count_true (q_mask ch') = 1%nat.
Proof. cbv zeta. split; [vm_compute; reflexivity|]. do 2 eexists. split; [vm_compute; reflexivity|]. split; vm_compute; reflexivity. Qed.

(** * C07: value mutables *)
(** Construction: all values of one type and the default among them. *)
Definition is_int (x : num) : bool := match x with NInt _ => true | NFloat _ => false end.
Lemma check_iff l : check_same_type l = Ok tt <-> forall a b, In a l -> In b l -> is_int a = is_int b.
Proof.
  assert (G : forall l a, check_same_type (a :: l) = Ok tt <-> forall b, In b l -> is_int b = is_int a).
  { induction l0 as [|b r IH]; intros a; [split; [intros _ b []|reflexivity]|]. cbn [check_same_type]. specialize (IH b). destruct (same_type a b) eqn:E.
    - assert (Eab : is_int a = is_int b) by (destruct a, b; try discriminate; reflexivity). change (check_same_type (b :: r) = Ok tt <-> (forall c, In c (b :: r) -> is_int c = is_int a)). rewrite IH. split.
      + intros H c [<-|I]; [congruence|rewrite Eab; auto].
      + intros H c I. rewrite <- Eab. apply H. right. exact I.
    - split; [discriminate|]. intros H. specialize (H b (or_introl eq_refl)). destruct a, b; discriminate. }
  destruct l as [|a r]; [split; [intros _ a b []|reflexivity]|]. rewrite G. split.
  - intros H. assert (X : forall b, In b (a :: r) -> is_int b = is_int a) by (intros b [<-|I]; [reflexivity|auto]). intros b c B C. rewrite (X b B), (X c C). reflexivity.
  - intros H b I. apply H; [right; exact I|left; reflexivity].
Qed.
Theorem C07_value_new :
  forall l d, l <> [] ->
    (exists v, new_value l d = Ok v /\ v_list v = l /\ v_fixed v = false /\ Some (v_cur v) = match d with Some x => Some x | None => nth_error l 0 end) <->
    (forall a b, In a l -> In b l -> is_int a = is_int b) /\ (forall x, match d with Some x => Some x | None => nth_error l 0 end = Some x -> num_in x l = true).
Proof.
  intros l d Nl. rewrite <- check_iff. unfold new_value, value_set. set (dd := match d with Some x => Some x | None => nth_error l 0 end). destruct (check_same_type l) as [[]|e] eqn:C; cbn [bind].
  - destruct dd as [x|] eqn:E; cbn [v_list v_fixed].
    + destruct (num_in x l) eqn:I; split.
      * intros _. split; [reflexivity|]. intros y H. inversion H; subst. exact I.
      * intros _. eexists. split; [reflexivity|]. repeat split.
      * intros (v & H & _). discriminate.
      * intros [_ H]. specialize (H x eq_refl). congruence.
    + exfalso. unfold dd in E. destruct d; [discriminate|]. destruct l; [contradiction|discriminate].
  - split; [intros (v & H & _); discriminate|intros [H _]; discriminate].
Qed.
Print Assumptions C07_value_new.
Example C07_value_new_example : new_value [NInt 3; NFloat (f64_lit 1 2)] None = Raise TypeError /\ new_value [NInt 3; NInt 5] (Some (NInt 4)) = Raise ValueError /\
  new_value [NInt 3; NInt 5] None = Ok {| v_list := [NInt 3; NInt 5]; v_cur := NInt 3; v_fixed := false |}.
Proof. repeat split; vm_compute; reflexivity. Qed.
(** One-shot values: the smallest and largest values are reported as such, the default is the
    largest, and no value is lost. *)
Definition finite (x : num) : Prop := exists q, num_val x = Some q.
Definition le (a b : num) : Prop := exists p q, num_val a = Some p /\ num_val b = Some q /\ (p <= q)%Q.
Lemma leb_le a b : finite a -> finite b -> (num_leb a b = true <-> le a b) /\ (num_leb a b = false -> le b a).
Proof.
  intros [p P] [q Q]. unfold num_leb, le. rewrite P, Q. split.
  - rewrite Qle_bool_iff. split; [intros H; eauto|intros (p' & q' & E1 & E2 & H); congruence].
  - intros H. exists q, p. split; [reflexivity|]. split; [reflexivity|]. destruct (Qlt_le_dec q p) as [X|X]; [apply Qlt_le_weak; exact X|]. apply Qle_bool_iff in X. congruence.
Qed.
Lemma le_trans a b c : le a b -> le b c -> le a c.
Proof. intros (p & q & P & Q & H) (q' & r & Q' & R & H'). rewrite Q in Q'. inversion Q'; subst. exists p, r. split; [exact P|]. split; [exact R|]. apply Qle_trans with q'; assumption. Qed.
Lemma le_refl a : finite a -> le a a.
Proof. intros [p P]. exists p, p. split; [exact P|]. split; [exact P|]. apply Qle_refl. Qed.
Lemma insert_sorted x : forall l, finite x -> Forall finite l -> StronglySorted le l -> StronglySorted le (num_insert x l).
Proof.
  induction l as [|y r IH]; intros X F S; cbn [num_insert]; [repeat constructor|]. inversion F; subst. inversion S as [|? ? S1 S2]; subst. destruct (leb_le x y X H1) as [A B]. destruct (num_leb x y) eqn:E.
  - constructor; [exact S|]. constructor; [apply A; reflexivity|]. rewrite Forall_forall in *. intros z Z. apply le_trans with y; [apply A; reflexivity|auto].
  - constructor; [auto|]. rewrite Forall_forall in *. intros z Z. apply (Permutation_in _ (num_insert_perm x r)) in Z. destruct Z as [<-|Z]; [apply B; reflexivity|auto].
Qed.
Lemma sort_sorted l : Forall finite l -> StronglySorted le (num_sort l).
Proof.
  induction 1 as [|x r X F IH]; [constructor|]. cbn. apply insert_sorted; [exact X| |exact IH]. rewrite Forall_forall in *. intros z Z. apply F. apply (Permutation_in _ (num_sort_perm r)). exact Z.
Qed.
Lemma sorted_ends l : StronglySorted le l -> Forall finite l -> forall x a b, nth_error l 0 = Some a -> nth_error l (length l - 1) = Some b -> In x l -> le a x /\ le x b.
Proof.
  induction 1 as [|y r Ss IH H]; intros F x a b A B I; [destruct I|]. inversion F; subst. cbn in A. inversion A; subst y. rewrite Forall_forall in H. split.
  - destruct I as [<-|I]; [apply le_refl; assumption|auto].
  - destruct r as [|z r]; [cbn in B; inversion B; subst; destruct I as [<-|[]]; apply le_refl; assumption|].
    assert (B' : nth_error (z :: r) (length (z :: r) - 1) = Some b) by (cbn [length] in *; rewrite <- B; replace (S (S (length r)) - 1)%nat with (S (S (length r) - 1)) by lia; reflexivity).
    destruct I as [<-|I]; [apply H; eapply nth_error_In; exact B'|]. eapply IH; eauto. reflexivity.
Qed.
Theorem C07_oneshot_value :
  forall l d v, Forall finite l -> new_oneshot_value l d = Ok v ->
    Permutation (v_list v) l /\
    exists lo hi, min_choice v = Some lo /\ max_choice v = Some hi /\ In lo l /\ In hi l /\
      (forall x, In x l -> le lo x /\ le x hi) /\ (d = None -> v_cur v = hi) /\ (forall x, d = Some x -> v_cur v = x).
Proof.
  intros l d v F E. unfold new_oneshot_value in E. set (l' := num_sort l) in *. assert (P : Permutation l' l) by apply num_sort_perm.
  assert (V : exists x, match d with Some x => Some x | None => nth_error l' (length l' - 1) end = Some x /\ v_list v = l' /\ v_cur v = x).
  { destruct (match d with Some x => Some x | None => nth_error l' (length l' - 1) end) as [x|]; [|discriminate]. exists x. split; [reflexivity|]. unfold new_value in E. destruct (check_same_type l'); [|discriminate]. cbn [bind] in E.
    unfold value_set in E. cbn [v_list] in E. destruct (num_in x l'); [|discriminate]. apply Ok_inj in E. subst v. split; reflexivity. }
  destruct V as (x & Ex & Vl & Vc). assert (Nl : l' <> []).
  { intros N. destruct d as [y|]; [|rewrite N in Ex; discriminate]. unfold new_value in E. rewrite N in E. cbn in E. discriminate. }
  assert (Fl : Forall finite l') by (rewrite Forall_forall in *; intros z Z; apply F; apply (Permutation_in _ P); exact Z).
  destruct (nth_error l' 0) as [lo|] eqn:Lo; [|destruct l'; [contradiction|discriminate]]. destruct (nth_error l' (length l' - 1)) as [hi|] eqn:Hi; [|apply nth_error_None in Hi; destruct l'; [contradiction|cbn in Hi; lia]].
  split; [rewrite Vl; exact P|]. exists lo, hi. unfold min_choice, max_choice. rewrite Vl. split; [exact Lo|]. split; [exact Hi|]. split; [apply (Permutation_in _ P); eapply nth_error_In; exact Lo|]. split; [apply (Permutation_in _ P); eapply nth_error_In; exact Hi|].
  split; [intros z Z; eapply sorted_ends; eauto; [apply sort_sorted; exact F|apply (Permutation_in _ (Permutation_sym P)); exact Z]|]. split; [intros ->; rewrite Vc; inversion Ex; reflexivity|intros y ->; rewrite Vc; inversion Ex; reflexivity].
Qed.
Print Assumptions C07_oneshot_value.
Example C07_oneshot_value_example : exists v, new_oneshot_value [NInt 5; NInt 9; NInt 2] None = Ok v /\ v_list v = [NInt 2; NInt 5; NInt 9] /\ v_cur v = NInt 9.
Proof. eexists. repeat split; vm_compute; reflexivity. Qed.

(** * C06: the first default *)
(** With the default argument still unused, or with an empty list of its own, a channel mutable
    accepts exactly its full width. *)
Theorem C06_default_partial :
  forall w n mode arg r, r = match arg with None => 0%nat | Some r => r end -> nth_error (heap w) r = Some [] ->
    exists w', step w (ONew n mode arg) = (w', true) /\ candidates w' (length (objs w)) = Some [if mode then NInt (Z.of_nat n) else NFloat (f64_of_Z 1)].
Proof.
  intros w n mode arg r -> E. cbn [step]. set (r := match arg with None => 0%nat | Some r => r end) in *. rewrite E. eexists. split; [reflexivity|]. unfold candidates. cbn [objs heap].
  rewrite nth_error_app2, Nat.sub_diag by lia. cbn [nth_error os_ref]. unfold init_candidates. cbn [num_sort fold_right]. unfold upd. assert (L : (r < length (heap w))%nat) by (apply nth_error_Some; congruence). destruct (Nat.ltb_spec r (length (heap w))); [|lia].
  rewrite nth_error_app2 by (rewrite firstn_length; lia). rewrite firstn_length, Nat.min_l, Nat.sub_diag by lia. reflexivity.
Qed.
Print Assumptions C06_default_partial.
Example C06_default_example : candidates (run [ONew 4 true None]) 0 = Some [NInt 4] /\ candidates (run [OAlloc []; ONew 4 false (Some 1%nat)]) 0 = Some [NFloat (f64_of_Z 1)].
Proof. split; reflexivity. Qed.

(** * C57: ratio candidates stand for divisible widths *)
Theorem C57_ratio_candidates :
  forall u l cands c, 0 < u_div u -> (0 <= u_ratio u <= 1)%Q -> (u_div u | u_min u) \/ u_min u <= u_div u -> (0 < u_n u)%nat ->
    u_num u = false -> prepare_candidates u l = Ok cands -> In c cands ->
    exists k, 0 < k /\ (u_div u | k) /\ c = NFloat (f64div (f64_of_Z k) (f64_of_Z (Z.of_nat (u_n u)))).
Proof.
  intros u l cands c D R M N U E I. unfold prepare_candidates in E. destruct (mapM (prepare_candidate u) l) as [ys|] eqn:Em; [|discriminate]. cbn [bind] in E. apply Ok_inj in E. subst cands.
  apply (Permutation_in _ (num_sort_perm ys)) in I. destruct (mapM_ok _ _ _ Em _ I) as (x & _ & X). unfold prepare_candidate in X. rewrite U in X. destruct x as [z|f]; [discriminate|].
  destruct (ratio2num (u_n u) (NFloat f)) as [k0|] eqn:E0; [|discriminate]. cbn [bind] in X. destruct (u_make_divisible u k0) as [k|] eqn:Ek; [|discriminate]. cbn [bind] in X. exists k.
  assert (K0 : 0 < k0). { unfold ratio2num in E0. destruct (py_int _) as [i|]; [|discriminate]. cbn [bind] in E0. apply Ok_inj in E0. lia. }
  destruct (C05_make_divisible k0 (u_div u) (Some (u_min u)) (u_ratio u) K0 D R) as (r & Er & Dv & Lr & _). unfold u_make_divisible in Ek. rewrite Ek in Er. apply Ok_inj in Er. subst r. split; [lia|]. split; [apply Dv; intros m Hm; inversion Hm; subst; exact M|].
  unfold num2ratio in X. destruct (u_n u); [lia|]. apply Ok_inj in X. symmetry. exact X.
Qed.
Print Assumptions C57_ratio_candidates.
Example C57_ratio_example :
  prepare_candidates {| u_n := 32; u_num := false; u_div := 8; u_min := 1; u_ratio := 9 # 10 |} [NFloat (f64_lit 1 2); NFloat (f64_lit 3 10)]
  = Ok [NFloat (f64div (f64_of_Z 16) (f64_of_Z 32)); NFloat (f64div (f64_of_Z 16) (f64_of_Z 32))].
Proof. vm_compute. reflexivity. Qed.
