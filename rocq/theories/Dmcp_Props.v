(** C41, C42, C76-C78: DMCP. *)
From Coq Require Import Ascii Qminmax Qabs Lqa.
From Verif Require Import Prelude PyNum Engine_Model Engine_Props Dmcp_Model.
Open Scope Z_scope.

(** * C41: sampled channel numbers *)
(** Not negative: the sign bit is not set (NaN included). *)
Definition plus (f : spec_float) : bool := match f with S754_zero s | S754_infinity s | S754_finite s _ _ => negb s | S754_nan => true end.
Lemma round_aux_plus mx ex lx : plus (binary_round_aux 53 1024 false mx ex lx) = true.
Proof.
  unfold binary_round_aux. destruct (shr_fexp 53 1024 mx ex lx) as [m1 e1]. destruct (shr_fexp _ _ _ e1 loc_Exact) as [m2 e2].
  destruct (shr_m m2); [reflexivity| |reflexivity]. destruct (e2 <=? 1024 - 53); reflexivity.
Qed.
Lemma of_nat_plus n : plus (f64_of_Z (Z.of_nat n)) = true.
Proof.
  unfold f64_of_Z, binary_normalize. destruct (Z.of_nat n) eqn:E; [reflexivity| |lia]. unfold binary_round. destruct (shl_align _ _ _). apply round_aux_plus.
Qed.
Lemma mul_plus a b : plus a = true -> plus b = true -> plus (f64mul a b) = true.
Proof.
  unfold f64mul. destruct a as [[]|[]| |[] ? ?], b as [[]|[]| |[] ? ?]; cbn [plus negb]; intros A B; try discriminate; try reflexivity. apply round_aux_plus.
Qed.
Lemma div_plus a b : plus a = true -> plus b = true -> plus (f64div a b) = true.
Proof.
  unfold f64div. destruct a as [[]|[]| |[] ? ?], b as [[]|[]| |[] ? ?]; cbn [plus negb]; intros A B; try discriminate; try reflexivity.
  unfold SFdiv. destruct (SFdiv_core_binary _ _ _ _ _ _) as [[? ?] ?]. apply round_aux_plus.
Qed.
Lemma int_plus f z : plus f = true -> PyNum.py_int f = Ok z -> 0 <= z.
Proof.
  unfold PyNum.py_int. destruct f as [s|s| |s m e]; intros P H; try discriminate; apply Ok_inj in H; subst; [lia|]. destruct s; [discriminate|]. cbv zeta.
  destruct e; [lia|apply Z.mul_nonneg_nonneg; [lia|apply Z.pow_nonneg; lia]|apply Z.div_pos; [lia|apply Z.pow_pos_nonneg; lia]].
Qed.
Lemma message_spec lo hi off out g n c : plus hi = true -> plus off = true -> arch_message lo hi off out = Ok (g, n, c) -> 0 <= g /\ 0 < c /\ c + g * n = Z.of_nat out.
Proof.
  intros Ph Po E. unfold arch_message in E. destruct (py_div _ hi) as [q|] eqn:D; [|discriminate]. cbn [bind] in E. destruct (PyNum.py_int q) as [g'|] eqn:G; [|discriminate]. cbn [bind] in E.
  destruct (py_div _ off) as [r|]; [|discriminate]. cbn [bind] in E. destruct (PyNum.py_int (f64add r _)) as [n'|]; [|discriminate]. cbn [bind] in E.
  destruct (Z.ltb_spec 0 (Z.of_nat out - g' * n')); cbn [bind assert_] in E; [|discriminate]. destruct (Z.eqb_spec (g' * n' + (Z.of_nat out - g' * n')) (Z.of_nat out)); cbn [bind assert_] in E; [|discriminate].
  apply Ok_inj in E. inversion E; subst. split; [|lia]. apply (int_plus q); [|exact G]. unfold py_div in D. destruct hi; try discriminate; apply Ok_inj in D; subst q; (apply div_plus; [apply mul_plus; [exact Po|apply of_nat_plus]|exact Ph]).
Qed.
Lemma direct_spec g : forall ps us acc, exists k, (k <= length ps)%nat /\ direct g acc ps us = acc + g * Z.of_nat k.
Proof.
  induction ps as [|p ps IH]; intros [|u us] acc; cbn [direct]; try (exists 0%nat; cbn; lia). destruct (negb (Qle_bool u p)); [exists 0%nat; cbn; lia|].
  destruct (IH us (acc + g)) as (k & K & E). exists (S k). cbn [length]. rewrite E. split; lia.
Qed.
Theorem C41_in_space :
  forall expn lo hi off out g n c zeros arch r us mode ch,
    plus hi = true -> plus off = true -> prepare_unit lo hi off out = Ok (g, n, c, zeros) ->
    length arch = length zeros -> 0 <= r <= n ->
    prune_by_arch expn (g, n, c) arch r us mode = Ok (Num ch) ->
    exists k, 0 <= k <= n /\ ch = c + k * g /\ 0 < c <= ch /\ ch <= Z.of_nat out /\
      (mode = MMax -> ch = Z.of_nat out) /\ (mode = MMin -> ch = c).
Proof.
  intros expn lo hi off out g n c zeros arch r us mode ch Ph Po P La R E. unfold prepare_unit in P. destruct (arch_message lo hi off out) as [[[g' n'] c']|] eqn:M; [|discriminate]. cbn [bind] in P.
  destruct (Z.ltb_spec n' 0) as [|Hn]; [discriminate|]. apply Ok_inj in P. inversion P; subst. destruct (message_spec _ _ _ _ _ _ _ Ph Po M) as (G & C & S). rewrite repeat_length in La.
  assert (D : forall k, 0 <= k <= n -> ch = c + g * k -> (mode = MMax -> k = n) -> (mode = MMin -> k = 0) -> exists k, 0 <= k <= n /\ ch = c + k * g /\ 0 < c <= ch /\ ch <= Z.of_nat out /\ (mode = MMax -> ch = Z.of_nat out) /\ (mode = MMin -> ch = c)).
  { intros k K Ek Mx Mn. exists k. split; [exact K|]. split; [lia|]. split; [nia|]. split; [nia|]. split; intros X; [specialize (Mx X)|specialize (Mn X)]; subst k; lia. }
  unfold prune_by_arch in E. destruct mode.
  - apply Ok_inj in E. inversion E; subst. apply (D n); [lia|reflexivity|auto|discriminate].
  - apply Ok_inj in E. inversion E; subst. apply (D 0); [lia|lia|discriminate|auto].
  - apply Ok_inj in E. inversion E; subst. apply (D r); [lia|reflexivity|discriminate|discriminate].
  - destruct (Z.eqb_spec n 0) as [->|N]; [apply Ok_inj in E; inversion E; subst; apply (D 0); [lia|lia|discriminate|discriminate]|]. apply Ok_inj in E. inversion E; subst.
    destruct (direct_spec g (condition expn arch) us c) as (k & K & Ek). unfold condition in K at 1. rewrite map_length in K. apply (D (Z.of_nat k)); [lia|exact Ek|discriminate|discriminate].
  - destruct (Z.eqb_spec n 0) as [->|N]; [apply Ok_inj in E; inversion E; subst; apply (D 0); [lia|lia|discriminate|discriminate]|discriminate].
  - destruct (Z.eqb_spec n 0) as [->|N]; [apply Ok_inj in E; inversion E; subst; apply (D 0); [lia|lia|discriminate|discriminate]|discriminate].
Qed.
(** The default configuration on 64 channels: 18 groups of 3 above 10. *)
Example C41_ex :
  exists zeros, prepare_unit (f64_lit 1 10) (f64_of_Z 1) (f64_lit 1 20) 64 = Ok (3, 18, 10, zeros) /\ plus (f64_lit 1 20) = true /\
    prune_by_arch (fun _ => (1 # 2)%Q) (3, 18, 10) (repeat 0%Q 18) 0 [1 # 4; 1 # 3; 3 # 4]%Q MDirect = Ok (Num 16) /\
    prune_by_arch (fun _ => (1 # 2)%Q) (3, 18, 10) (repeat 0%Q 18) 0 [] MMax = Ok (Num 64).
Proof. eexists. split; [vm_compute; reflexivity|]. repeat split; vm_compute; reflexivity. Qed.

(** * C76: the expected channel number is the mean of the direct samples *)
(** The probability that the walk stops after exactly k groups. *)
Fixpoint prod (l : list Q) : Q := match l with [] => 1%Q | x :: r => (x * prod r)%Q end.
Definition stop_prob (ps : list Q) (k : nat) : Q := (prod (firstn k ps) * (if Nat.ltb k (length ps) then 1 - nth k ps 0 else 1))%Q.
Definition mean (ps : list Q) (g c : Z) : Q := qsum (map (fun k => (stop_prob ps k * inject_Z (c + g * Z.of_nat k))%Q) (seq 0 (S (length ps)))).
Lemma qsum_ext {A} (f h : A -> Q) l : (forall x, In x l -> (f x == h x)%Q) -> (qsum (map f l) == qsum (map h l))%Q.
Proof. induction l as [|x l IH]; intros H; [reflexivity|]. cbn. rewrite (H x (or_introl eq_refl)), IH; [reflexivity|]. intros y I. apply H. right. exact I. Qed.
Lemma qsum_scale {A} (f : A -> Q) (q : Q) l : (qsum (map (fun x => (q * f x)%Q) l) == q * qsum (map f l))%Q.
Proof. induction l as [|x l IH]; unfold qsum in *; cbn [map fold_right]; [ring|]. rewrite IH. ring. Qed.
Lemma cumprod_scale ps : forall a, (qsum (cumprod_from a ps) == a * qsum (cumprod ps))%Q.
Proof.
  induction ps as [|p ps IH]; intros a; unfold cumprod; cbn [cumprod_from qsum fold_right]; [ring|]. fold (qsum (cumprod_from (a * p) ps)). fold (qsum (cumprod_from (1 * p) ps)). rewrite (IH (a * p)%Q), (IH (1 * p)%Q). ring.
Qed.
Lemma mean_closed ps : forall g c, (mean ps g c == qsum (cumprod ps) * inject_Z g + inject_Z c)%Q.
Proof.
  induction ps as [|p ps IH]; intros g c.
  - unfold mean, stop_prob, cumprod. cbn [length seq map qsum fold_right cumprod_from firstn prod Nat.ltb Nat.leb]. change (Z.of_nat 0) with 0. rewrite Z.mul_0_r, Z.add_0_r. ring.
  - unfold mean. change (S (length (p :: ps))) with (S (S (length ps))). rewrite <- (seq_shift (S (length ps)) 0) at 1 || idtac.
    change (seq 0 (S (S (length ps)))) with (0%nat :: seq 1 (S (length ps))). rewrite <- seq_shift. rewrite map_cons, map_map. cbn [qsum fold_right].
    fold (qsum (map (fun k => (stop_prob (p :: ps) (S k) * inject_Z (c + g * Z.of_nat (S k)))%Q) (seq 0 (S (length ps))))).
    rewrite (qsum_ext _ (fun k => (p * (stop_prob ps k * inject_Z ((c + g) + g * Z.of_nat k)))%Q)).
    + rewrite qsum_scale. fold (mean ps g (c + g)). rewrite IH. unfold stop_prob, cumprod. cbn [firstn prod length nth cumprod_from qsum fold_right]. fold (qsum (cumprod_from (1 * p) ps)).
      change (Nat.ltb 0 (S (length ps))) with true. cbv iota. rewrite (cumprod_scale ps (1 * p)%Q). unfold cumprod. change (Z.of_nat 0) with 0. rewrite Z.mul_0_r, Z.add_0_r, inject_Z_plus. ring.
    + intros k _. unfold stop_prob. cbn [firstn prod length nth]. replace (c + g + g * Z.of_nat k) with (c + g * Z.of_nat (S k)) by lia.
      replace (Nat.ltb (S k) (S (length ps))) with (Nat.ltb k (length ps)) by (destruct (Nat.ltb_spec k (length ps)), (Nat.ltb_spec (S k) (S (length ps))); try reflexivity; lia). ring.
Qed.
(** The walk: it passes group i with probability p_i, when the draw is at most p_i. *)
Theorem C76_walk :
  forall g c ps us k, 0 < g -> length us = length ps -> (k <= length ps)%nat ->
    direct g c ps us = c + g * Z.of_nat k <->
    (forall i, (i < k)%nat -> (nth i us 0 <= nth i ps 0)%Q) /\ ((k < length ps)%nat -> (nth k ps 0 < nth k us 0)%Q).
Proof.
  intros g c ps. revert c. induction ps as [|p ps IH]; intros c [|u us] k G L K; try discriminate L; cbn [direct length] in *.
  - split; [intros _; split; intros; lia|intros _; nia].
  - destruct (Qle_bool u p) eqn:E; cbn [negb].
    + apply Qle_bool_iff in E. destruct k as [|k].
      * split; [|intros [_ H]; specialize (H ltac:(lia)); cbn in H; exfalso; apply (Qlt_not_le _ _ H E)].
        intros H. exfalso. destruct (direct_spec g ps us (c + g)) as (k & _ & Ek). rewrite Ek in H. nia.
      * specialize (IH (c + g) us k G ltac:(lia) ltac:(lia)). replace (c + g * Z.of_nat (S k)) with (c + g + g * Z.of_nat k) by lia. rewrite IH. split.
        -- intros [A B]. split; [intros [|i] Hi; [exact E|apply (A i); lia]|intros H; apply B; lia].
        -- intros [A B]. split; [intros i Hi; apply (A (S i)); lia|intros H; apply B; lia].
    + destruct k as [|k].
      * split; [intros _|intros _; lia]. split; [intros; lia|]. intros _. cbn. apply Qnot_le_lt. intros X. apply Qle_bool_iff in X. congruence.
      * split; [intros H; nia|]. intros [A _]. specialize (A 0%nat ltac:(lia)). cbn in A. apply Qle_bool_iff in A. congruence.
Qed.
Example C76_walk_ex : direct 3 10 [1 # 2; 1 # 3; 1 # 4]%Q [1 # 4; 1 # 3; 3 # 4]%Q = 10 + 3 * Z.of_nat 2.
Proof. reflexivity. Qed.
Theorem C76_expected_is_mean :
  forall expn g n c arch r us, n <> 0 ->
    exists q, prune_by_arch expn (g, n, c) arch r us MExpected = Ok (Tensor q) /\ (q == mean (condition expn arch) g c)%Q.
Proof.
  intros expn g n c arch r us N. unfold prune_by_arch. destruct (Z.eqb_spec n 0); [contradiction|]. eexists. split; [reflexivity|]. symmetry. apply mean_closed.
Qed.
Lemma cumprod_unit ps : Forall (fun p => (0 < p <= 1)%Q) ps -> forall a, (0 < a <= 1)%Q -> Forall (fun p => (0 < p <= 1)%Q) (cumprod_from a ps).
Proof.
  intros F. induction F as [|p ps P F IH]; intros a A; [constructor|]. cbn. assert (X : (0 < a * p <= 1)%Q) by (split; nra). constructor; [exact X|apply IH; exact X].
Qed.
Lemma condition_unit expn arch : (forall x, (x <= 0)%Q -> (0 < expn x <= 1)%Q) -> Forall (fun p => (0 < p <= 1)%Q) (condition expn arch).
Proof. intros H. apply Forall_map, Forall_forall. intros a _. apply H. pose proof (Q.le_max_r a 0). lra. Qed.
Lemma cumprod_length ps : forall a, length (cumprod_from a ps) = length ps.
Proof. induction ps as [|p ps IH]; intros a; [reflexivity|]. cbn. f_equal. apply IH. Qed.
Lemma qsum_bound l : Forall (fun p => (0 < p <= 1)%Q) l -> (0 <= qsum l <= inject_Z (Z.of_nat (length l)))%Q.
Proof.
  intros F. induction F as [|p ps Pp F IH]; [split; apply Qle_refl|]. cbn [qsum fold_right length]. fold (qsum ps). rewrite Nat2Z.inj_succ. unfold Z.succ. rewrite inject_Z_plus. change (inject_Z 1) with 1%Q. lra.
Qed.
(** It lies in the search space as well. *)
Theorem C76_expected_in_space :
  forall expn lo hi off out g n c zeros arch r us q,
    (forall x, (x <= 0)%Q -> (0 < expn x <= 1)%Q) -> plus hi = true -> plus off = true ->
    prepare_unit lo hi off out = Ok (g, n, c, zeros) -> length arch = length zeros ->
    prune_by_arch expn (g, n, c) arch r us MExpected = Ok (Tensor q) -> (inject_Z c <= q <= inject_Z (Z.of_nat out))%Q.
Proof.
  intros expn lo hi off out g n c zeros arch r us q X Ph Po P La E. unfold prepare_unit in P. destruct (arch_message lo hi off out) as [[[g' n'] c']|] eqn:M; [|discriminate]. cbn [bind] in P.
  destruct (Z.ltb_spec n' 0) as [|Hn]; [discriminate|]. apply Ok_inj in P. inversion P; subst. destruct (message_spec _ _ _ _ _ _ _ Ph Po M) as (G & C & S). rewrite repeat_length in La.
  unfold prune_by_arch in E. destruct (Z.eqb_spec n 0); [discriminate|]. apply Ok_inj in E. inversion E; subst. clear E P.
  assert (F : Forall (fun p => (0 < p <= 1)%Q) (cumprod (condition expn arch))) by (apply cumprod_unit; [apply condition_unit; exact X|split; [reflexivity|apply Qle_refl]]).
  assert (L : length (cumprod (condition expn arch)) = Z.to_nat n).
  { rewrite <- La. unfold cumprod. rewrite cumprod_length. apply map_length. }
  assert (B : (0 <= qsum (cumprod (condition expn arch)) <= inject_Z n)%Q).
  { rewrite <- (Z2Nat.id n) by lia. rewrite <- L. apply qsum_bound. exact F. }
  assert (G' : (0 <= inject_Z g)%Q) by (change 0%Q with (inject_Z 0); rewrite <- Zle_Qle; exact G). rewrite <- S, inject_Z_plus, inject_Z_mult. split; nra.
Qed.
Example C76_ex :
  exists q, prune_by_arch (fun _ => (1 # 2)%Q) (4, 2, 8) [0; 0]%Q 0 [] MExpected = Ok (Tensor q) /\ (q == 11)%Q /\ (mean [1 # 2; 1 # 2]%Q 4 8 == 11)%Q.
Proof. eexists. split; [reflexivity|]. split; vm_compute; reflexivity. Qed.

Lemma nth_map_at {A B} (f : A -> B) d d' l i : (i < length l)%nat -> nth i (map f l) d = f (nth i l d').
Proof. intros H. rewrite (nth_indep _ d (f d')) by (rewrite map_length; exact H). apply map_nth. Qed.
(** * C77: architecture parameters weight the groups *)
(** Channel j above min_ch is scaled by the probability that its group is kept: the factors are
    in (0, 1] and do not increase with the channel number; the first min_ch channels are
    unchanged. *)
Theorem C77_factors :
  forall expn x arch g n c y, (forall v, (v <= 0)%Q -> (0 < expn v <= 1)%Q) -> 0 <= g -> 0 <= c ->
    forward_arch_param expn x arch (g, n, c) = Ok y ->
    exists f, length y = length x /\
      (forall j, (j < length x)%nat -> (nth j y 0 == nth j x 0 * f j)%Q /\ (0 < f j <= 1)%Q) /\
      (forall i j, (i <= j < length x)%nat -> (f j <= f i)%Q) /\
      (forall j, (Z.of_nat j < c) -> f j = 1%Q).
Proof.
  intros expn x arch g n c y X G C E. unfold forward_arch_param in E. destruct ((n =? 0) || (Z.of_nat (length x) =? c)).
  { apply Ok_inj in E. subst y. exists (fun _ => 1%Q). split; [reflexivity|]. split; [intros j _; split; [ring|split; [reflexivity|apply Qle_refl]]|]. split; [intros; apply Qle_refl|reflexivity]. }
  destruct (Z.eqb_spec g 0) as [|Ng]; [discriminate|]. set (prob := cumprod (condition expn arch)) in *. set (rest := skipn (Z.to_nat c) x) in *.
  destruct (Z.eqb_spec (Z.of_nat (length rest) / g * g) (Z.of_nat (length rest))) as [Dv|]; [|discriminate]. cbn [negb] in E. destruct (Z.ltb_spec (Z.of_nat (length prob)) (Z.of_nat (length rest) / g)) as [|Lp]; [discriminate|].
  apply Ok_inj in E. subst y. set (m := Z.to_nat c). set (gn := Z.to_nat g).
  exists (fun j => if Nat.ltb j m then 1%Q else nth ((j - m) / gn) prob 0%Q).
  assert (F : Forall (fun p => (0 < p <= 1)%Q) prob) by (apply cumprod_unit; [apply condition_unit; exact X|split; [reflexivity|apply Qle_refl]]).
  assert (Lr : length rest = (length x - m)%nat) by (unfold rest, m; apply skipn_length).
  assert (Lf : length (firstn m x) = Nat.min m (length x)) by apply firstn_length.
  assert (IDX : forall j, (m <= j < length x)%nat -> ((j - m) / gn < length prob)%nat).
  { intros j Hj. apply Nat.div_lt_upper_bound; [unfold gn; lia|]. apply Nat2Z.inj_lt. rewrite Nat2Z.inj_mul. unfold gn. rewrite Z2Nat.id by lia. nia. }
  assert (MON : forall i j, (i <= j < length prob)%nat -> (nth j prob 0 <= nth i prob 0)%Q).
  { assert (Step : forall ps, Forall (fun p => (0 < p <= 1)%Q) ps -> forall a, (0 < a <= 1)%Q -> forall i j, (i <= j < length (cumprod_from a ps))%nat -> (nth j (cumprod_from a ps) 0 <= nth i (cumprod_from a ps) 0)%Q /\ (nth j (cumprod_from a ps) 0 <= a)%Q).
    { intros ps Fp. induction Fp as [|p ps P Fp IH]; intros a A i j H; cbn [cumprod_from length] in *; [lia|]. assert (A' : (0 < a * p <= 1)%Q) by (split; nra). specialize (IH (a * p)%Q A'). destruct i as [|i], j as [|j]; try lia; cbn [nth].
      - split; [apply Qle_refl|nra].
      - destruct (IH j j ltac:(lia)) as [_ B]. split; [exact B|nra].
      - destruct (IH i j ltac:(lia)) as [B B']. split; [exact B|nra]. }
    intros i j H. apply (Step (condition expn arch)); [apply condition_unit; exact X|split; [reflexivity|apply Qle_refl]|exact H]. }
  split; [rewrite app_length, Lf, map_length, combine_length, seq_length, Lr; lia|]. split; [|split].
  - intros j Hj. destruct (Nat.ltb_spec j m) as [A|A].
    + split; [|split; [reflexivity|apply Qle_refl]]. rewrite app_nth1 by lia. rewrite <- (firstn_skipn m x) at 2. rewrite app_nth1 by lia. ring.
    + rewrite app_nth2 by lia. rewrite Lf, Nat.min_l by lia.
      rewrite (nth_map_at _ 0%Q (0%nat, 0%Q)) by (rewrite combine_length, seq_length; lia). rewrite combine_nth by apply seq_length. cbn [fst snd]. rewrite seq_nth by lia. cbn [plus Nat.add]. rewrite <- (firstn_skipn m x) at 1. rewrite app_nth2 by lia. rewrite Lf, Nat.min_l by lia.
      split; [reflexivity|]. rewrite Forall_forall in F. apply F, nth_In, IDX. lia.
  - intros i j H. destruct (Nat.ltb_spec j m) as [A|A], (Nat.ltb_spec i m) as [B|B]; try lia; [apply Qle_refl| |].
    + rewrite Forall_forall in F. apply F, nth_In, IDX. lia.
    + apply MON. split; [apply Nat.div_le_mono; [unfold gn|]; lia|apply IDX; lia].
  - intros j Hj. destruct (Nat.ltb_spec j m) as [|A]; [reflexivity|]. unfold m in A. lia.
Qed.
Example C77_ex : forward_arch_param (fun _ => (1 # 2)%Q) [1; 2; 3; 4; 5; 6]%Q [0; 0; 0]%Q (2, 3, 2) = Ok [1; 2; 3 * (1 * (1 # 2)); 4 * (1 * (1 # 2)); 5 * (1 * (1 # 2) * (1 # 2)); 6 * (1 * (1 # 2) * (1 # 2))]%Q.
Proof. reflexivity. Qed.

(** * C42: the FLOPs loss *)
(** What is used of the logarithm. *)
Definition log_like (ln : Q -> Q) : Prop := forall x, (0 < x)%Q -> ((ln x == 0)%Q <-> (x == 1)%Q).
(** The full claim. *)
Definition C42_claim : Prop :=
  forall ln weight target expected, log_like ln -> (0 < weight)%Q -> (0 < target)%Q -> (0 <= expected)%Q ->
    (exists v, flops_loss ln LogL1 weight target expected = Ok (Some v) /\ (v == 0)%Q) <->
    ((95 # 100) * (target * 1000000) <= expected /\ expected < target * 1000000)%Q.
Lemma log_pos ln x : (0 < x)%Q -> log_ ln x = Some (ln x).
Proof. intros H. unfold log_. destruct (Qle_bool x 0) eqn:E; [|reflexivity]. apply Qle_bool_iff in E. lra. Qed.
(** The lower bound is in FLOPs instead of MFLOPs: the loss is not zero anywhere in the band. *)
Theorem C42_nowhere_zero :
  forall ln weight target expected, log_like ln -> (0 < weight)%Q -> (1 <= target)%Q ->
    ((95 # 100) * (target * 1000000) <= expected /\ expected < target * 1000000)%Q ->
    exists v, flops_loss ln LogL1 weight target expected = Ok (Some v) /\ ~ (v == 0)%Q.
Proof.
  intros ln w t e Ln W T [A B]. unfold flops_loss. cbn [bind].
  assert (E1 : Qle_bool (t * (95 # 100)) e = true) by (apply Qle_bool_iff; nra). assert (E2 : Qle_bool t e = true) by (apply Qle_bool_iff; nra). rewrite E1, E2. cbn [negb].
  set (r := if Qle_bool _ 200 then 1%Q else (1 # 10)%Q). assert (R : (1 # 10 <= r)%Q) by (unfold r; destruct (Qle_bool (Qabs _) 200); apply Qle_bool_iff; reflexivity).
  assert (Ab : (Qabs (e - t * (95 # 100)) == e - t * (95 # 100))%Q) by (apply Qabs_pos; nra).
  assert (Big : (1 < r * Qabs (e - t * (95 # 100)))%Q) by (rewrite Ab; assert (1000 <= e - t * (95 # 100))%Q by nra; nra).
  rewrite log_pos by lra. cbn [option_map]. eexists. split; [reflexivity|]. intros H. apply Qmult_integral in H. destruct H as [H|H]; [|lra]. apply Ln in H; lra.
Qed.
Example C42_nowhere_ex : exists v, flops_loss (fun x => x - 1)%Q LogL1 1 100 97000000 = Ok (Some v) /\ (v == 96999905 * (1 # 10) - 1)%Q.
Proof. eexists. split; [reflexivity|]. vm_compute. reflexivity. Qed.
Theorem C42_units_refuted : ~ C42_claim.
Proof.
  intros H. assert (Ln : log_like (fun x => x - 1)%Q) by (intros x _; split; intros; lra).
  destruct (H (fun x => x - 1)%Q 1%Q 100%Q 97000000%Q Ln ltac:(lra) ltac:(lra) ltac:(lra)) as [_ X]. destruct (X ltac:(split; lra)) as (v & E & Z).
  destruct (C42_nowhere_zero (fun x => x - 1)%Q 1%Q 100%Q 97000000%Q Ln ltac:(lra) ltac:(lra) ltac:(split; lra)) as (v' & E' & Z'). rewrite E in E'. apply Ok_inj in E'. inversion E'. subst. contradiction.
Qed.
(** What does hold: the loss is zero between 95% and 100% of target_flops taken as FLOPs, and for
    other values only where the logarithm is. *)
Theorem C42_band_partial :
  forall ln weight target expected, log_like ln -> (0 < weight)%Q -> (1 <= target)%Q -> (0 <= expected)%Q -> (expected < target * 1000000)%Q ->
    exists v, flops_loss ln LogL1 weight target expected = Ok (Some v) /\
      ((v == 0)%Q <-> (target * (95 # 100) <= expected < target)%Q \/
                      ((expected < target * (95 # 100))%Q /\ ((if Qle_bool (target * 1000000 - expected) 200 then 1 else 1 # 10) * (target * 1000000 - expected) == 1)%Q) \/
                      ((target <= expected)%Q /\ ((if Qle_bool (target * 1000000 - expected) 200 then 1 else 1 # 10) * (expected - target * (95 # 100)) == 1)%Q)).
Proof.
  intros ln w t e Ln W T E0 E1. unfold flops_loss. cbn [bind].
  assert (Ae : (Qabs (e - t * 1000000) == t * 1000000 - e)%Q) by (rewrite Qabs_neg by lra; ring).
  assert (Rq : Qle_bool (Qabs (e - t * 1000000)) 200 = Qle_bool (t * 1000000 - e) 200) by (rewrite Ae; reflexivity). rewrite Rq. set (r := if Qle_bool (t * 1000000 - e) 200 then 1%Q else (1 # 10)%Q).
  assert (R : (0 < r)%Q) by (unfold r; match goal with |- context [if ?b then _ else _] => destruct b end; reflexivity).
  destruct (Qle_bool (t * (95 # 100)) e) eqn:B1; cbn [negb].
  - apply Qle_bool_iff in B1. destruct (Qle_bool t e) eqn:B2; cbn [negb].
    + apply Qle_bool_iff in B2. assert (Ab : (Qabs (e - t * (95 # 100)) == e - t * (95 # 100))%Q) by (apply Qabs_pos; lra).
      assert (P : (0 < r * Qabs (e - t * (95 # 100)))%Q) by (rewrite Ab; apply Qmult_lt_0_compat; lra). rewrite log_pos by exact P. cbn [option_map]. eexists. split; [reflexivity|]. split.
      * intros H. apply Qmult_integral in H. destruct H as [H|H]; [|lra]. apply (Ln _ P) in H. rewrite Ab in H. right. right. split; [exact B2|exact H].
      * intros [H|[[H _]|[_ H]]]; [lra|lra|]. assert (X : (ln (r * Qabs (e - t * (95 # 100))) == 0)%Q) by (apply (Ln _ P); rewrite Ab; exact H). rewrite X. ring.
    + assert (B2' : (e < t)%Q) by (apply Qnot_le_lt; intros X; apply Qle_bool_iff in X; congruence). cbn [option_map]. eexists. split; [reflexivity|]. split; [intros _; left; split; assumption|intros _; ring].
  - assert (B1' : (e < t * (95 # 100))%Q) by (apply Qnot_le_lt; intros X; apply Qle_bool_iff in X; congruence).
    assert (P : (0 < r * Qabs (e - t * 1000000))%Q) by (rewrite Ae; apply Qmult_lt_0_compat; lra). rewrite log_pos by exact P. cbn [option_map]. eexists. split; [reflexivity|]. split.
    + intros H. apply Qmult_integral in H. destruct H as [H|H]; [|lra]. apply (Ln _ P) in H. rewrite Ae in H. right. left. split; [exact B1'|exact H].
    + intros [H|[[_ H]|[H _]]]; [lra| |lra]. assert (X : (ln (r * Qabs (e - t * 1000000)) == 0)%Q) by (apply (Ln _ P); rewrite Ae; exact H). rewrite X. ring.
Qed.
Example C42_band_ex : flops_loss (fun x => x - 1)%Q LogL1 1 100 97 = Ok (Some (97 * 0 * 1)%Q).
Proof. reflexivity. Qed.
(** The other losses: l1 and l2 vanish exactly on the target and grow with the distance. *)
Theorem C42_l1_l2 :
  forall ln t weight target e e', t = L1 \/ t = L2 -> (0 < weight)%Q ->
    exists v v', flops_loss ln t weight target e = Ok (Some v) /\ flops_loss ln t weight target e' = Ok (Some v') /\
      ((v == 0)%Q <-> (e == target * 1000000)%Q) /\
      ((Qabs (e - target * 1000000) <= Qabs (e' - target * 1000000))%Q -> (v <= v')%Q).
Proof.
  intros ln t w tg e e' Ht W. unfold flops_loss. set (d := (e - tg * 1000000)%Q). set (d' := (e' - tg * 1000000)%Q).
  assert (Z : (d == 0)%Q <-> (e == tg * 1000000)%Q) by (unfold d; split; intros; lra). destruct Ht as [-> | ->]; cbn [bind option_map]; do 2 eexists; (split; [reflexivity|]); (split; [reflexivity|]); rewrite <- Z; split.
  - split; [intros H; apply Qmult_integral in H; destruct H as [H|H]; [|lra]; apply Qabs_case in H || idtac|intros H; rewrite H; reflexivity].
    destruct (Qlt_le_dec d 0) as [N|N]; [rewrite Qabs_neg in H by lra; lra|rewrite Qabs_pos in H by lra; exact H].
  - intros H. apply Qmult_le_compat_r; [exact H|lra].
  - split; [intros H; apply Qmult_integral in H; destruct H as [H|H]; [|lra]; apply Qmult_integral in H; tauto|intros H; rewrite H; reflexivity].
  - intros H. apply Qmult_le_compat_r; [|lra]. assert (S : forall x, (x * x == Qabs x * Qabs x)%Q) by (intros x; rewrite <- Qabs_Qmult, Qabs_pos; [reflexivity|nra]). rewrite (S d), (S d'). pose proof (Qabs_nonneg d). nra.
Qed.
Example C42_l1_ex : exists v, flops_loss (fun x => x) L1 2 100 99999999 = Ok (Some v) /\ (v == 2)%Q.
Proof. eexists. split; [reflexivity|]. vm_compute. reflexivity. Qed.
(** inverted_log_l1 is not a number below the target. *)
Definition C42_finite_claim : Prop :=
  forall ln t weight target e, t <> OtherLoss -> (0 < target)%Q -> (0 <= e)%Q -> exists v, flops_loss ln t weight target e = Ok (Some v).
Theorem C42_inverted_refuted : ~ C42_finite_claim.
Proof. intros H. destruct (H (fun x => x) InvertedLogL1 1%Q 100%Q 90000000%Q ltac:(discriminate) ltac:(lra) ltac:(lra)) as [v E]. vm_compute in E. discriminate. Qed.
Theorem C42_finite_partial :
  forall ln t weight target e, t <> OtherLoss -> (0 < target)%Q -> (0 <= e)%Q -> (t = InvertedLogL1 -> (target * 1000000 <= e)%Q) -> exists v, flops_loss ln t weight target e = Ok (Some v).
Proof.
  intros ln t w tg e N T E I. unfold flops_loss. destruct t; cbn [bind option_map]; try (eexists; reflexivity); try contradiction.
  - set (r := if Qle_bool _ 200 then 1%Q else (1 # 10)%Q). assert (R : (0 < r)%Q) by (unfold r; match goal with |- context [if ?b then _ else _] => destruct b end; reflexivity). destruct (Qle_bool (tg * (95 # 100)) e) eqn:B1; cbn [negb].
    + apply Qle_bool_iff in B1. destruct (Qle_bool tg e) eqn:B2; cbn [negb]; [|eexists; reflexivity]. apply Qle_bool_iff in B2.
      rewrite log_pos; [eexists; reflexivity|]. apply Qmult_lt_0_compat; [exact R|]. rewrite Qabs_pos by lra. lra.
    + assert (B1' : (e < tg * (95 # 100))%Q) by (apply Qnot_le_lt; intros X; apply Qle_bool_iff in X; congruence). rewrite log_pos; [eexists; reflexivity|]. apply Qmult_lt_0_compat; [exact R|]. rewrite Qabs_neg by lra. lra.
  - specialize (I eq_refl). set (d := (e - tg * 1000000 + (1 # 100000))%Q). assert (D : (0 < d)%Q) by (unfold d; lra). destruct (Qeq_bool d 0) eqn:Q; [apply Qeq_bool_iff in Q; lra|]. rewrite log_pos by (apply Qinv_lt_0_compat; exact D). eexists. reflexivity.
Qed.
Example C42_finite_ex : exists v, flops_loss (fun x => x) InvertedLogL1 1 100 100000001 = Ok (Some v).
Proof. eexists. reflexivity. Qed.

(** * C78: training steps *)
(** The full claim: a strategy entry that is none of the four names trains nothing. *)
Definition names : list string := ["max"; "min"; "arch_random"; "scheduled_random"]%string.
Definition C78_claim : Prop :=
  forall kind start freq iter u s, ~ In kind names -> fst (fst (train_step [kind] start freq iter [u] s)) = [].
Theorem C78_substring_refuted : ~ C78_claim.
Proof.
  intros H. specialize (H "ma"%string 0 1 0 0%Q fresh). vm_compute in H. assert (N : ~ In "ma"%string names) by (cbn; intuition discriminate). specialize (H N). discriminate.
Qed.
Definition mode_of (trained : bool) (u p : Q) (kind : string) : smode :=
  if String.eqb kind "max" then MMax else if String.eqb kind "min" then MMin
  else if String.eqb kind "arch_random" then if trained then MDirect else MRandom
  else if trained && negb (Qle_bool u p) then MDirect else MRandom.
(** For the four names: one subnet per entry, of the right kind. *)
Fixpoint modes (trained : bool) (p : Q) (strategy : list string) (us : list Q) : list smode :=
  match strategy, us with
  | k :: r, u :: us => mode_of trained u p k :: modes trained (if String.eqb k "scheduled_random" then p * (9999 # 10000) else p)%Q r us
  | _, _ => []
  end.
Lemma kinds_modes : forall strategy us s c, Forall (fun k => In k names) strategy -> map fst (fst (train_kinds strategy us s c)) = modes (arch_train s) (sample_prob s) strategy us /\ arch_train (snd (train_kinds strategy us s c)) = arch_train s.
Proof.
  induction strategy as [|k r IH]; intros [|u us] s c F; cbn [train_kinds modes]; try (split; reflexivity). inversion F as [|? ? K F']; subst.
  destruct K as [<-|[<-|[<-|[<-|[]]]]]; cbn - [Qmult train_kinds modes mode_of prefix].
  - match goal with |- context [train_kinds r us s ?c'] => specialize (IH us s c' F'); destruct (train_kinds r us s c') as [l s'] end. destruct IH as [IH1 IH2]. cbn [fst snd map] in *. rewrite IH1. split; [reflexivity|exact IH2].
  - match goal with |- context [train_kinds r us s ?c'] => specialize (IH us s c' F'); destruct (train_kinds r us s c') as [l s'] end. destruct IH as [IH1 IH2]. cbn [fst snd map] in *. rewrite IH1. split; [reflexivity|exact IH2].
  - destruct (arch_train s) eqn:A; (match goal with |- context [train_kinds r us s ?c'] => specialize (IH us s c' F'); destruct (train_kinds r us s c') as [l s'] end; destruct IH as [IH1 IH2]; cbn [fst snd map] in *; rewrite IH1, A; rewrite A in IH2; split; [reflexivity|exact IH2]).
  - unfold mode_of. cbn [String.eqb Ascii.eqb Bool.eqb]. rewrite Bool.andb_comm. destruct (arch_train s && negb (Qle_bool u (sample_prob s))) eqn:A;
      (match goal with |- context [train_kinds r us ?s' ?c'] => specialize (IH us s' c' F'); destruct (train_kinds r us s' c') as [l s''] end; destruct IH as [IH1 IH2]; cbn [fst snd map arch_train sample_prob] in *; rewrite IH1; split; [reflexivity|exact IH2]).
Qed.
Lemma modes_length : forall strategy us t p, length us = length strategy -> length (modes t p strategy us) = length strategy.
Proof. induction strategy as [|k r IH]; intros [|u us] t p L; try discriminate L; [reflexivity|]. cbn [modes length]. f_equal. apply IH. cbn in L. lia. Qed.
Theorem C78_strategy_partial :
  forall strategy start freq iter us s, Forall (fun k => In k names) strategy -> length us = length strategy ->
    let '(l, arch, s') := train_step strategy start freq iter us s in
    length l = length strategy /\
    map fst l = modes (arch_train s || (start <? iter)) (sample_prob s) strategy us /\
    (arch = true <-> (arch_train s || (start <? iter)) = true /\ iter mod freq = 0).
Proof.
  intros strategy start freq iter us s F L. unfold train_step. set (s1 := {| arch_train := _; sample_prob := _ |}). set (c1 := {| n_max := 1; n_min := 1; n_random := 1; n_direct := 1 |}).
  pose proof (kinds_modes strategy us s1 c1 F) as [E A]. destruct (train_kinds strategy us s1 c1) as [l s'] eqn:T. cbn [fst snd] in *. split; [|split].
  - rewrite <- (map_length fst l), E. apply modes_length. exact L.
  - exact E.
  - rewrite A. unfold s1. cbn [arch_train]. rewrite Bool.andb_true_iff, Z.eqb_eq. reflexivity.
Qed.
Example C78_strategy_ex :
  train_step ["max"; "min"; "arch_random"; "arch_random"]%string 10 5 15 [0; 0; 0; 0]%Q fresh =
  ([(MMax, "max_subnet1"%string); (MMin, "min_subnet1"%string); (MDirect, "direct_subnet1"%string); (MDirect, "direct_subnet2"%string)], true, {| arch_train := true; sample_prob := 1 |}).
Proof. reflexivity. Qed.
(** The losses of all trained subnets are kept under different prefixes, whatever the strategy. *)
Definition used (name : string) (c : nat) (p : string) : Prop := exists n, p = prefix name n /\ (c <= n)%nat.
Lemma prefix_inj name n m : prefix name n = prefix name m -> n = m.
Proof. unfold prefix. intros H. apply decimal_inj. revert H. induction name as [|a r IH]; cbn; intros H; [exact H|]. inversion H. auto. Qed.
Lemma used_other a b r r' c c' p : a <> b -> used (String a r) c p -> used (String b r') c' p -> False.
Proof. intros N (n & -> & _) (m & E & _). unfold prefix in E. cbn in E. inversion E. contradiction. Qed.
Lemma max_min c c' p : used "max_subnet" c p -> used "min_subnet" c' p -> False.
Proof. intros (n & -> & _) (m & E & _). unfold prefix in E. cbn in E. inversion E. Qed.
Lemma kinds_prefix : forall strategy us s c, let l := fst (train_kinds strategy us s c) in
  NoDup (map snd l) /\ Forall (fun p => used "max_subnet" (n_max c) p \/ used "min_subnet" (n_min c) p \/ used "random_subnet" (n_random c) p \/ used "direct_subnet" (n_direct c) p) (map snd l).
Proof.
  induction strategy as [|k r IH]; intros [|u us] s c; cbn [train_kinds]; try (split; constructor). cbv zeta.
  assert (W : forall name n p, used name (S n) p -> used name n p) by (intros name n p (m & -> & H); exists m; split; [reflexivity|lia]).
  assert (O : forall name n, used name n (prefix name n)) by (intros name n; exists n; split; [reflexivity|lia]).
  assert (X : forall name n, used name (S n) (prefix name n) -> False) by (intros name n (m & E & H); apply prefix_inj in E; lia).
  assert (Step : forall o s' c', train_kind k u s c = (o, s', c') ->
    (o = None /\ c' = c) \/
    (exists md, o = Some (md, prefix "max_subnet" (n_max c)) /\ c' = {| n_max := S (n_max c); n_min := n_min c; n_random := n_random c; n_direct := n_direct c |}) \/
    (exists md, o = Some (md, prefix "min_subnet" (n_min c)) /\ c' = {| n_max := n_max c; n_min := S (n_min c); n_random := n_random c; n_direct := n_direct c |}) \/
    (exists md, o = Some (md, prefix "random_subnet" (n_random c)) /\ c' = {| n_max := n_max c; n_min := n_min c; n_random := S (n_random c); n_direct := n_direct c |}) \/
    (exists md, o = Some (md, prefix "direct_subnet" (n_direct c)) /\ c' = {| n_max := n_max c; n_min := n_min c; n_random := n_random c; n_direct := S (n_direct c) |})).
  { intros o s' c' E. unfold train_kind in E. destruct (substring_of k "max"); [inversion E; subst; right; left; eexists; split; reflexivity|].
    destruct (substring_of k "min"); [inversion E; subst; right; right; left; eexists; split; reflexivity|].
    destruct (substring_of k "arch_random"); [destruct (arch_train s); inversion E; subst; [right; right; right; right|right; right; right; left]; eexists; split; reflexivity|].
    destruct (substring_of k "scheduled_random"); [destruct (negb _ && _); inversion E; subst; [right; right; right; right|right; right; right; left]; eexists; split; reflexivity|].
    inversion E; subst. left. split; reflexivity. }
  destruct (train_kind k u s c) as [[o s'] c'] eqn:T. specialize (Step o s' c' eq_refl). specialize (IH us s' c'). cbv zeta in IH. destruct (train_kinds r us s' c') as [l s'']. cbn [fst snd] in *. destruct IH as [N F].
  destruct Step as [[-> ->]|[(md & -> & ->)|[(md & -> & ->)|[(md & -> & ->)|(md & -> & ->)]]]]; cbn [map snd n_max n_min n_random n_direct] in *; [split; assumption|..];
  (split; [constructor; [|exact N]; intros I; rewrite Forall_forall in F; specialize (F _ I)|constructor; [|rewrite Forall_forall in F |- *; intros p I; specialize (F p I)]]).
  all: try (destruct F as [F|[F|[F|F]]]; eauto 6; fail).
  all: try (eauto 6; fail).
  all: destruct F as [F|[F|[F|F]]].
  all: try (eapply X; exact F).
  all: try (eapply (used_other "m"%char "r"%char); [discriminate| |]; eauto; fail).
  all: try (eapply (used_other "m"%char "d"%char); [discriminate| |]; eauto; fail).
  all: try (eapply (used_other "r"%char "d"%char); [discriminate| |]; eauto; fail).
  all: try (eapply max_min; eauto; fail).
Qed.
Theorem C78_prefixes :
  forall strategy start freq iter us s, NoDup (map snd (fst (fst (train_step strategy start freq iter us s)))).
Proof.
  intros. unfold train_step. set (s1 := {| arch_train := _; sample_prob := _ |}). set (c1 := {| n_max := 1; n_min := 1; n_random := 1; n_direct := 1 |}).
  destruct (kinds_prefix strategy us s1 c1) as [N _]. destruct (train_kinds strategy us s1 c1). exact N.
Qed.
Example C78_prefixes_ex : map snd (fst (fst (train_step ["max"; "max"; "scheduled_random"; "arch_random"]%string 10 5 3 [0; 0; 0; 0]%Q fresh))) = ["max_subnet1"; "max_subnet2"; "random_subnet1"; "random_subnet2"]%string.
Proof. reflexivity. Qed.
(** Resuming. The full claim: a run continued from a checkpoint trains the same subnets as a run
    that was not interrupted (the same draws in both). *)
Definition C78_resume_claim : Prop :=
  forall strategy start freq before after, 0 <= start ->
    let '(_, s) := train_from strategy start freq 0 before fresh in
    let from := Z.of_nat (length before) in
    fst (train_from strategy start freq from after fresh) = fst (train_from strategy start freq from after s).
(** The probability of scheduled_random starts again at 1. *)
Theorem C78_resume_refuted : ~ C78_resume_claim.
Proof.
  intros H. specialize (H ["scheduled_random"]%string 0 10 [[0]; [0]]%Q [[99985 # 100000]]%Q ltac:(lia)). vm_compute in H. discriminate.
Qed.
Lemma kinds_noscheduled : forall strategy us s s2 c, Forall (fun k => In k ["max"; "min"; "arch_random"]%string) strategy -> arch_train s = arch_train s2 ->
  fst (train_kinds strategy us s c) = fst (train_kinds strategy us s2 c) /\ arch_train (snd (train_kinds strategy us s c)) = arch_train s.
Proof.
  induction strategy as [|k r IH]; intros [|u us] s s2 c F A; cbn [train_kinds]; try (split; reflexivity). inversion F as [|? ? K F']; subst.
  destruct K as [<-|[<-|[<-|[]]]]; cbn - [train_kinds prefix]; try rewrite <- A; try destruct (arch_train s) eqn:A';
   (match goal with |- context [train_kinds r us s ?c'] => specialize (IH us s s2 c' F'); destruct (train_kinds r us s c') as [l s'], (train_kinds r us s2 c') as [l2 s2'] end; cbn [fst snd] in *;
    destruct IH as [IH1 IH2]; [congruence|]; rewrite IH1; split; [reflexivity|congruence]).
Qed.
Theorem C78_resume_partial :
  forall strategy start freq before after, 0 <= start -> Forall (fun k => In k ["max"; "min"; "arch_random"]%string) strategy ->
    let '(_, s) := train_from strategy start freq 0 before fresh in
    let from := Z.of_nat (length before) in
    fst (train_from strategy start freq from after fresh) = fst (train_from strategy start freq from after s).
Proof.
  intros strategy start freq before after St F.
  assert (Inv : forall draws from s, (arch_train s = true -> start < from) -> let s' := snd (train_from strategy start freq from draws s) in arch_train s' = true -> start < from + Z.of_nat (length draws)).
  { induction draws as [|us draws IH]; intros from s H; cbn [train_from length]; [cbn; intros A; specialize (H A); lia|].
    unfold train_step. set (s1 := {| arch_train := arch_train s || _; sample_prob := _ |}). set (c1 := {| n_max := 1; n_min := 1; n_random := 1; n_direct := 1 |}).
    destruct (kinds_noscheduled strategy us s1 s1 c1 F eq_refl) as [_ A]. destruct (train_kinds strategy us s1 c1) as [l s2]. cbn [snd] in A.
    assert (H2 : arch_train s2 = true -> start < from + 1). { rewrite A. unfold s1. cbn [arch_train]. rewrite Bool.orb_true_iff, Z.ltb_lt. intros [X|X]; [specialize (H X)|]; lia. }
    specialize (IH (from + 1) s2 H2). cbv zeta in IH. destruct (train_from strategy start freq (from + 1) draws s2) as [rest s3]. cbn [snd] in *. intros X. specialize (IH X). lia. }
  assert (Same : forall draws from s s2, (arch_train s = true -> start < from) -> (arch_train s2 = true -> start < from) -> fst (train_from strategy start freq from draws s) = fst (train_from strategy start freq from draws s2)).
  { induction draws as [|us draws IH]; intros from s s2 H H2; cbn [train_from]; [reflexivity|]. unfold train_step.
    assert (E : arch_train s || (start <? from) = arch_train s2 || (start <? from)).
    { destruct (Z.ltb_spec start from); [rewrite !Bool.orb_true_r; reflexivity|]. destruct (arch_train s); [specialize (H eq_refl); lia|]. destruct (arch_train s2); [specialize (H2 eq_refl); lia|reflexivity]. }
    rewrite E. set (b := arch_train s2 || (start <? from)). set (c1 := {| n_max := 1; n_min := 1; n_random := 1; n_direct := 1 |}).
    destruct (kinds_noscheduled strategy us {| arch_train := b; sample_prob := sample_prob s |} {| arch_train := b; sample_prob := sample_prob s2 |} c1 F eq_refl) as [L A].
    destruct (kinds_noscheduled strategy us {| arch_train := b; sample_prob := sample_prob s2 |} {| arch_train := b; sample_prob := sample_prob s2 |} c1 F eq_refl) as [_ A2].
    destruct (train_kinds strategy us {| arch_train := b; sample_prob := sample_prob s |} c1) as [l t], (train_kinds strategy us {| arch_train := b; sample_prob := sample_prob s2 |} c1) as [l2 t2]. cbn [fst snd arch_train] in *. subst l2.
    assert (B : b = true -> start < from + 1). { unfold b. rewrite Bool.orb_true_iff, Z.ltb_lt. intros [X|X]; [specialize (H2 X)|]; lia. }
    specialize (IH (from + 1) t t2 ltac:(rewrite A; exact B) ltac:(rewrite A2; exact B)). destruct (train_from strategy start freq (from + 1) draws t), (train_from strategy start freq (from + 1) draws t2). cbn [fst] in *. rewrite IH, A, A2. reflexivity. }
  specialize (Inv before 0 fresh ltac:(discriminate)). cbv zeta in Inv. destruct (train_from strategy start freq 0 before fresh) as [x s]. cbv zeta. cbn [snd] in Inv. apply Same; [discriminate|]. intros A. specialize (Inv A). lia.
Qed.
Example C78_resume_ex :
  train_from ["max"; "arch_random"]%string 1 2 2 [[0; 0]]%Q fresh = ([([(MMax, "max_subnet1"%string); (MDirect, "direct_subnet1"%string)], true)], {| arch_train := true; sample_prob := 1 |}).
Proof. reflexivity. Qed.

Print Assumptions C41_in_space.
Print Assumptions C76_walk.
Print Assumptions C76_expected_is_mean.
Print Assumptions C76_expected_in_space.
Print Assumptions C77_factors.
Print Assumptions C42_nowhere_zero.
Print Assumptions C42_units_refuted.
Print Assumptions C42_band_partial.
Print Assumptions C42_l1_l2.
Print Assumptions C42_inverted_refuted.
Print Assumptions C42_finite_partial.
Print Assumptions C78_substring_refuted.
Print Assumptions C78_strategy_partial.
Print Assumptions C78_prefixes.
Print Assumptions C78_resume_refuted.
Print Assumptions C78_resume_partial.

(** The number of groups only depends on the rates: with the default rates 0.1, 1 and 0.03 there are thirty, of three hundredths of the channels each, rounded
    down, and the first channels that are always kept are the rest. *)
Theorem C41_default_groups : forall out g n c,
  arch_message (f64_lit 1 10) (f64_of_Z 1) (f64_lit 3 100) out = Ok (g, n, c) -> n = 30 /\ c = Z.of_nat out - 30 * g.
Proof.
  intros out g n c. unfold arch_message. destruct (py_div (f64mul (f64_lit 3 100) (f64_of_Z (Z.of_nat out))) (f64_of_Z 1)) as [q | e]; [| discriminate]. cbn [bind].
  destruct (PyNum.py_int q) as [gs | e]; [| discriminate]. cbn [bind].
  replace (py_div (f64sub (f64_of_Z 1) (f64_lit 1 10)) (f64_lit 3 100)) with (Ok (f64div (f64sub (f64_of_Z 1) (f64_lit 1 10)) (f64_lit 3 100))) by (vm_compute; reflexivity). cbn [bind].
  replace (PyNum.py_int (f64add (f64div (f64sub (f64_of_Z 1) (f64_lit 1 10)) (f64_lit 3 100)) (f64_lit 1 10000))) with (Ok 30) by (vm_compute; reflexivity). cbn [bind].
  unfold assert_. destruct (0 <? Z.of_nat out - gs * 30); [| discriminate]. cbn [bind]. destruct (_ =? _); [| discriminate]. cbn [bind].
  intro E. apply Ok_inj in E. injection E as <- <- <-. split; [reflexivity | lia].
Qed.
Example C41_default_groups_example : arch_message (f64_lit 1 10) (f64_of_Z 1) (f64_lit 3 100) 64 = Ok (1, 30, 34).
Proof. vm_compute. reflexivity. Qed.
Print Assumptions C41_default_groups.
