(** C33, C34, C66. *)
From Coq Require Import Reals Psatz.
From Flocq Require Import Core Sterbenz.
From Verif Require Import Prelude PyNum Float_Lemmas ItePrune_Model.
Open Scope Z_scope.

(** * C33: prune times *)
Theorem C33_prune_times :
  forall m i, 0 < m_step_freq m -> 0 <= i ->
    (is_prune_time m i = Ok true <-> exists k, 0 <= k < m_prune_times m /\ i = k * m_step_freq m).
Proof.
  intros m i Hf Hi. unfold is_prune_time. destruct (Z.eqb_spec (m_step_freq m) 0); [lia|]. split.
  - intros H. apply Ok_inj in H. apply andb_true_iff in H as [H1 H2]. exists (i / m_step_freq m).
    apply Z.eqb_eq in H1. apply Z.ltb_lt in H2. pose proof (Z.div_pos i (m_step_freq m) Hi Hf). pose proof (Z.div_mod i (m_step_freq m) n). split; [lia|nia].
  - intros (k & Hk & ->). f_equal. rewrite Z.mod_mul by lia. rewrite Z.div_mul by lia. cbn. apply Z.ltb_lt. lia.
Qed.
Print Assumptions C33_prune_times.
Example C33_prune_times_example :
  let m := {| m_target := []; m_supernet := []; m_step_freq := 5; m_prune_times := 3; m_linear := true |} in
  filter (fun i => match is_prune_time m i with Ok b => b | Raise _ => false end) (map Z.of_nat (seq 0 40)) = [0; 5; 10].
Proof. reflexivity. Qed.

(** The constructor refuses a schedule without prunings, and a target without a supernet entry. *)
Theorem C33_zero_times :
  forall target supernet freq linear, target <> [] -> exists e, new_manager target supernet freq 0 linear = Raise e.
Proof.
  intros [|[k v] l] sup freq linear N; [congruence|]. unfold new_manager. cbn [mapM]. unfold delta_one at 1. cbn [fst snd Z.eqb].
  destruct v; [destruct (nget sup k); cbn [bind]; eauto|cbn [bind]; eauto].
Qed.
Print Assumptions C33_zero_times.
Theorem C33_construct :
  forall target supernet freq times linear, times <> 0 ->
    (exists m, new_manager target supernet freq times linear = Ok m) <->
    (forall k c, In (k, NInt c) target -> exists s, nget supernet k = Ok s).
Proof.
  intros target sup freq times linear N. unfold new_manager.
  assert (Z0 : (times =? 0) = false) by (apply Z.eqb_neq; exact N).
  assert (G : (exists r, mapM (delta_one sup times) target = Ok r) <-> (forall k c, In (k, NInt c) target -> exists s, nget sup k = Ok s)).
  { induction target as [|[k v] l IH]; cbn [mapM]; [split; [intros _ k c []|intros _; eauto]|].
    unfold delta_one at 1. cbn [fst snd]. rewrite Z0. destruct v as [c|f].
    - split.
      + intros [r H]. destruct (nget sup k) as [s|] eqn:E; [|discriminate H]. cbn [bind] in H.
        destruct (mapM _ l) as [r'|] eqn:M; [|discriminate H]. intros k' c' [I|I]; [inversion I; subst; eauto|]. apply (proj1 IH) with c'; eauto.
      + intros H. destruct (H k c) as [s E]; [left; reflexivity|]. rewrite E. cbn [bind]. destruct (proj2 IH) as [r' M]; [intros k' c' I; apply (H k' c'); right; exact I|].
        rewrite M. cbn [bind]. eauto.
    - cbn [bind]. split.
      + intros [r H]. destruct (mapM _ l) as [r'|] eqn:M; [|discriminate H]. intros k' c' [I|I]; [inversion I|]. apply (proj1 IH) with c'; eauto.
      + intros H. destruct (proj2 IH) as [r' M]; [intros k' c' I; apply (H k' c'); right; exact I|]. rewrite M. cbn [bind]. eauto. }
  rewrite <- G. destruct (mapM _ target); cbn [bind]; split; intros [r H]; eauto; discriminate.
Qed.
Print Assumptions C33_construct.
Example C33_construct_example :
  (exists m, new_manager [("a"%string, NInt 4); ("r"%string, NFloat (f64_lit 1 2))] [("a"%string, NInt 8)] 10 3 true = Ok m) /\
  new_manager [("r"%string, NFloat (f64_lit 1 2))] [] 10 0 true = Raise ZeroDivisionError /\
  (exists e, new_manager [("b"%string, NInt 4)] [("a"%string, NInt 8)] 10 3 true = Raise e).
Proof. split; [eexists; reflexivity|]. split; [reflexivity|eexists; reflexivity]. Qed.

(** * Interpolation in binary64 *)
(** The value computed for key difference [D] (an exact or rounded float) and start [s]. *)
Definition interp (D s : R) (k T : Z) : R := rnd (rnd (D * rnd (IZR k / IZR T)) + s).
Section Interp.
  Variables (T : Z).
  Hypothesis HT : 0 < T.
  Lemma ratio_bounds k : 0 <= k <= T -> (0 <= rnd (IZR k / IZR T) <= 1)%R.
  Proof.
    intros H. assert (P : (0 < IZR T)%R) by (apply IZR_lt; exact HT).
    rewrite <- (rnd_int 0) by (unfold small; lia). rewrite <- (rnd_int 1) by (unfold small; lia).
    split; apply rnd_le.
    - apply Rmult_le_pos; [apply IZR_le; lia|apply Rlt_le, Rinv_0_lt_compat; exact P].
    - apply Rmult_le_reg_r with (IZR T); [exact P|]. unfold Rdiv. rewrite Rmult_assoc, Rinv_l, Rmult_1_r, Rmult_1_l by lra. apply IZR_le. lia.
  Qed.
  Lemma ratio_mono k k' : k <= k' -> (rnd (IZR k / IZR T) <= rnd (IZR k' / IZR T))%R.
  Proof.
    intros H. apply rnd_le. assert (P : (0 < IZR T)%R) by (apply IZR_lt; exact HT). apply Rmult_le_compat_r; [apply Rlt_le, Rinv_0_lt_compat; exact P|]. apply IZR_le. exact H.
  Qed.
  Lemma ratio_end : rnd (IZR T / IZR T) = 1%R.
  Proof. assert (P : (0 < IZR T)%R) by (apply IZR_lt; exact HT). unfold Rdiv. rewrite Rinv_r by lra. apply (rnd_int 1). unfold small; lia. Qed.
  Lemma prod_bounds D k : 0 <= k <= T -> (D <= 0)%R -> rnd D = D -> (D <= rnd (D * rnd (IZR k / IZR T)) <= 0)%R.
  Proof.
    intros Hk HD E. pose proof (ratio_bounds k Hk) as [R0 R1]. split.
    - rewrite <- E at 1. apply rnd_le. nra.
    - rewrite <- (rnd_int 0) by (unfold small; lia). apply rnd_le. nra.
  Qed.
  Lemma interp_mono D s k k' : (D <= 0)%R -> k <= k' -> (interp D s k' T <= interp D s k T)%R.
  Proof.
    intros HD H. unfold interp. apply rnd_le. apply Rplus_le_compat_r. apply rnd_le. pose proof (ratio_mono k k' H). nra.
  Qed.
  Lemma interp_bounds D s k : 0 <= k <= T -> (D <= 0)%R -> rnd D = D -> rnd s = s -> (rnd (D + s) <= interp D s k T <= s)%R.
  Proof.
    intros Hk HD E Es. pose proof (prod_bounds D k Hk HD E) as [P0 P1]. unfold interp. split; [apply rnd_le; lra|].
    rewrite <- Es at 2. apply rnd_le. lra.
  Qed.
  Lemma interp_end D s : rnd D = D -> interp D s T T = rnd (D + s).
  Proof. intros E. unfold interp. rewrite ratio_end, Rmult_1_r, E. reflexivity. Qed.
End Interp.

Lemma ratio_f k T : 0 < T -> small T -> 0 <= k <= T -> fin (f64_lit k T) /\ fr (f64_lit k T) = rnd (IZR k / IZR T).
Proof.
  intros HT ST Hk. unfold f64_lit. assert (Sk : small k) by (unfold small in *; lia).
  destruct (f64_int k Sk) as [F1 V1]. destruct (f64_int T ST) as [F2 V2]. rewrite <- V1, <- V2. apply f64div_ok; auto.
  - rewrite V2. apply IZR_neq. lia.
  - rewrite V1, V2. pose proof (ratio_bounds T HT k Hk) as [R0 R1]. apply Rle_lt_trans with 1%R; [apply Rabs_le; lra|]. rewrite <- (Rabs_pos_eq 1) by lra. apply (small_max 1). unfold small; lia.
Qed.
Lemma below_max x lo hi : small lo -> small hi -> (IZR lo <= x <= IZR hi)%R -> (Rabs x < maxr)%R.
Proof.
  intros S1 S2 [H1 H2]. apply Rle_lt_trans with (IZR (Z.max (Z.abs lo) (Z.abs hi))).
  - apply Rabs_le. split.
    + apply Rle_trans with (IZR lo); [|exact H1]. rewrite <- opp_IZR. apply IZR_le. lia.
    + apply Rle_trans with (IZR hi); [exact H2|]. apply IZR_le. lia.
  - rewrite <- (Rabs_pos_eq (IZR _)) by (apply IZR_le; lia). apply small_max. unfold small in *. lia.
Qed.

(** One integer key. *)
Lemma int_value a b k T : 0 <= a <= b -> small b -> 0 < T -> small T -> 0 <= k <= T ->
  prune_value true k T (NInt a) (NInt b) = Ok (NInt (Ztrunc (interp (IZR (a - b)) (IZR b) k T))).
Proof.
  intros Hab Sb HT ST Hk. unfold prune_value, num_sub, num_mul, num_add. cbn [num_f num_int].
  destruct (ratio_f k T HT ST Hk) as [Fr Vr].
  assert (Sd : small (a - b)) by (unfold small in *; lia). destruct (f64_int (a - b) Sd) as [Fd Vd]. destruct (f64_int b Sb) as [Fb Vb].
  assert (HD : (IZR (a - b) <= 0)%R) by (apply IZR_le; lia).
  pose proof (prod_bounds T HT (IZR (a - b)) k Hk HD (rnd_int _ Sd)) as PB.
  destruct (f64mul_ok _ _ Fd Fr) as [Fm Vm]. { rewrite Vd, Vr. apply (below_max _ (a - b) 0); [exact Sd|unfold small; lia|exact PB]. }
  rewrite Vd, Vr in Vm.
  pose proof (interp_bounds T HT (IZR (a - b)) (IZR b) k Hk HD (rnd_int _ Sd) (rnd_int _ Sb)) as IB.
  assert (Ea : rnd (IZR (a - b) + IZR b) = IZR a). { rewrite <- plus_IZR. replace (a - b + b) with a by lia. apply rnd_int. unfold small in *. lia. }
  rewrite Ea in IB.
  destruct (f64add_ok _ _ Fm Fb) as [Fa Va]. { rewrite Vm, Vb. apply (below_max _ a b); [unfold small in *; lia|exact Sb|exact IB]. }
  rewrite Vm, Vb in Va. rewrite py_int_ok by apply Fa. cbn [bind]. rewrite Va. reflexivity.
Qed.
Lemma int_value_bounds a b k T : 0 <= a <= b -> small b -> 0 < T -> 0 <= k <= T -> a <= Ztrunc (interp (IZR (a - b)) (IZR b) k T) <= b.
Proof.
  intros Hab Sb HT Hk. assert (Sd : small (a - b)) by (unfold small in *; lia). assert (HD : (IZR (a - b) <= 0)%R) by (apply IZR_le; lia).
  pose proof (interp_bounds T HT (IZR (a - b)) (IZR b) k Hk HD (rnd_int _ Sd) (rnd_int _ Sb)) as [I1 I2].
  assert (Ea : rnd (IZR (a - b) + IZR b) = IZR a). { rewrite <- plus_IZR. replace (a - b + b) with a by lia. apply rnd_int. unfold small in *. lia. }
  rewrite Ea in I1. apply Ztrunc_le in I1, I2. rewrite Ztrunc_IZR in I1, I2. lia.
Qed.
Lemma int_value_end a b T : 0 <= a <= b -> small b -> 0 < T -> Ztrunc (interp (IZR (a - b)) (IZR b) T T) = a.
Proof.
  intros Hab Sb HT. assert (Sd : small (a - b)) by (unfold small in *; lia). rewrite interp_end by (auto using rnd_int). rewrite <- plus_IZR.
  replace (a - b + b) with a by lia. rewrite rnd_int by (unfold small in *; lia). apply Ztrunc_IZR.
Qed.

(** * C33: the structures *)
Inductive le_num : num -> num -> Prop :=
| le_int a b : a <= b -> le_num (NInt a) (NInt b)
| le_float x y p q : f64_val x = Some p -> f64_val y = Some q -> (p <= q)%Q -> le_num (NFloat x) (NFloat y).
(** Between two pruning structures with the same keys: the first is at most as wide. *)
Definition narrower (d e : list (string * num)) : Prop := Forall2 (fun x y => fst x = fst y /\ le_num (snd x) (snd y)) d e.
(** The claim: with target and supernet numbers of the same kind, the structures shrink
    monotonically and the last one is the target. *)
Definition C33_claim (ok : num -> num -> Prop) : Prop :=
  forall m, m_linear m = true -> 0 < m_step_freq m -> 0 < m_prune_times m <= 2 ^ 53 ->
    (forall k t, In (k, t) (m_target m) -> exists s, nget (m_supernet m) k = Ok s /\ ok t s) ->
    exists ds : Z -> list (string * num),
      (forall k, 0 <= k < m_prune_times m -> prune_at m (k * m_step_freq m) = Ok (ds k)) /\
      (forall k k', 0 <= k <= k' -> k' < m_prune_times m -> narrower (ds k') (ds k)) /\
      (forall k, 0 <= k < m_prune_times m -> Forall (fun x => exists s, nget (m_supernet m) (fst x) = Ok s /\ le_num (snd x) s) (ds k)) /\
      ds (m_prune_times m - 1) = m_target m.
Definition int_pair (t s : num) : Prop := exists a b, t = NInt a /\ s = NInt b /\ 0 <= a <= b /\ b <= 2 ^ 53.
Definition float_pair (t s : num) : Prop :=
  exists x y, t = NFloat x /\ s = NFloat y /\ fin x /\ fin y /\ (0 <= fr x <= fr y)%R /\ (fr y <= 1)%R.

Lemma prune_at_ok m k (val : num -> num -> Z -> num) :
  0 < m_step_freq m -> 0 <= k < m_prune_times m -> m_linear m = true ->
  (forall key t, In (key, t) (m_target m) -> exists s, nget (m_supernet m) key = Ok s /\ prune_value true (k + 1) (m_prune_times m) t s = Ok (val t s (k + 1))) ->
  prune_at m (k * m_step_freq m) = Ok (map (fun kt => (fst kt, match nget (m_supernet m) (fst kt) with Ok s => val (snd kt) s (k + 1) | Raise _ => snd kt end)) (m_target m)).
Proof.
  intros Hf Hk Hl H. unfold prune_at. rewrite Z.div_mul by lia. cbv zeta. destruct (Z.leb_spec (k + 1) (m_prune_times m)); [|lia]. cbn [assert_ bind].
  rewrite Hl. revert H. induction (m_target m) as [|[key t] l IH]; intros H; cbn [mapM map]; [reflexivity|].
  destruct (H key t (or_introl eq_refl)) as (s & Es & Ev). cbn [fst snd]. rewrite Es. cbn [bind]. rewrite Ev. cbn [bind]. rewrite IH; [reflexivity|].
  intros. apply H. right. assumption.
Qed.

(** Integer channel numbers: the claim holds, in binary64 arithmetic. *)
Theorem C33_ints_partial : C33_claim int_pair.
Proof.
  intros m Hl Hf [HT ST] H.
  set (val := fun t s k => match t, s with NInt a, NInt b => NInt (Ztrunc (interp (IZR (a - b)) (IZR b) k (m_prune_times m))) | _, _ => t end).
  exists (fun k => map (fun kt => (fst kt, match nget (m_supernet m) (fst kt) with Ok s => val (snd kt) s (k + 1) | Raise _ => snd kt end)) (m_target m)).
  assert (SmT : small (m_prune_times m)) by (unfold small; lia). repeat split.
  - intros k Hk. apply prune_at_ok; auto. intros key t I. destruct (H key t I) as (s & Es & a & b & -> & -> & Hab & Hb). exists (NInt b). split; [exact Es|].
    cbn [val]. apply int_value; auto; try lia. unfold small; lia.
  - intros k k' Hk Hk'. unfold narrower. revert H. generalize (m_target m). intros l. induction l as [|[key t] l IH]; intros H; cbn [map]; [constructor|].
    constructor; [|apply IH; intros; apply H; right; assumption]. cbn [fst snd]. split; [reflexivity|].
    destruct (H key t (or_introl eq_refl)) as (s & Es & a & b & -> & -> & Hab & Hb). rewrite Es. cbn [val]. constructor. apply Ztrunc_le. apply interp_mono; auto; [|lia].
    apply IZR_le. lia.
  - intros k Hk. apply Forall_map. apply Forall_forall. intros [key t] I. cbn [fst snd]. destruct (H key t I) as (s & Es & a & b & -> & -> & Hab & Hb).
    exists (NInt b). rewrite Es. split; [reflexivity|]. cbn [val]. constructor. apply int_value_bounds; auto; try lia. unfold small; lia.
  - replace (m_prune_times m - 1 + 1) with (m_prune_times m) by lia. rewrite <- (map_id (m_target m)) at 2. apply map_ext_in. intros [key t] I. cbn [fst snd].
    destruct (H key t I) as (s & Es & a & b & -> & -> & Hab & Hb). rewrite Es. cbn [val]. rewrite int_value_end; auto. unfold small; lia.
Qed.
Print Assumptions C33_ints_partial.

(** Ratios: 0.1 is not reached from 1.0, the last structure has ratio 0.09999999999999998,
    and of 20 channels it keeps one instead of two. *)
Definition tenth := f64_lit 1 10.
Definition one64 := f64_lit 1 1.
Definition ratio_manager (t : spec_float) : manager :=
  {| m_target := [("u"%string, NFloat t)]; m_supernet := [("u"%string, NFloat one64)]; m_step_freq := 1; m_prune_times := 1; m_linear := true |}.
Lemma lit_fin k T : 0 < T -> small T -> 0 <= k <= T -> fin (f64_lit k T) /\ (0 <= fr (f64_lit k T) <= 1)%R.
Proof. intros H1 H2 H3. destruct (ratio_f k T H1 H2 H3) as [F V]. split; [exact F|]. rewrite V. apply ratio_bounds; assumption. Qed.
Lemma one64_val : fr one64 = 1%R.
Proof. unfold one64. destruct (ratio_f 1 1) as [_ ->]; [lia|unfold small; lia|lia|]. apply ratio_end. lia. Qed.
Theorem C33_ratios_refuted : ~ C33_claim float_pair.
Proof.
  intro H. specialize (H (ratio_manager tenth) eq_refl ltac:(cbn; lia) ltac:(cbn; lia)). destruct H as (ds & A & _ & _ & E).
  - intros k t [I|[]]. inversion I; subst. exists (NFloat one64). split; [reflexivity|]. exists tenth, one64. split; [reflexivity|]. split; [reflexivity|].
    destruct (lit_fin 1 10) as [F [L U]]; [lia|unfold small; lia|lia|]. destruct (lit_fin 1 1) as [F1 _]; [lia|unfold small; lia|lia|].
    fold tenth in F, L, U. fold one64 in F1. rewrite one64_val. repeat split; auto; lra.
  - specialize (A 0 ltac:(cbn; lia)). cbn [ratio_manager m_prune_times] in E. change (1 - 1) with 0 in E. rewrite E in A. vm_compute in A. discriminate.
Qed.
Print Assumptions C33_ratios_refuted.
Example C33_ratio_channels :
  match prune_at (ratio_manager tenth) 0 with
  | Ok [(_, NFloat r)] => (py_int (f64mul (f64_of_Z 20) tenth), py_int (f64mul (f64_of_Z 20) r)) = (Ok 2, Ok 1)
  | _ => False
  end.
Proof. vm_compute. reflexivity. Qed.

(** For ratios the schedule is monotone, and the target is reached exactly when it is at least
    half of the supernet ratio. *)
Lemma fr_val x : fin x -> exists q, f64_val x = Some q /\ fr x = (IZR (Qnum q) / IZR (Zpos (Qden q)))%R.
Proof.
  intros [_ F]. destruct x as [s|s| |s m e]; cbn in F; try discriminate F.
  - exists 0%Q. split; [reflexivity|]. cbn. lra.
  - eexists. split; [reflexivity|]. unfold fr, BinarySingleNaN.SF2R. destruct e as [|e|e].
    + unfold F2R. cbn [Fnum Fexp bpow Qnum Qden inject_Z]. destruct s; cbn [cond_Zopp]; cbn; lra.
    + unfold F2R. cbn [Fnum Fexp bpow Qnum Qden inject_Z]. change (Z.pow_pos radix2 e) with (2 ^ Zpos e). rewrite mult_IZR. destruct s; cbn [cond_Zopp Z.opp]; lra.
    + unfold F2R. cbn [Fnum Fexp bpow Qnum Qden]. change (Z.pow_pos radix2 e) with (2 ^ Zpos e). rewrite Pos2Z.inj_pow. destruct s; reflexivity.
Qed.
Lemma fr_le x y p q : fin x -> fin y -> f64_val x = Some p -> f64_val y = Some q -> (fr x <= fr y)%R -> (p <= q)%Q.
Proof.
  intros Fx Fy Ex Ey H. destruct (fr_val x Fx) as (p' & Ep & Vp). destruct (fr_val y Fy) as (q' & Eq & Vq). rewrite Ex in Ep. rewrite Ey in Eq.
  inversion Ep; subst p'. inversion Eq; subst q'. rewrite Vp, Vq in H. unfold Qle. apply le_IZR. rewrite !mult_IZR.
  assert (P1 : (0 < IZR (Zpos (Qden p)))%R) by (apply IZR_lt; lia). assert (P2 : (0 < IZR (Zpos (Qden q)))%R) by (apply IZR_lt; lia).
  apply Rmult_le_compat_r with (r := (IZR (Zpos (Qden p)) * IZR (Zpos (Qden q)))%R) in H; [|nra].
  replace (IZR (Qnum p) / IZR (Zpos (Qden p)) * (IZR (Zpos (Qden p)) * IZR (Zpos (Qden q))))%R with (IZR (Qnum p) * IZR (Zpos (Qden q)))%R in H by (field; lra).
  replace (IZR (Qnum q) / IZR (Zpos (Qden q)) * (IZR (Zpos (Qden p)) * IZR (Zpos (Qden q))))%R with (IZR (Qnum q) * IZR (Zpos (Qden p)))%R in H by (field; lra). exact H.
Qed.
Lemma le_num_fr x y : fin x -> fin y -> (fr x <= fr y)%R -> le_num (NFloat x) (NFloat y).
Proof. intros Fx Fy H. destruct (fr_val x Fx) as (p & Ep & _). destruct (fr_val y Fy) as (q & Eq & _). econstructor; eauto. exact (fr_le x y p q Fx Fy Ep Eq H). Qed.
Lemma float_value x y k T : fin x -> fin y -> (0 <= fr x <= fr y)%R -> (fr y <= 1)%R -> 0 < T -> small T -> 0 <= k <= T ->
  exists v, prune_value true k T (NFloat x) (NFloat y) = Ok (NFloat v) /\ fin v /\ fr v = interp (rnd (fr x - fr y)) (fr y) k T.
Proof.
  intros Fx Fy Hxy Hy HT ST Hk. unfold prune_value, num_sub, num_mul, num_add. cbn [num_f]. destruct (ratio_f k T HT ST Hk) as [Fr Vr].
  assert (S0 : small 0) by (unfold small; lia). assert (S1 : small 1) by (unfold small; lia). assert (Sm : small (-1)) by (unfold small; lia).
  assert (RD : (-1 <= rnd (fr x - fr y) <= 0)%R).
  { split; [rewrite <- (rnd_int (-1) Sm)|rewrite <- (rnd_int 0 S0)]; apply rnd_le; lra. }
  destruct (f64sub_ok x y Fx Fy) as [Fs Vs]; [apply (below_max _ (-1) 0); auto|].
  assert (ED : rnd (rnd (fr x - fr y)) = rnd (fr x - fr y)) by (rewrite <- Vs; apply rnd_fr; exact Fs).
  pose proof (prod_bounds T HT _ k Hk (proj2 RD) ED) as PB.
  destruct (f64mul_ok _ _ Fs Fr) as [Fm Vm]. { rewrite Vs, Vr. apply (below_max _ (-1) 0); auto. lra. }
  rewrite Vs, Vr in Vm.
  pose proof (interp_bounds T HT _ (fr y) k Hk (proj2 RD) ED (rnd_fr y Fy)) as IB.
  assert (L : (-1 <= rnd (rnd (fr x - fr y) + fr y))%R). { rewrite <- (rnd_int (-1) Sm). apply rnd_le. lra. }
  destruct (f64add_ok _ _ Fm Fy) as [Fa Va]. { rewrite Vm. apply (below_max _ (-1) 1); auto. unfold interp in IB. lra. }
  rewrite Vm in Va. eexists. split; [reflexivity|]. split; [exact Fa|exact Va].
Qed.
Theorem C33_ratios_partial :
  forall x y T, fin x -> fin y -> (0 <= fr x <= fr y)%R -> (fr y <= 1)%R -> 0 < T <= 2 ^ 53 ->
    exists vs : Z -> spec_float,
      (forall k, 1 <= k <= T -> prune_value true k T (NFloat x) (NFloat y) = Ok (NFloat (vs k))) /\
      (forall k k', 1 <= k <= k' -> k' <= T -> le_num (NFloat (vs k')) (NFloat (vs k))) /\
      (forall k, 1 <= k <= T -> le_num (NFloat (vs k)) (NFloat y)) /\
      ((fr y / 2 <= fr x)%R -> fr (vs T) = fr x).
Proof.
  intros x y T Fx Fy Hxy Hy [HT ST].
  assert (SmT : small T) by (unfold small; lia).
  exists (fun k => f64add (f64mul (f64sub x y) (f64_lit k T)) y).
  assert (V : forall k, 1 <= k <= T -> fin (f64add (f64mul (f64sub x y) (f64_lit k T)) y) /\
            fr (f64add (f64mul (f64sub x y) (f64_lit k T)) y) = interp (rnd (fr x - fr y)) (fr y) k T).
  { intros k Hk. destruct (float_value x y k T Fx Fy Hxy Hy HT SmT ltac:(lia)) as (v & E & F & W). unfold prune_value, num_sub, num_mul, num_add in E. cbn [num_f] in E.
    apply Ok_inj in E. inversion E. subst v. split; assumption. }
  assert (RD : (rnd (fr x - fr y) <= 0)%R). { rewrite <- (rnd_int 0) by (unfold small; lia). apply rnd_le. lra. }
  repeat split.
  - intros k k' Hk Hk'. destruct (V k ltac:(lia)) as [F1 W1]. destruct (V k' ltac:(lia)) as [F2 W2]. apply le_num_fr; auto. rewrite W1, W2. apply interp_mono; auto. lia.
  - intros k Hk. destruct (V k Hk) as [F1 W1]. apply le_num_fr; auto. rewrite W1. apply interp_bounds; auto; [lia| |apply rnd_fr; exact Fy].
    apply round_generic; auto with typeclass_instances. apply generic_format_round; auto with typeclass_instances.
  - intros HS. destruct (V T ltac:(lia)) as [_ ->].
    assert (G : rnd (fr x - fr y) = (fr x - fr y)%R).
    { apply round_generic; auto with typeclass_instances. apply sterbenz; auto with typeclass_instances; [apply fr_format; exact Fx|apply fr_format; exact Fy|lra]. }
    rewrite interp_end by (auto; rewrite G; exact G). rewrite G. replace (fr x - fr y + fr y)%R with (fr x) by lra. apply rnd_fr. exact Fx.
Qed.
Print Assumptions C33_ratios_partial.
Example C33_example :
  let m := {| m_target := [("u"%string, NInt 4); ("v"%string, NInt 7)]; m_supernet := [("v"%string, NInt 32); ("u"%string, NInt 16)];
              m_step_freq := 10; m_prune_times := 3; m_linear := true |} in
  map (prune_at m) [0; 10; 20] =
  [Ok [("u"%string, NInt 12); ("v"%string, NInt 23)]; Ok [("u"%string, NInt 8); ("v"%string, NInt 15)]; Ok [("u"%string, NInt 4); ("v"%string, NInt 7)]] /\
  prune_at m 30 = Raise AssertionError /\ (forall k t, In (k, t) (m_target m) -> exists s, nget (m_supernet m) k = Ok s /\ int_pair t s).
Proof.
  cbv zeta. split; [vm_compute; reflexivity|]. split; [vm_compute; reflexivity|].
  intros k t [E|[E|[]]]; inversion E; subst; cbn; eexists; (split; [reflexivity|]); do 2 eexists; repeat split; lia.
Qed.

(** * C66: resuming *)
(** Resuming from a checkpoint at any moment does not change what is trained. *)
Definition is_step (e : event) : bool := match e with Step _ => true | Resume => false end.
Definition choices_of (o : outcome algo) : outcome (list (string * num)) := do a <- o; Ok (a_choices a).
Definition C66_claim : Prop :=
  forall a es, a_manager a = None -> choices_of (run a es) = choices_of (run a (filter is_step es)).
Definition algo0 : algo :=
  {| a_target := [("u"%string, NInt 20)]; a_step_freq := 1; a_prune_times := 4; a_linear := true;
     a_choices := [("u"%string, NInt 100); ("v"%string, NInt 8)]; a_manager := None |}.
(** From 100 to 20 channels in four steps, interrupted after the second (60 channels): the
    third step sets 30 instead of 40 channels. *)
Theorem C66_resume_refuted : ~ C66_claim.
Proof. intro H. specialize (H algo0 [Step 0; Step 1; Resume; Step 2] eq_refl). vm_compute in H. discriminate. Qed.
Print Assumptions C66_resume_refuted.
Example C66_resume_values :
  choices_of (run algo0 [Step 0; Step 1; Resume; Step 2]) = Ok [("u"%string, NInt 30); ("v"%string, NInt 8)] /\
  choices_of (run algo0 [Step 0; Step 1; Step 2]) = Ok [("u"%string, NInt 40); ("v"%string, NInt 8)].
Proof. vm_compute. split; reflexivity. Qed.

Lemma mapM_id {A} (f : A -> outcome A) l : (forall x, In x l -> f x = Ok x) -> mapM f l = Ok l.
Proof. induction l as [|x l IH]; intros H; cbn [mapM]; [reflexivity|]. rewrite H by (left; reflexivity). cbn [bind]. rewrite IH by (intros; apply H; right; assumption). reflexivity. Qed.
Lemma nget_in d k v : nget d k = Ok v -> In (k, v) d.
Proof. induction d as [|[k' v'] d IH]; cbn [nget]; [discriminate|]. destruct (String.eqb_spec k k') as [->|_]; intros H; [left; inversion H; reflexivity|right; auto]. Qed.
Lemma nget_self d : NoDup (map fst d) -> forall k v, In (k, v) d -> nget d k = Ok v.
Proof.
  induction d as [|[k' v'] d IH]; intros N k v H; [destruct H|]. cbn [map fst] in N. apply NoDup_cons_iff in N as [N1 N2]. cbn [nget].
  destruct H as [H|H]; [inversion H; subst; rewrite String.eqb_refl; reflexivity|].
  destruct (String.eqb_spec k k') as [->|_]; [exfalso; apply N1; apply in_map_iff; exists (k', v); split; [reflexivity|exact H]|apply IH; assumption].
Qed.
Lemma nget_set cur cfg k : nget (set_choices cur cfg) k = do s <- nget cur k; Ok (match nget cfg k with Ok v => v | Raise _ => s end).
Proof. induction cur as [|[k' s] cur IH]; cbn [set_choices map nget fst snd bind]; [reflexivity|]. destruct (String.eqb_spec k k') as [->|_]; [reflexivity|exact IH]. Qed.

(** A relation [P] between target and current numbers that each pruning preserves. *)
Section Inv.
  Variable P : num -> num -> Prop.
  Variable lin : bool.
  Definition covers (l d : list (string * num)) : Prop := forall k t, In (k, t) l -> exists s, nget d k = Ok s /\ P t s.
  Definition good (a : algo) : Prop :=
    a_linear a = lin /\ 0 < a_step_freq a /\ 0 < a_prune_times a /\ NoDup (map fst (a_target a)) /\ covers (a_target a) (a_choices a) /\
    forall m, a_manager a = Some m -> m_target m = a_target a /\ m_step_freq m = a_step_freq a /\ m_prune_times m = a_prune_times a /\ m_linear m = a_linear a /\
     covers (a_target a) (m_supernet m).
  Definition prune_iter (a : algo) (i : Z) : bool := (i mod a_step_freq a =? 0) && (i / a_step_freq a <? a_prune_times a).
  Lemma same_key (l c : list (string * num)) k t v : NoDup (map fst l) -> Forall2 (fun kt kv => fst kt = fst kv /\ P (snd kt) (snd kv)) l c -> In (k, t) l -> In (k, v) c -> P t v.
  Proof.
    intros N F. induction F as [|[k1 t1] [k2 v2] l c [E Q] F IH]; intros I J; [destruct I|]. cbn [map fst snd] in *. subst k2. apply NoDup_cons_iff in N as [N1 N2].
    assert (K : map fst l = map fst c). { clear - F. induction F as [|x y l c [E _] _ IH]; cbn [map]; [reflexivity|]. rewrite E, IH. reflexivity. }
    destruct I as [I|I]; destruct J as [J|J].
    - inversion I; inversion J; subst. exact Q.
    - inversion I; subst. exfalso. apply N1. rewrite K. apply in_map_iff. exists (k, v). auto.
    - inversion J; subst. exfalso. apply N1. apply in_map_iff. exists (k, t). auto.
    - exact (IH N2 I J).
  Qed.
  Hypothesis HP : forall t s k T, P t s -> 1 <= k <= T -> small T -> exists v, prune_value lin k T t s = Ok v /\ P t v.
  Lemma step_good a i : good a -> small (a_prune_times a) -> 0 <= i ->
    exists m cfg a', train_step a i = Ok a' /\ good a' /\ a_target a' = a_target a /\ a_step_freq a' = a_step_freq a /\
     a_prune_times a' = a_prune_times a /\ a_linear a' = a_linear a /\ 
      (if prune_iter a i then prune_at m i = Ok cfg /\ a_choices a' = set_choices (a_choices a) cfg /\
        m_target m = a_target a /\ m_step_freq m = a_step_freq a /\ m_prune_times m = a_prune_times a /\ m_linear m = a_linear a /\ covers (a_target a) (m_supernet m)
       else a_choices a' = a_choices a).
  Proof.
    intros (G1 & G2 & G3 & G4 & G5 & G6) SmT Hi. unfold train_step.
    assert (M : exists m, match a_manager a with Some m => Ok m | None => new_manager (a_target a) (a_choices a) (a_step_freq a) (a_prune_times a) (a_linear a) end = Ok m /\
      m_target m = a_target a /\ m_step_freq m = a_step_freq a /\ m_prune_times m = a_prune_times a /\ m_linear m = a_linear a /\ covers (a_target a) (m_supernet m)).
    { destruct (a_manager a) as [m|] eqn:E; [exists m; split; [reflexivity|exact (G6 m eq_refl)]|]. unfold new_manager.
      assert (D : forall l, covers l (a_choices a) -> exists r, mapM (delta_one (a_choices a) (a_prune_times a)) l = Ok r).
      { induction l as [|[k t] l IH]; intros F; cbn [mapM]; [eauto|]. destruct (F k t (or_introl eq_refl)) as (s & Es & _).
        destruct (IH (fun k t H => F k t (or_intror H))) as [r ->].
        unfold delta_one. cbn [fst snd]. destruct (Z.eqb_spec (a_prune_times a) 0); [lia|]. destruct t; [rewrite Es|]; cbn [bind]; eauto. }
      destruct (D _ G5) as [r ->]. cbn [bind]. eexists. split; [reflexivity|]. cbn. repeat split; auto. }
    destruct M as (m & -> & M1 & M2 & M3 & M4 & M5). cbn [bind]. unfold is_prune_time. rewrite M2, M3. destruct (Z.eqb_spec (a_step_freq a) 0); [lia|]. cbn [bind].
    fold (prune_iter a i). destruct (prune_iter a i) eqn:B.
    - assert (C : exists cfg, prune_at m i = Ok cfg /\ Forall2 (fun kt kv => fst kt = fst kv /\ P (snd kt) (snd kv)) (a_target a) cfg).
      { unfold prune_at. apply andb_true_iff in B as [_ B]. apply Z.ltb_lt in B. rewrite M1, M2, M3. destruct (Z.leb_spec (i / a_step_freq a + 1) (a_prune_times a)); [|lia]. cbn [assert_ bind].
        assert (0 <= i / a_step_freq a) by (apply Z.div_pos; lia).
        rewrite M4, G1. revert M5. generalize (a_target a). intros l. induction l as [|[k t] l IH]; intros F; cbn [mapM]; [eexists; split; [reflexivity|constructor]|].
        destruct (F k t (or_introl eq_refl)) as (s & Es & Ps). cbn [fst snd]. rewrite Es. cbn [bind].
        destruct (HP t s (i / a_step_freq a + 1) (a_prune_times a) Ps ltac:(lia) SmT) as (v & -> & Pv). cbn [bind].
        destruct (IH (fun k t H => F k t (or_intror H))) as (c & -> & Hc). cbn [bind]. eexists. split; [reflexivity|]. constructor; [cbn; auto|exact Hc]. }
      destruct C as (cfg & C1 & C2). rewrite C1. cbn [bind]. exists m, cfg. eexists. split; [reflexivity|]. cbn [a_target a_step_freq a_prune_times a_choices a_linear].
      assert (N : covers (a_target a) (set_choices (a_choices a) cfg)).
      { intros k t I. destruct (G5 k t I) as (s & Es & Ps). rewrite nget_set, Es. cbn [bind]. eexists. split; [reflexivity|].
        destruct (nget cfg k) as [v|e] eqn:E; [|exact Ps]. apply nget_in in E. exact (same_key _ _ _ _ _ G4 C2 I E). }
      repeat split; cbn in *; auto; try match goal with H : Some _ = Some _ |- _ => injection H as <- end; auto.
    - exists m, []. eexists. split; [reflexivity|]. cbn. repeat split; cbn in *; auto; try match goal with H : Some _ = Some _ |- _ => injection H as <- end; auto.
  Qed.
End Inv.

Definition nonneg (e : event) : Prop := match e with Step i => 0 <= i | Resume => True end.
(** The constructor arguments make sense, and every target key is a unit whose choice is
    related to the target by [P]. *)
Definition configured (P : num -> num -> Prop) (a : algo) : Prop :=
  a_manager a = None /\ 0 < a_step_freq a /\ 0 < a_prune_times a <= 2 ^ 53 /\ NoDup (map fst (a_target a)) /\ covers P (a_target a) (a_choices a).
Definition same_kind (t s : num) : Prop := match t, s with NInt _, NInt _ | NFloat _, NFloat _ => True | _, _ => False end.
Lemma configured_good P a : configured P a -> good P (a_linear a) a /\ small (a_prune_times a).
Proof. intros (H1 & H2 & H3 & H4 & H5). unfold good, small. repeat split; auto; try lia; rewrite H1 in *; discriminate. Qed.
Lemma resume_good P lin a : good P lin a -> good P lin (resume a).
Proof. intros (H0 & H1 & H2 & H3 & H4 & H5). unfold good. cbn. repeat split; auto; discriminate. Qed.

(** ** Without linear scheduling (DCFF's default) *)
Lemma constant_prune m i : m_linear m = false -> i / m_step_freq m + 1 <= m_prune_times m -> covers same_kind (m_target m) (m_supernet m) -> prune_at m i = Ok (m_target m).
Proof.
  intros Hl Ht Hk. unfold prune_at. destruct (Z.leb_spec (i / m_step_freq m + 1) (m_prune_times m)); [|lia]. cbn [assert_ bind]. rewrite Hl. apply mapM_id.
  intros [k t] I. destruct (Hk _ _ I) as (s & E & K). cbn [fst snd] in *. rewrite E. cbn [bind]. unfold prune_value.
  destruct t, s; try destruct K; reflexivity.
Qed.
Lemma constant_step a i : good same_kind false a -> small (a_prune_times a) -> 0 <= i ->
  exists a', train_step a i = Ok a' /\ good same_kind false a' /\ a_target a' = a_target a /\ a_step_freq a' = a_step_freq a /\ a_prune_times a' = a_prune_times a /\
    a_choices a' = if prune_iter a i then set_choices (a_choices a) (a_target a) else a_choices a.
Proof.
  intros G S Hi. destruct (step_good same_kind false) with (a := a) (i := i) as (m & cfg & a' & E & G' & T1 & T2 & T3 & T4 & C); auto.
  { intros t s k T K _ _. unfold prune_value. destruct t, s; try destruct K; eexists; (split; [reflexivity|exact Logic.I]). }
  exists a'. do 5 (split; [assumption|]). destruct (prune_iter a i) eqn:B; [|exact C]. destruct C as (C1 & C2 & M1 & M2 & M3 & M4 & M5). rewrite C2. f_equal.
  rewrite constant_prune in C1; [apply Ok_inj in C1; congruence|rewrite M4; apply G| |rewrite M1; exact M5].
  apply andb_true_iff in B as [_ B]. apply Z.ltb_lt in B. rewrite M2, M3. lia.
Qed.
Theorem C66_constant_partial :
  forall a es, configured same_kind a -> a_linear a = false -> Forall nonneg es ->
    choices_of (run a es) = choices_of (run a (filter is_step es)).
Proof.
  assert (K : forall es a b, good same_kind false a -> good same_kind false b -> small (a_prune_times a) -> Forall nonneg es ->
    a_target a = a_target b -> a_step_freq a = a_step_freq b -> a_prune_times a = a_prune_times b -> a_choices a = a_choices b ->
    choices_of (run a es) = choices_of (run b (filter is_step es))).
  { induction es as [|e es IH]; intros a b Ga Gb S N E1 E2 E3 E4; cbn [run filter].
    - cbn. rewrite E4. reflexivity.
    - apply Forall_cons_iff in N as [N1 N2]. destruct e as [i|]; cbn [is_step].
      + cbn [run]. destruct (constant_step a i Ga S N1) as (a' & -> & Ga' & A1 & A2 & A3 & A4).
        destruct (constant_step b i Gb) as (b' & -> & Gb' & B1 & B2 & B3 & B4); [rewrite <- E3; exact S|exact N1|]. cbn [bind]. apply IH; auto; try congruence.
        rewrite A4, B4. unfold prune_iter. rewrite E1, E2, E3, E4. reflexivity.
      + apply IH; auto. apply resume_good. exact Ga. }
  intros a es C L N. destruct (configured_good _ _ C) as [G S]. rewrite L in G. apply K; auto.
Qed.
Print Assumptions C66_constant_partial.

(** ** Integer targets: wherever the run was interrupted, the last pruning sets the target *)
Lemma int_prune lin t s k T : int_pair t s -> 1 <= k <= T -> small T -> exists v, prune_value lin k T t s = Ok v /\ int_pair t v.
Proof.
  intros (a & b & -> & -> & Hab & Hb) Hk ST. assert (Sb : small b) by (unfold small; lia). destruct lin.
  - rewrite int_value; auto; try lia. eexists. split; [reflexivity|]. pose proof (int_value_bounds a b k T Hab Sb ltac:(lia) ltac:(lia)). do 2 eexists. repeat split; try reflexivity; lia.
  - eexists. split; [reflexivity|]. exists a, a. repeat split; lia.
Qed.
Theorem C66_final_partial :
  forall a es, configured int_pair a -> Forall nonneg es ->
    exists a', run a (es ++ [Step ((a_prune_times a - 1) * a_step_freq a)]) = Ok a' /\
      forall k t, In (k, t) (a_target a) -> nget (a_choices a') k = Ok t.
Proof.
  assert (K : forall es a, good int_pair (a_linear a) a -> small (a_prune_times a) -> Forall nonneg es ->
    exists a', run a (es ++ [Step ((a_prune_times a - 1) * a_step_freq a)]) = Ok a' /\
      forall k t, In (k, t) (a_target a) -> nget (a_choices a') k = Ok t).
  { induction es as [|e es IH]; intros a G S N; cbn [run app].
    - pose proof G as (_ & F1 & F2 & F3 & F4 & _).
      destruct (step_good int_pair (a_linear a) (int_prune _) a ((a_prune_times a - 1) * a_step_freq a) G S ltac:(nia)) as (m & cfg & a' & -> & G' & T1 & T2 & T3 & T4 & C).
      cbn [bind]. exists a'. split; [reflexivity|].
      assert (B : prune_iter a ((a_prune_times a - 1) * a_step_freq a) = true).
      { unfold prune_iter. rewrite Z.mod_mul, Z.div_mul by lia. cbn. apply Z.ltb_lt. lia. }
      rewrite B in C. destruct C as (C1 & C2 & M1 & M2 & M3 & M4 & M5).
      assert (V : cfg = a_target a).
      { destruct (m_linear m) eqn:L.
        - destruct (C33_ints_partial m L) as (ds & D1 & _ & _ & D4); [lia|unfold small in S; lia|rewrite M1; exact M5|].
          rewrite <- M2, <- M3, D1, D4 in C1 by (rewrite M3; lia). apply Ok_inj in C1. congruence.
        - rewrite constant_prune in C1; [apply Ok_inj in C1; congruence|exact L| |].
          + rewrite M2, M3, Z.div_mul by lia. lia.
          + rewrite M1. intros k t I. destruct (M5 k t I) as (s & Es & x & y & -> & -> & _). exists (NInt y). split; [exact Es|exact Logic.I]. }
      intros k t I. rewrite C2, V, nget_set. destruct (F4 k t I) as (s & -> & _). cbn [bind]. rewrite (nget_self _ F3 k t I). reflexivity.
    - apply Forall_cons_iff in N as [N1 N2]. destruct e as [i|].
      + destruct (step_good int_pair (a_linear a) (int_prune _) a i G S N1) as (m & cfg & a' & -> & G' & T1 & T2 & T3 & T4 & _). cbn [bind].
        rewrite <- T1, <- T2, <- T3. apply IH; [rewrite T4; exact G'|rewrite T3; exact S|exact N2].
      + exact (IH (resume a) (resume_good _ _ _ G) S N2). }
  intros a es C N. destruct (configured_good _ _ C) as [G S]. apply K; auto.
Qed.
Print Assumptions C66_final_partial.
Example C66_example :
  configured int_pair algo0 /\ Forall nonneg [Step 0; Step 1; Resume; Step 2] /\
  choices_of (run algo0 [Step 0; Step 1; Resume; Step 2; Resume; Step 3]) = Ok [("u"%string, NInt 20); ("v"%string, NInt 8)].
Proof.
  split; [|split; [repeat constructor; cbn; lia|vm_compute; reflexivity]]. repeat split; cbn; try lia.
  - constructor; [intros []|constructor].
  - intros k t [E|[]]. inversion E; subst. exists (NInt 100). split; [reflexivity|]. exists 20, 100. repeat split; lia.
Qed.
Example C66_constant_example :
  let a := {| a_target := [("u"%string, NInt 20)]; a_step_freq := 2; a_prune_times := 4; a_linear := false;
              a_choices := [("u"%string, NInt 100)]; a_manager := None |} in
  configured same_kind a /\ choices_of (run a [Resume; Step 1; Step 2; Resume; Step 3]) = Ok [("u"%string, NInt 20)].
Proof.
  cbv zeta. split; [|vm_compute; reflexivity]. repeat split; cbn; try lia.
  - constructor; [intros []|constructor].
  - intros k t [E|[]]. inversion E; subst. exists (NInt 100). split; [reflexivity|exact Logic.I].
Qed.

(** * C34: DCFF's step_freq / prune_times *)
(** The documented legal range is [1, max_iters], and exactly one of the two must be in it. *)
Definition documented_legal (max_iters x : Z) : Prop := 1 <= x <= max_iters.
Definition C34_claim : Prop :=
  forall max_iters f t, 0 < max_iters ->
    ((exists r, dcff_init max_iters f t = Ok r) <->
     (documented_legal max_iters f /\ ~ documented_legal max_iters t) \/ (documented_legal max_iters t /\ ~ documented_legal max_iters f)).
(** step_freq = max_iters is documented as legal but is rejected. *)
Theorem C34_range_refuted : ~ C34_claim.
Proof.
  intro H. destruct (H 100 100 0 ltac:(lia)) as [_ H2]. destruct H2 as [r E]; [left; unfold documented_legal; lia|]. vm_compute in E. discriminate.
Qed.
Print Assumptions C34_range_refuted.
Lemma legal_spec n x : x <> n -> (legal_freq_time n x = true <-> documented_legal n x).
Proof. intros H. unfold legal_freq_time, documented_legal. rewrite Z.gtb_ltb, andb_true_iff, !Z.ltb_lt. lia. Qed.
(** Apart from that value the check is the documented one, and the pair used prunes within the
    training run: all [prune_times * step_freq] iterations exist, and less than one more
    period (or less than one iteration per pruning) is left. *)
Theorem C34_partial :
  forall max_iters f t, 0 < max_iters -> f <> max_iters -> t <> max_iters ->
    ((exists r, dcff_init max_iters f t = Ok r) <->
     (documented_legal max_iters f /\ ~ documented_legal max_iters t) \/ (documented_legal max_iters t /\ ~ documented_legal max_iters f)).
Proof.
  intros n f t Hn Hf Ht. rewrite <- (legal_spec n f Hf), <- (legal_spec n t Ht). unfold dcff_init.
  destruct (legal_freq_time n f), (legal_freq_time n t); cbn; split; intros H; try (destruct H as [? ?]; discriminate); eauto; try (destruct H as [[? ?]|[? ?]]; congruence).
Qed.
Print Assumptions C34_partial.
Theorem C34_fits :
  forall max_iters f t f' t', dcff_init max_iters f t = Ok (f', t') ->
    1 <= f' /\ 1 <= t' /\ f' * t' <= max_iters /\
    (f' = f /\ documented_legal max_iters f /\ max_iters < f' * (t' + 1) \/ t' = t /\ documented_legal max_iters t /\ max_iters < (f' + 1) * t').
Proof.
  intros n f t f' t' H. unfold dcff_init in H. destruct (legal_freq_time n f) eqn:F; destruct (legal_freq_time n t) eqn:T; cbn [xorb] in H; try discriminate H;
    apply Ok_inj in H; injection H as <- <-; [clear T|clear F];
    match goal with H : legal_freq_time _ ?x = true |- _ => unfold legal_freq_time in H; rewrite Z.gtb_ltb, andb_true_iff, !Z.ltb_lt in H; destruct H as [H1 H2];
      pose proof (Z.mul_div_le n x H1); pose proof (Z.mul_succ_div_gt n x H1);
      assert (1 <= n / x) by (apply Z.div_le_lower_bound; lia); unfold documented_legal; repeat split; try lia; try nia; first [left; repeat split; try lia; nia|right; repeat split; try lia; nia] end.
Qed.
Print Assumptions C34_fits.
Example C34_example :
  dcff_init 100 30 0 = Ok (30, 3) /\ dcff_init 100 0 7 = Ok (14, 7) /\ dcff_init 100 1 7 = Raise RuntimeError /\ dcff_init 100 100 0 = Raise RuntimeError.
Proof. vm_compute. repeat split. Qed.
