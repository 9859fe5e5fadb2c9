From Coq Require Import Qround Qminmax Qabs Lqa Permutation.
From Verif Require Import Prelude SparseGpt_Lemmas Gptq_Model.
Open Scope Z_scope.

(** * Rounding *)
Lemma inj_plus1 z : (inject_Z (z + 1) == inject_Z z + 1)%Q.
Proof. rewrite inject_Z_plus. reflexivity. Qed.
Lemma rnd_near q : (q - (1 # 2) <= inject_Z (rnd q))%Q /\ (inject_Z (rnd q) <= q + (1 # 2))%Q.
Proof.
  unfold rnd. pose proof (Qfloor_le q) as L. pose proof (Qlt_floor q) as U. rewrite inj_plus1 in U. set (f := Qfloor q) in *.
  destruct (Qcompare_spec (q - inject_Z f) (1 # 2)) as [E|E|E].
  - destruct (Z.even f); [|rewrite inj_plus1]; split; lra.
  - split; lra.
  - rewrite inj_plus1. split; lra.
Qed.
Lemma near_unique z q : (q - (1 # 2) < inject_Z z)%Q -> (inject_Z z < q + (1 # 2))%Q -> rnd q = z.
Proof.
  intros A B. destruct (rnd_near q) as [C D].
  assert (X : (inject_Z (rnd q) < inject_Z z + 1)%Q) by lra. assert (Y : (inject_Z z < inject_Z (rnd q) + 1)%Q) by lra.
  rewrite <- inj_plus1 in X, Y. rewrite <- Zlt_Qlt in X, Y. lia.
Qed.
Lemma rnd_int z : rnd (inject_Z z) = z.
Proof. apply near_unique; lra. Qed.
Lemma rnd_comp a b : (a == b)%Q -> rnd a = rnd b.
Proof.
  intros E. unfold rnd. rewrite (Qfloor_comp _ _ E). rewrite (Qcompare_comp (a - inject_Z (Qfloor b))%Q (b - inject_Z (Qfloor b))%Q ltac:(rewrite E; reflexivity) _ _ (Qeq_refl _)). reflexivity.
Qed.
Lemma rnd_le a b : (a <= b)%Q -> rnd a <= rnd b.
Proof.
  intros H. destruct (Z_le_gt_dec (rnd a) (rnd b)) as [L|G]; [exact L|exfalso].
  destruct (rnd_near a) as [A1 A2]. destruct (rnd_near b) as [B1 B2].
  assert (X : (inject_Z (rnd b) + 1 <= inject_Z (rnd a))%Q) by (rewrite <- inj_plus1, <- Zle_Qle; lia).
  assert (E : (a == b)%Q) by lra. apply rnd_comp in E. lia.
Qed.

(** * Quantization *)
Lemma clamp_Z m z k : (z == inject_Z k)%Q -> (clamp 0 (inject_Z m) z == inject_Z (Z.min (Z.max k 0) m))%Q.
Proof.
  intros E. unfold clamp.
  assert (X : (Qmax z 0 == inject_Z (Z.max k 0))%Q).
  { destruct (Q.max_spec z 0) as [[H ->]|[H ->]]; rewrite E in *; change 0%Q with (inject_Z 0) in *.
    - rewrite <- Zlt_Qlt in H. rewrite Z.max_r by lia. reflexivity.
    - rewrite <- Zle_Qle in H. rewrite Z.max_l by lia. reflexivity. }
  destruct (Q.min_spec (Qmax z 0) (inject_Z m)) as [[H ->]|[H ->]]; rewrite X in *.
  - rewrite <- Zlt_Qlt in H. rewrite Z.min_l by lia. reflexivity.
  - rewrite <- Zle_Qle in H. rewrite Z.min_r by lia. reflexivity.
Qed.
(** Parameters of a grid of maxq+1 levels. *)
Definition good (maxq : Z) (p : qparams) : Prop := (0 < scale p)%Q /\ exists z, (zero p == inject_Z z)%Q /\ 0 <= z <= maxq.
Definition on_grid (maxq : Z) (p : qparams) (x : Q) : Prop := exists k, 0 <= k <= maxq /\ (x == scale p * (inject_Z k - zero p))%Q.
Lemma quantize_grid maxq p x z : 0 <= maxq -> (zero p == inject_Z z)%Q ->
  (quantize1 maxq p x == scale p * (inject_Z (Z.min (Z.max (rnd (x / scale p) + z) 0) maxq) - zero p))%Q.
Proof.
  intros M Z0. unfold quantize1. destruct (Z.ltb_spec maxq 0); [lia|]. rewrite (clamp_Z maxq _ (rnd (x / scale p) + z)); [reflexivity|]. rewrite inject_Z_plus, Z0. reflexivity.
Qed.
Lemma quantize_on_grid maxq p x : 0 <= maxq -> good maxq p -> on_grid maxq p (quantize1 maxq p x).
Proof.
  intros M (S & z & Z0 & B). exists (Z.min (Z.max (rnd (x / scale p) + z) 0) maxq). split; [lia|]. apply quantize_grid; assumption.
Qed.
Lemma quantize_fixes maxq p x : 0 <= maxq -> good maxq p -> on_grid maxq p x -> (quantize1 maxq p x == x)%Q.
Proof.
  intros M (S & z & Z0 & B) (k & K & E). rewrite (quantize_grid maxq p x z M Z0).
  assert (R : rnd (x / scale p) = k - z).
  { rewrite (rnd_comp _ (inject_Z (k - z))); [apply rnd_int|]. rewrite E, Z0. unfold Z.sub. rewrite inject_Z_plus, inject_Z_opp. field. lra. }
  rewrite R. replace (k - z + z) with k by lia. rewrite Z.max_l, Z.min_l by lia. symmetry. exact E.
Qed.
(** ** The observed range *)
Lemma fold_min l : (fold_right Qmin 0 l <= 0)%Q /\ forall v, In v l -> (fold_right Qmin 0 l <= v)%Q.
Proof.
  induction l as [|x l [I1 I2]]; cbn [fold_right]; [split; [apply Qle_refl|intros v []]|].
  pose proof (Q.le_min_l x (fold_right Qmin 0%Q l)) as L. pose proof (Q.le_min_r x (fold_right Qmin 0%Q l)) as R.
  split; [lra|]. intros v [->|H]; [exact L|]. specialize (I2 v H). lra.
Qed.
Lemma fold_max l : (0 <= fold_right Qmax 0 l)%Q /\ forall v, In v l -> (v <= fold_right Qmax 0 l)%Q.
Proof.
  induction l as [|x l [I1 I2]]; cbn [fold_right]; [split; [apply Qle_refl|intros v []]|].
  pose proof (Q.le_max_l x (fold_right Qmax 0%Q l)) as L. pose proof (Q.le_max_r x (fold_right Qmax 0%Q l)) as R.
  split; [lra|]. intros v [->|H]; [exact L|]. specialize (I2 v H). lra.
Qed.
Lemma range_spec sym x : let r := xrange sym x in
  (fst r <= 0)%Q /\ (0 <= snd r)%Q /\ (0 < snd r - fst r)%Q /\ (forall v, In v x -> (fst r <= v)%Q /\ (v <= snd r)%Q) /\
  (sym = true -> (fst r < 0)%Q -> (fst r == - snd r)%Q) /\ (sym = true -> (exists v, In v x /\ (v < 0)%Q) -> (fst r < 0)%Q).
Proof.
  unfold xrange. destruct (fold_min x) as [A1 A2]. destruct (fold_max x) as [B1 B2].
  set (mn := fold_right Qmin 0%Q x) in *. set (mx := fold_right Qmax 0%Q x) in *. cbn zeta.
  assert (G : forall a b : Q, (a <= 0)%Q -> (0 <= b)%Q -> (forall v, In v x -> (a <= v)%Q /\ (v <= b)%Q) -> (sym = true -> (a < 0)%Q -> (a == - b)%Q) ->
    let r := if Qeq_bool a 0 && Qeq_bool b 0 then ((-1)%Q, 1%Q) else (a, b) in
    (fst r <= 0)%Q /\ (0 <= snd r)%Q /\ (0 < snd r - fst r)%Q /\ (forall v, In v x -> (fst r <= v)%Q /\ (v <= snd r)%Q) /\
    (sym = true -> (fst r < 0)%Q -> (fst r == - snd r)%Q) /\ (sym = true -> (exists v, In v x /\ (v < 0)%Q) -> (fst r < 0)%Q)).
  { intros a b Ha Hb Hv Hs. destruct (Qeq_bool a 0) eqn:Ea; cbn [andb]; [destruct (Qeq_bool b 0) eqn:Eb|]; cbn [fst snd].
    - apply Qeq_bool_iff in Ea, Eb. split; [lra|]. split; [lra|]. split; [lra|]. split; [intros v V; destruct (Hv v V); split; lra|]. split; [intros; lra|]. intros; lra.
    - apply Qeq_bool_iff in Ea. apply Qeq_bool_neq in Eb. split; [lra|]. split; [lra|]. split; [destruct (Qlt_le_dec 0 b) as [L|L]; [lra|exfalso; apply Eb; lra]|]. split; [exact Hv|]. split; [exact Hs|].
      intros _ (v & V & N). destruct (Hv v V). lra.
    - apply Qeq_bool_neq in Ea. assert (a < 0)%Q by (destruct (Qlt_le_dec a 0) as [L|L]; [exact L|exfalso; apply Ea; lra]). split; [lra|]. split; [lra|]. split; [lra|]. split; [exact Hv|]. split; [exact Hs|]. intros; assumption. }
  destruct sym.
  - pose proof (Q.le_max_l (Qabs mn) mx) as L. pose proof (Q.le_max_r (Qabs mn) mx) as R. set (m := Qmax (Qabs mn) mx) in *.
    pose proof (Qabs_neg mn A1) as N. destruct (Qle_bool 0 mn) eqn:E.
    + apply Qle_bool_iff in E. apply G; [lra|lra| |intros; lra]. intros v V. specialize (A2 v V). specialize (B2 v V). split; lra.
    + apply G; [lra|lra| |intros; reflexivity]. intros v V. specialize (A2 v V). specialize (B2 v V). split; lra.
  - apply G; [exact A1|exact B1| |discriminate]. intros v V. split; [apply A2|apply B2]; exact V.
Qed.
Lemma div_pos a b : (0 < a)%Q -> (0 < b)%Q -> (0 < a / b)%Q.
Proof. intros. apply Qlt_shift_div_l; lra. Qed.
Lemma inj_pos m : 0 < m -> (0 < inject_Z m)%Q.
Proof. intros. change 0%Q with (inject_Z 0). rewrite <- Zlt_Qlt. lia. Qed.
Lemma maxq_pos bits : (1 <= bits)%nat -> 0 < maxq_of bits false.
Proof. intros. unfold maxq_of. assert (2 ^ 1 <= 2 ^ Z.of_nat bits) by (apply Z.pow_le_mono_r; lia). change (2 ^ 1) with 2 in H0. lia. Qed.
Lemma sym_zero_int bits : (1 <= bits)%nat -> (sym_zero (maxq_of bits false) == inject_Z (2 ^ (Z.of_nat bits - 1)))%Q /\ 1 <= 2 ^ (Z.of_nat bits - 1) <= maxq_of bits false.
Proof.
  intros H. unfold sym_zero, maxq_of. replace (2 ^ Z.of_nat bits - 1 + 1) with (2 * 2 ^ (Z.of_nat bits - 1)).
  - split; [rewrite inject_Z_mult; field|]. pose proof (Z.pow_pos_nonneg 2 (Z.of_nat bits - 1)). replace (2 ^ Z.of_nat bits) with (2 * 2 ^ (Z.of_nat bits - 1)); [lia|].
    rewrite <- Z.pow_succ_r by lia. f_equal. lia.
  - rewrite <- Z.pow_succ_r by lia. replace (Z.succ (Z.of_nat bits - 1)) with (Z.of_nat bits) by lia. lia.
Qed.
(** Rounded zero points lie in the range. *)
Lemma zero_range m a b (s : Q) : 0 < m -> (a <= 0)%Q -> (0 <= b)%Q -> (0 < b - a)%Q -> (s == (b - a) / inject_Z m)%Q -> 0 <= rnd (- a / s) <= m.
Proof.
  intros M A B D S. assert (MP := inj_pos m M). assert (SP : (0 < s)%Q) by (rewrite S; apply div_pos; assumption). split.
  - replace 0 with (rnd (inject_Z 0)) by apply rnd_int. apply rnd_le. apply Qle_shift_div_l; [exact SP|]. change (inject_Z 0) with 0%Q. lra.
  - apply Z.le_trans with (rnd (inject_Z m)); [|rewrite rnd_int; lia]. apply rnd_le. apply Qle_shift_div_r; [exact SP|]. rewrite S. setoid_replace (inject_Z m * ((b - a) / inject_Z m))%Q with (b - a)%Q by (field; lra). lra.
Qed.
Lemma params_good bits sym x : (1 <= bits)%nat -> let m := maxq_of bits false in good m (params_of m sym (xrange sym x)).
Proof.
  intros H m. assert (M := maxq_pos bits H). fold m in M. destruct (range_spec sym x) as (A & B & D & _). destruct (xrange sym x) as [a b]. cbn [fst snd] in *.
  unfold params_of. destruct (Z.ltb_spec m 0); [lia|]. cbn [fst snd]. split; cbn [scale zero]; [apply div_pos; [exact D|apply inj_pos; exact M]|]. destruct sym.
  - destruct (sym_zero_int bits H) as [E R]. fold m in E, R. eexists. split; [exact E|lia].
  - eexists. split; [reflexivity|]. apply (zero_range m a b); try assumption. reflexivity.
Qed.
Lemma shrunk_good bits sym x grid i : (1 <= bits)%nat -> (i < grid)%nat -> let m := maxq_of bits false in good m (shrunk m sym (xrange sym x) grid i).
Proof.
  intros H L m. assert (M := maxq_pos bits H). fold m in M. destruct (range_spec sym x) as (A & B & D & _).
  assert (P : (0 < 1 - inject_Z (Z.of_nat i) / inject_Z (Z.of_nat grid))%Q).
  { assert (G : (0 < inject_Z (Z.of_nat grid))%Q) by (apply inj_pos; lia). assert (inject_Z (Z.of_nat i) / inject_Z (Z.of_nat grid) < 1)%Q; [|lra].
    apply Qlt_shift_div_r; [exact G|]. rewrite Qmult_1_l. rewrite <- Zlt_Qlt. lia. }
  unfold shrunk. set (p := (1 - _)%Q) in *. pose proof (params_good bits sym x H) as PG. fold m in PG. cbn zeta in PG. destruct (xrange sym x) as [a b]. cbn [fst snd] in *.
  assert (D' : (0 < p * b - p * a)%Q) by nra.
  split; cbn [scale zero]; [apply div_pos; [exact D'|apply inj_pos; exact M]|]. destruct sym; [exact (proj2 PG)|].
  eexists. split; [reflexivity|]. apply (zero_range m (p * a) (p * b)); [exact M|nra|nra|exact D'|reflexivity].
Qed.
Section Mse.
  Variable pow : Q -> Q.
  (** The search keeps the best of the candidates seen. *)
  Lemma mse_fold maxq sym x grid p0 : forall steps,
    let st := fold_left (mse_step pow maxq sym x grid) (seq 0 steps) (None, p0) in
    (steps = 0%nat /\ st = (None, p0)) \/
    exists i, (i < steps)%nat /\ snd st = shrunk maxq sym (xrange sym x) grid i /\ fst st = Some (err pow maxq x (snd st)) /\
      forall j, (j < steps)%nat -> (err pow maxq x (snd st) <= err pow maxq x (shrunk maxq sym (xrange sym x) grid j))%Q.
  Proof.
    induction steps as [|k IH]; [left; split; reflexivity|]. right. rewrite seq_S, fold_left_app. cbn [fold_left plus].
    set (st := fold_left _ (seq 0 k) _) in *. cbn zeta in IH. unfold mse_step. destruct IH as [[-> ->]|(i & Li & E & F & Mn)].
    - cbn [fst snd]. exists 0%nat. split; [lia|]. split; [reflexivity|]. split; [reflexivity|]. intros j Hj. replace j with 0%nat by lia. apply Qle_refl.
    - rewrite F. destruct (Qle_bool _ _) eqn:Q; cbn [negb].
      + apply Qle_bool_iff in Q. exists i. split; [lia|]. split; [exact E|]. split; [exact F|]. intros j Hj. destruct (Nat.eq_dec j k) as [->|N]; [exact Q|apply Mn; lia].
      + assert (Q' : (err pow maxq x (shrunk maxq sym (xrange sym x) grid k) < err pow maxq x (snd st))%Q).
        { apply Qnot_le_lt. intros C. apply Qle_bool_iff in C. congruence. }
        exists k. cbn [fst snd]. split; [lia|]. split; [reflexivity|]. split; [reflexivity|]. intros j Hj. destruct (Nat.eq_dec j k) as [->|N]; [apply Qle_refl|].
        specialize (Mn j ltac:(lia)). lra.
  Qed.
  Definition mse_ok (mse : option (nat * nat)) : Prop := match mse with Some (grid, steps) => (steps <= grid)%nat | None => True end.
  Lemma find_row_good bits sym mse x : (1 <= bits)%nat -> mse_ok mse -> good (maxq_of bits false) (find_row pow (maxq_of bits false) sym mse x).
  Proof.
    intros H O. unfold find_row. destruct mse as [[grid steps]|]; [|apply params_good; exact H]. cbn in O.
    destruct (mse_fold (maxq_of bits false) sym x grid (params_of (maxq_of bits false) sym (xrange sym x)) steps) as [[E ->]|(i & L & -> & _)].
    - apply params_good. exact H.
    - apply shrunk_good; [exact H|lia].
  Qed.
  Lemma find_params_good bits c W : (1 <= bits)%nat -> q_maxq c = maxq_of bits false -> mse_ok (q_mse c) ->
    length (find_params pow c W) = length W /\ Forall (good (q_maxq c)) (find_params pow c W).
  Proof.
    intros H M O. unfold find_params. rewrite M. destruct (q_perchannel c).
    - split; [apply map_length|]. apply Forall_map, Forall_forall. intros x _. apply find_row_good; assumption.
    - split; [apply repeat_length|]. apply Forall_forall. intros p I. apply repeat_spec in I. subst. apply find_row_good; assumption.
  Qed.
End Mse.

(** * The quantization loop *)
Section Loop.
  Variable pow : Q -> Q.
  Variables (cf : qconfig) (n bits : nat) (gs : option nat).
  Hypothesis Hbits : (1 <= bits)%nat.
  Hypothesis Hmaxq : q_maxq cf = maxq_of bits false.
  Hypothesis Hmse : mse_ok (q_mse cf).
  Hypothesis Hgs : match gs with Some g => (0 < g)%nat | None => True end.
  Let fine (ps : list qparams) : Prop := length ps = n /\ Forall (good (q_maxq cf)) ps.
  Lemma good_ready ps : Forall (good (q_maxq cf)) ps -> ready ps = true.
  Proof.
    intros F. apply forallb_forall. intros p I. rewrite Forall_forall in F. destruct (F p I) as [S _]. apply Bool.negb_true_iff.
    destruct (Qeq_bool (scale p) 0) eqn:E; [|reflexivity]. apply Qeq_bool_iff in E. lra.
  Qed.
  Lemma col_length ps w : length ps = n -> length w = n -> length (quantize_col (q_maxq cf) ps w) = n.
  Proof. intros A B. unfold quantize_col. destruct (ready ps); [|exact B]. rewrite map_length, combine_length. lia. Qed.
  (** The parameters that belong to column number c. *)
  Definition params_at (s : gstate) (c : nat) : list qparams := match gs with Some g => nth (c / g) (groups s) [] | None => cur s end.
  (** Before column number c. *)
  Definition ginv (c : nat) (s : gstate) : Prop :=
    fine (cur s) /\ Forall fine (groups s) /\
    match gs with
    | None => groups s = []
    | Some g => now_idx s = 1 + Z.of_nat (length (groups s)) /\
        match c with O => groups s = [] | S c' => length (groups s) = S (c' / g) /\ nth (c' / g) (groups s) [] = cur s end
    end.
  Lemma rows_of_length W : length (rows_of n W) = n.
  Proof. unfold rows_of. rewrite map_length, seq_length. reflexivity. Qed.
  Lemma div_succ g c : (0 < g)%nat -> (S c mod g = 0 /\ S c / g = S (c / g) \/ S c mod g <> 0 /\ S c / g = c / g)%nat.
  Proof.
    intros H. pose proof (Nat.div_mod c g ltac:(lia)) as D. pose proof (Nat.mod_upper_bound c g ltac:(lia)) as U.
    destruct (Nat.eq_dec (S (c mod g)) g) as [E|N].
    - left. assert (X : S c = (S (c / g) * g)%nat) by nia. split; [rewrite X; apply Nat.mod_mul; lia|rewrite X at 1; apply Nat.div_mul; lia].
    - right. assert (X : S c = (S (c mod g) + (c / g) * g)%nat) by nia. split.
      + rewrite X at 1. rewrite Nat.mod_add, Nat.mod_small by lia. lia.
      + rewrite X at 1. rewrite Nat.div_add, Nat.div_small by lia. reflexivity.
  Qed.
  Lemma regroup_spec W c s : ginv c s ->
    let s1 := regroup pow cf n gs W c s in
    ginv (S c) s1 /\ (exists ext, groups s1 = groups s ++ ext) /\ params_at s1 c = cur s1 /\ (gs = None -> s1 = s).
  Proof.
    intros (F & G & I). cbn zeta. unfold regroup, params_at, ginv. destruct gs as [g|].
    2: { split; [auto|]. split; [exists []; rewrite app_nil_r; reflexivity|auto]. }
    destruct I as [Nw I]. cbn zeta.
    set (ps := if Nat.eqb (c mod g) 0 then _ else _).
    assert (P : fine ps).
    { unfold ps. destruct (Nat.eqb _ _); [|exact F]. destruct (find_params_good pow bits cf (rows_of n (firstn g (skipn c W))) Hbits Hmaxq Hmse) as [A B]. split; [rewrite A; apply rows_of_length|exact B]. }
    assert (NEW : (c / g = length (groups s))%nat ->
      let s1 := if Z.of_nat (c / g) - now_idx s =? -1 then {| cur := ps; now_idx := now_idx s + 1; groups := groups s ++ [ps] |} else {| cur := ps; now_idx := now_idx s; groups := groups s |} in
      (fine (cur s1) /\ Forall fine (groups s1) /\ now_idx s1 = 1 + Z.of_nat (length (groups s1)) /\ length (groups s1) = S (c / g) /\ nth (c / g) (groups s1) [] = cur s1) /\
      (exists ext, groups s1 = groups s ++ ext) /\ nth (c / g) (groups s1) [] = cur s1 /\ (Some g = None -> s1 = s)).
    { intros L. destruct (Z.eqb_spec (Z.of_nat (c / g) - now_idx s) (-1)); [|lia]. cbn [cur now_idx groups].
      assert (N : nth (c / g) (groups s ++ [ps]) [] = ps) by (rewrite app_nth2, L, Nat.sub_diag by lia; reflexivity).
      rewrite app_length. cbn [length]. split; [split; [exact P|]; split; [apply Forall_app; split; [exact G|constructor; [exact P|constructor]]|]; split; [lia|]; split; [lia|exact N]|].
      split; [exists [ps]; reflexivity|]. split; [exact N|discriminate]. }
    destruct c as [|c'].
    - apply NEW. rewrite I. apply Nat.div_0_l. lia.
    - destruct I as [L C]. destruct (div_succ g c' Hgs) as [[M D]|[M D]].
      + apply NEW. lia.
      + unfold ps. destruct (Nat.eqb_spec (S c' mod g) 0) as [|_]; [contradiction|].
        destruct (Z.eqb_spec (Z.of_nat (S c' / g) - now_idx s) (-1)); [lia|]. cbn [cur now_idx groups]. rewrite D.
        split; [auto|]. split; [exists []; rewrite app_nil_r; reflexivity|]. split; [exact C|discriminate].
  Qed.
  Lemma axpy_cols e h W : length e = n -> length h = length W -> Forall (fun c => length c = n) W ->
    length (axpy e h W) = length W /\ Forall (fun c => length c = n) (axpy e h W).
  Proof.
    intros E L F. unfold axpy. split; [rewrite map_length, combine_length; lia|]. apply Forall_map, Forall_forall. intros [x c] I. apply in_combine_r in I.
    rewrite Forall_forall in F. cbn [fst snd]. rewrite map_length, combine_length, (F c I). lia.
  Qed.
  Lemma groups_ext_at s s2 c : ginv (S c) s -> (exists ext, groups s2 = groups s ++ ext) -> (gs = None -> s2 = s) -> forall i, (i <= c)%nat -> params_at s2 i = params_at s i.
  Proof.
    intros (_ & _ & I) (ext & E) N i Li. unfold params_at. destruct gs as [g|]; [|rewrite N by reflexivity; reflexivity]. destruct I as (_ & L & _).
    rewrite E, app_nth1; [reflexivity|]. rewrite L. apply Nat.lt_succ_r. apply Nat.div_le_mono; lia.
  Qed.
  Lemma block_spec W : forall hs W1 c s, tri (length W1) hs -> Forall (fun w => length w = n) W1 -> ginv c s ->
    let '(qs, es, s2) := quant_block pow cf n gs W c hs W1 s in
    length qs = length W1 /\ length es = length W1 /\ Forall (fun w => length w = n) es /\ ginv (c + length W1) s2 /\
    (exists ext, groups s2 = groups s ++ ext) /\ (gs = None -> s2 = s) /\
    forall i, (i < length W1)%nat -> exists w, length w = n /\ nth i qs [] = quantize_col (q_maxq cf) (params_at s2 (c + i)) w.
  Proof.
    induction hs as [|h hs IH]; intros [|w W1] c s T F G; cbn in T; try contradiction.
    - cbn. rewrite Nat.add_0_r. split; [reflexivity|]. split; [reflexivity|]. split; [constructor|]. split; [exact G|]. split; [exists []; rewrite app_nil_r; reflexivity|]. split; [auto|]. intros i Hi. lia.
    - cbn [quant_block]. destruct (regroup_spec W c s G) as (G1 & X1 & P1 & N1). set (s1 := regroup pow cf n gs W c s) in *.
      destruct T as [Lh T]. inversion F as [|? ? Lw F']; subst. destruct G1 as (F1 & R1).
      set (q := quantize_col (q_maxq cf) (cur s1) w). assert (Lq : length q = n) by (apply col_length; [apply F1|exact Lw]).
      set (e := map _ (combine w q)). assert (Le : length e = n) by (unfold e; rewrite map_length, combine_length; lia).
      assert (Lt : length (tl h) = length W1) by (destruct h; cbn in Lh |- *; lia).
      destruct (axpy_cols e (tl h) W1 Le Lt F') as [A1 A2].
      specialize (IH (axpy e (tl h) W1) (S c) s1). rewrite A1 in IH. specialize (IH T A2 (conj F1 R1)).
      destruct (quant_block pow cf n gs W (S c) hs (axpy e (tl h) W1) s1) as [[qs es] s2]. destruct IH as (I1 & I2 & I3 & I4 & I5 & I6 & I7).
      cbn [length]. split; [lia|]. split; [lia|]. split; [constructor; assumption|]. split; [replace (c + S (length W1))%nat with (S c + length W1)%nat by lia; exact I4|].
      assert (X2 : exists ext, groups s2 = groups s ++ ext) by (destruct X1 as (e1 & X1); destruct I5 as (e2 & I5); exists (e1 ++ e2); rewrite I5, X1, app_assoc; reflexivity).
      split; [exact X2|]. split; [intros E; rewrite I6, N1 by exact E; reflexivity|].
      intros [|i] Hi.
      + exists w. split; [exact Lw|]. rewrite Nat.add_0_r. cbn [nth]. rewrite (groups_ext_at s1 s2 c (conj F1 R1) I5 I6 c ltac:(lia)), P1. reflexivity.
      + destruct (I7 i ltac:(lia)) as (w' & Lw' & E). exists w'. split; [exact Lw'|]. replace (c + S i)%nat with (S c + i)%nat by lia. exact E.
  Qed.
  Lemma trail_cols b : forall (l : list (list Q * (nat * list Q))) T, (forall p, In p l -> length (fst p) = n /\ length (skipn (b - fst (snd p)) (snd (snd p))) = length T) ->
    Forall (fun c => length c = n) T ->
    let R := fold_left (fun T (p : list Q * (nat * list Q)) => axpy (fst p) (skipn (b - fst (snd p)) (snd (snd p))) T) l T in
    length R = length T /\ Forall (fun c => length c = n) R.
  Proof.
    induction l as [|p l IH]; intros T H F; [split; [reflexivity|exact F]|]. cbn [fold_left]. destruct (H p (or_introl eq_refl)) as [H1 H2].
    destruct (axpy_cols _ _ T H1 H2 F) as [A1 A2]. destruct (IH (axpy (fst p) (skipn (b - fst (snd p)) (snd (snd p))) T)) as [I1 I2]; [|exact A2|].
    - intros q Hq. rewrite A1. apply H. right. exact Hq.
    - split; [congruence|exact I2].
  Qed.
  Lemma blocks_spec' : forall sizes done hinv W s, fold_right Nat.add 0%nat sizes = length W -> tri (length W) hinv ->
    Forall (fun w => length w = n) W -> ginv (length done) s ->
    let '(qs, W', s2) := quant_blocks pow cf n gs sizes done hinv W s in
    length qs = length W /\ ginv (length done + length W) s2 /\ (exists ext, groups s2 = groups s ++ ext) /\ (gs = None -> s2 = s) /\
    forall i, (i < length W)%nat -> exists w, length w = n /\ nth i qs [] = quantize_col (q_maxq cf) (params_at s2 (length done + i)) w.
  Proof.
    induction sizes as [|b sizes IH]; intros done hinv W s Sz T F G; cbn [fold_right] in Sz.
    - destruct W; [|discriminate]. cbn. rewrite Nat.add_0_r. split; [reflexivity|]. split; [exact G|]. split; [exists []; rewrite app_nil_r; reflexivity|]. split; [auto|]. intros i Hi. lia.
    - cbn [quant_blocks]. set (r := fold_right Nat.add 0%nat sizes) in *. rewrite <- Sz in T. destruct (cut_spec b r 0 hinv T) as [C1 C2]. cbn [Nat.add] in C1, C2.
      assert (LB : length (firstn b W) = b) by (rewrite firstn_length; lia).
      assert (FB : Forall (fun w => length w = n) (firstn b W)) by (rewrite <- (firstn_skipn b W) in F; apply Forall_app in F; apply F).
      assert (FS : Forall (fun w => length w = n) (skipn b W)) by (rewrite <- (firstn_skipn b W) in F; apply Forall_app in F; apply F).
      set (bh := map (fun p : nat * list Q => firstn (b - fst p) (snd p)) (combine (seq 0 b) (firstn b hinv))) in *.
      pose proof (block_spec (done ++ W) bh (firstn b W) (length done) s) as BS. rewrite LB in BS. specialize (BS C1 FB G).
      destruct (quant_block pow cf n gs (done ++ W) (length done) bh (firstn b W) s) as [[qs es] s1]. destruct BS as (B1 & B2 & B3 & B4 & B5 & B6 & B7).
      assert (LS : length (skipn b W) = r) by (rewrite skipn_length; lia).
      destruct (trail_cols b (combine es (combine (seq 0 b) (firstn b hinv))) (skipn b W)) as [T1 T2]; [|exact FS|].
      { intros [e [i h]] I. cbn [fst snd]. split; [rewrite Forall_forall in B3; apply B3; eapply in_combine_l; exact I|]. apply in_combine_r in I.
        rewrite Forall_map, Forall_forall in C2. rewrite LS. exact (C2 (i, h) I). }
      match type of T1 with length ?t = _ => set (trail := t) in * end.
      specialize (IH (done ++ firstn b W) (skipn b hinv) trail s1). rewrite T1, LS, app_length, LB in IH.
      specialize (IH eq_refl (tri_skipn b r hinv T) T2 B4).
      destruct (quant_blocks pow cf n gs sizes (done ++ firstn b W) (skipn b hinv) trail s1) as [[qs' W'] s2]. destruct IH as (I1 & I2 & I3 & I4 & I5).
      rewrite app_length. split; [lia|]. split; [replace (length done + length W)%nat with (length done + b + r)%nat by lia; exact I2|].
      split; [destruct B5 as (e1 & X1); destruct I3 as (e2 & X2); exists (e1 ++ e2); rewrite X2, X1, app_assoc; reflexivity|].
      split; [intros E; rewrite I4, B6 by exact E; reflexivity|]. intros i Hi. destruct (Nat.lt_ge_cases i b) as [Lt|Ge].
      + destruct (B7 i Lt) as (w & Lw & E). exists w. split; [exact Lw|]. rewrite app_nth1 by lia. rewrite E. f_equal. symmetry.
        destruct b as [|b']; [lia|]. replace (length done + S b')%nat with (S (length done + b')) in B4 by lia.
        apply (groups_ext_at s1 s2 _ B4 I3 I4). lia.
      + destruct (I5 (i - b)%nat ltac:(lia)) as (w & Lw & E). exists w. split; [exact Lw|]. rewrite app_nth2 by lia. rewrite B1, E.
        replace (length done + b + (i - b))%nat with (length done + i)%nat by lia. reflexivity.
  Qed.
End Loop.

(** * Packing *)
Lemma u32_bits z i : 0 <= i -> Z.testbit (u32 z) i = (i <? 32) && Z.testbit z i.
Proof.
  intros H. unfold u32. destruct (Z.ltb_spec i 32); cbn [andb].
  - apply Z.mod_pow2_bits_low. lia.
  - apply Z.mod_pow2_bits_high. lia.
Qed.
Lemma i32_bits z i : 0 <= i < 32 -> Z.testbit (i32 z) i = Z.testbit z i.
Proof.
  intros H. unfold i32. destruct (z <? 2 ^ 31); [reflexivity|].
  rewrite <- (Z.mod_pow2_bits_low (z - 2 ^ 32) 32 i), <- (Z.mod_pow2_bits_low z 32 i) by lia. f_equal.
  replace (z - 2 ^ 32) with (z + (-1) * 2 ^ 32) by lia. apply Z_mod_plus_full.
Qed.
Lemma small_bits v b i : 0 <= v < 2 ^ b -> 0 <= b <= i -> Z.testbit v i = false.
Proof.
  intros V B. destruct (Z.eq_dec v 0) as [->|N]; [apply Z.testbit_0_l|]. apply Z.bits_above_log2; [lia|]. apply Z.log2_lt_pow2; [lia|]. apply Z.lt_le_trans with (2 ^ b); [lia|]. apply Z.pow_le_mono_r; lia.
Qed.
Lemma word_bits bits vals row i : 0 <= i < 32 -> forall js w, Z.testbit (fold_left (fun w j => Z.lor w (u32 (Z.shiftl (nth (row * Z.to_nat (32 / bits) + j) vals 0) (bits * Z.of_nat j)))) js w) i =
  Z.testbit w i || existsb (fun j => Z.testbit (nth (row * Z.to_nat (32 / bits) + j) vals 0) (i - bits * Z.of_nat j)) js.
Proof.
  intros H. induction js as [|j js IH]; intros w; cbn [fold_left existsb]; [rewrite Bool.orb_false_r; reflexivity|].
  rewrite IH, Z.lor_spec, u32_bits by lia. destruct (Z.ltb_spec i 32); [|lia]. cbn [andb]. rewrite Z.shiftl_spec by lia. rewrite Bool.orb_assoc. reflexivity.
Qed.
Lemma unpack_pack bits vals k : supported bits = true -> Forall (fun v => 0 <= v < 2 ^ bits) vals -> (length vals mod 32 = 0)%nat -> (k < length vals)%nat ->
  unpack bits (pack_words bits vals) k = nth k vals 0.
Proof.
  intros S F M L. assert (B : bits = 2 \/ bits = 4 \/ bits = 8) by (unfold supported in S; rewrite !Bool.orb_true_iff, !Z.eqb_eq in S; tauto).
  set (per := Z.to_nat (32 / bits)). assert (P : (0 < per)%nat /\ Z.of_nat per * bits = 32) by (unfold per; destruct B as [->|[->| ->]]; split; vm_compute; try reflexivity; lia).
  destruct P as [P PB]. unfold unpack. fold per. pose proof (Nat.div_mod k per ltac:(lia)) as D. pose proof (Nat.mod_upper_bound k per ltac:(lia)) as U.
  pose proof (Nat.div_mod (length vals) 32 ltac:(lia)) as DM. rewrite M in DM.
  assert (R : (k / per < length vals / 32 * Z.to_nat bits)%nat).
  { apply Nat.div_lt_upper_bound; [lia|]. assert (E : (per * (length vals / 32 * Z.to_nat bits) = 32 * (length vals / 32))%nat).
    { assert ((per * Z.to_nat bits = 32)%nat) by (destruct B as [->|[->| ->]]; reflexivity). rewrite (Nat.mul_comm (length vals / 32)), Nat.mul_assoc, H. reflexivity. } lia. }
  assert (FU : map u32 vals = vals).
  { rewrite <- (map_id vals) at 2. apply map_ext_in. intros v I. rewrite Forall_forall in F. specialize (F v I). apply Z.mod_small. split; [lia|].
    apply Z.lt_le_trans with (2 ^ bits); [lia|]. apply Z.pow_le_mono_r; lia. }
  unfold pack_words. rewrite FU.
  assert (EN : nth (k / per) (map (fun r => i32 (pack_word bits vals r)) (seq 0 (length vals / 32 * Z.to_nat bits))) 0 = i32 (pack_word bits vals (k / per))).
  { rewrite (nth_indep _ 0 (i32 (pack_word bits vals 0))) by (rewrite map_length, seq_length; exact R). rewrite map_nth with (f := fun r => i32 (pack_word bits vals r)), seq_nth by exact R. reflexivity. }
  rewrite EN.
  assert (V : 0 <= nth k vals 0 < 2 ^ bits) by (rewrite Forall_forall in F; apply F; apply nth_In; exact L).
  replace (2 ^ bits - 1) with (Z.ones bits) by (rewrite Z.ones_equiv; lia).
  apply Z.bits_inj'. intros t Ht. rewrite Z.land_spec. destruct (Z.lt_ge_cases t bits) as [Lt|Ge].
  2: { rewrite Z.ones_spec_high by lia. rewrite Bool.andb_false_r. symmetry. apply (small_bits _ bits); lia. }
  rewrite Z.ones_spec_low, Bool.andb_true_r, Z.shiftr_spec by lia.
  assert (I32 : 0 <= t + Z.of_nat (k mod per) * bits < 32) by nia.
  rewrite i32_bits by exact I32. unfold pack_word. rewrite word_bits by exact I32. rewrite Z.testbit_0_l. cbn [orb].
  destruct (Z.testbit (nth k vals 0) t) eqn:Tb.
  - apply existsb_exists. exists (k mod per)%nat. split; [apply in_seq; lia|]. fold per. replace (k / per * per + k mod per)%nat with k by lia.
    replace (t + Z.of_nat (k mod per) * bits - bits * Z.of_nat (k mod per)) with t by lia. exact Tb.
  - apply Bool.not_true_iff_false. intros X. apply existsb_exists in X. destruct X as (j & Ij & X). fold per in X. apply in_seq in Ij.
    destruct (Nat.lt_trichotomy j (k mod per)) as [C|[->|C]].
    + rewrite (small_bits _ bits) in X; [discriminate| |nia]. destruct (Nat.lt_ge_cases (k / per * per + j) (length vals)) as [C'|C'].
      * rewrite Forall_forall in F. apply F. apply nth_In. exact C'.
      * rewrite nth_overflow by exact C'. split; [lia|apply Z.pow_pos_nonneg; lia].
    + replace (k / per * per + k mod per)%nat with k in X by lia. replace (t + Z.of_nat (k mod per) * bits - bits * Z.of_nat (k mod per)) with t in X by lia. congruence.
    + rewrite Z.testbit_neg_r in X; [discriminate|nia].
Qed.
