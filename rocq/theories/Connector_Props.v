(** C176 and C177: which features the BYOT connector and the non-local blocks of FBKD accept.
    C181: what the factor-transfer connectors return. *)
From Coq Require Import List ZArith Bool Lia.
From Verif Require Import Prelude OpShapes_Model Connector_Model.
Import ListNotations.
Local Open Scope Z_scope.

(* ------------------------------------------------------------------ *)
(** ** Lemmas *)
Lemma halvings_sound f : forall a b n, 0 < b -> halvings f a b = Some n -> a = b * 2 ^ Z.of_nat n.
Proof.
  induction f as [|f IH]; intros a b n hb; cbn [halvings]; destruct (a =? b) eqn:e.
  - intros [= <-]. apply Z.eqb_eq in e. cbn. lia.
  - discriminate.
  - intros [= <-]. apply Z.eqb_eq in e. cbn. lia.
  - destruct (a mod 2 =? 0) eqn:e2; [|discriminate]. destruct (halvings f (a / 2) b) eqn:h; [|discriminate].
    intros [= <-]. apply IH in h; [|exact hb]. apply Z.eqb_eq in e2. rewrite Nat2Z.inj_succ, Z.pow_succ_r by lia.
    pose proof (Z.div_mod a 2 ltac:(lia)). nia.
Qed.
Lemma halvings_complete n : forall f b, 0 < b -> (n <= f)%nat -> exists m, halvings f (b * 2 ^ Z.of_nat n) b = Some m.
Proof.
  induction n as [|n IH]; intros f b hb hf.
  - exists 0%nat. destruct f; cbn [halvings]; rewrite Z.mul_1_r, Z.eqb_refl; reflexivity.
  - destruct f as [|f]; [lia|]. destruct (IH f b hb ltac:(lia)) as [m hm]. exists (S m). cbn [halvings].
    rewrite Nat2Z.inj_succ, Z.pow_succ_r by lia. pose proof (Z.pow_pos_nonneg 2 (Z.of_nat n) ltac:(lia) ltac:(lia)) as hp.
    destruct (Z.eqb_spec (b * (2 * 2 ^ Z.of_nat n)) b); [nia|].
    replace (b * (2 * 2 ^ Z.of_nat n)) with (b * 2 ^ Z.of_nat n * 2) by ring. rewrite Z.mod_mul, Z.div_mul by lia.
    cbn [Z.eqb]. rewrite hm. reflexivity.
Qed.
Lemma pow_fuel b n : 0 < b -> (n <= Z.to_nat (Z.log2 (Z.abs (b * 2 ^ Z.of_nat n))))%nat.
Proof.
  intros hb. pose proof (Z.pow_pos_nonneg 2 (Z.of_nat n) ltac:(lia) ltac:(lia)) as hp.
  assert (2 ^ Z.of_nat n <= Z.abs (b * 2 ^ Z.of_nat n)) as h by (rewrite Z.abs_eq; nia).
  apply Z.log2_le_mono in h. rewrite Z.log2_pow2 in h by lia. lia.
Qed.
Lemma pow2_inj b n m : 0 < b -> b * 2 ^ Z.of_nat n = b * 2 ^ Z.of_nat m -> n = m.
Proof. intros hb h. apply Z.mul_reg_l in h; [|lia]. apply Z.pow_inj_r in h; lia. Qed.
Lemma scala_up i n : 0 < i -> scala_num i (i * 2 ^ Z.of_nat n) = Ok (Z.of_nat n).
Proof.
  intros hi. pose proof (Z.pow_pos_nonneg 2 (Z.of_nat n) ltac:(lia) ltac:(lia)) as hp. unfold scala_num.
  destruct (Z.eqb_spec i 0); [lia|]. destruct (Z.eqb_spec (i * 2 ^ Z.of_nat n) 0); [nia|].
  replace (0 <? i) with true by (symmetry; apply Z.ltb_lt; lia).
  replace (0 <? i * 2 ^ Z.of_nat n) with true by (symmetry; apply Z.ltb_lt; nia). cbn [Bool.eqb negb orb].
  destruct (halvings_complete n _ i hi (pow_fuel i n hi)) as [m hm]. rewrite hm.
  apply halvings_sound in hm; [|exact hi]. apply pow2_inj in hm; [|exact hi]. subst. reflexivity.
Qed.
Lemma scala_down o n : 0 < o -> (0 < n)%nat -> scala_num (o * 2 ^ Z.of_nat n) o = Ok (- Z.of_nat n).
Proof.
  intros ho hn. pose proof (Z.pow_pos_nonneg 2 (Z.of_nat n) ltac:(lia) ltac:(lia)) as hp.
  pose proof (Z.pow_gt_1 2 (Z.of_nat n) ltac:(lia)) as [hg _]. specialize (hg ltac:(lia)). unfold scala_num.
  destruct (Z.eqb_spec (o * 2 ^ Z.of_nat n) 0); [nia|]. destruct (Z.eqb_spec o 0); [lia|].
  replace (0 <? o) with true by (symmetry; apply Z.ltb_lt; lia).
  replace (0 <? o * 2 ^ Z.of_nat n) with true by (symmetry; apply Z.ltb_lt; nia). cbn [Bool.eqb negb orb].
  destruct (halvings _ o (o * 2 ^ Z.of_nat n)) as [k|] eqn:e.
  - apply halvings_sound in e; [|nia]. pose proof (Z.pow_pos_nonneg 2 (Z.of_nat k) ltac:(lia) ltac:(lia)). exfalso.
    assert (o * 2 ^ Z.of_nat n > o) by nia. nia.
  - destruct (halvings_complete n _ o ho (pow_fuel o n ho)) as [m hm]. rewrite hm.
    apply halvings_sound in hm; [|exact ho]. apply pow2_inj in hm; [|exact ho]. subst. reflexivity.
Qed.
Lemma scala_inv i o z : 0 < i -> 0 < o -> scala_num i o = Ok z -> exists n, o = i * 2 ^ Z.of_nat n \/ i = o * 2 ^ Z.of_nat n.
Proof.
  intros hi ho. unfold scala_num. destruct (Z.eqb_spec i 0); [lia|].
  destruct ((o =? 0) || negb (Bool.eqb (0 <? i) (0 <? o))); [discriminate|].
  destruct (halvings _ o i) as [k|] eqn:e; [intros _; exists k; left; eapply halvings_sound; eauto|].
  destruct (halvings _ i o) as [k|] eqn:e2; [intros _; exists k; right; eapply halvings_sound; eauto|discriminate].
Qed.
Lemma conv_new_ok i m : 0 < i -> conv_new i (i * m) i = Ok tt.
Proof.
  intros hi. unfold conv_new. destruct (Z.leb_spec i 0); [lia|]. rewrite Z.mod_same, (Z.mul_comm i m), Z.mod_mul by lia. reflexivity.
Qed.
Definition kernel_ok (k : Z) : Prop := k = 3 \/ k = 5.
Definition stride_ok (s : Z) : Prop := s = 1 \/ s = 2.
Lemma new_sep_ok k i m s : kernel_ok k -> stride_ok s -> 0 < i -> new_sep k i (i * m) s = Ok tt.
Proof.
  intros hk hs hi. unfold new_sep, new_op. cbn [a_in a_out a_stride].
  replace ((k =? 3) || (k =? 5)) with true by (destruct hk; subst; reflexivity).
  replace ((s =? 1) || (s =? 2)) with true by (destruct hs; subst; reflexivity). cbn [assert_ bind].
  replace (conv_new i i i) with (conv_new i (i * 1) i) by (f_equal; ring). rewrite conv_new_ok by exact hi. cbn [bind]. apply conv_new_ok, hi.
Qed.
Lemma scala_in_S i e j : scala_in i e (S j) = scala_in i e j * 2.
Proof. unfold scala_in. rewrite Nat2Z.inj_succ, Z.pow_succ_r by lia. ring. Qed.
Lemma scala_in_pos i e j : 0 < i -> 0 < e -> 0 < scala_in i e j.
Proof. intros. unfold scala_in. pose proof (Z.pow_pos_nonneg 2 (Z.of_nat j) ltac:(lia) ltac:(lia)). nia. Qed.
Lemma new_scala_ok k i e s n : kernel_ok k -> stride_ok s -> 0 < i -> 0 < e -> forall j, new_scala k i e s n j = Ok tt.
Proof.
  intros hk hs hi he. induction n as [|n IH]; intros j; cbn [new_scala]; [reflexivity|].
  rewrite scala_in_S, new_sep_ok by auto using scala_in_pos. cbn [bind]. apply IH.
Qed.
Lemma conv_same i o k x : 0 <= k / 2 -> k = 2 * (k / 2) + 1 -> 1 <= ht x -> 1 <= wd x ->
  conv i o k 1 (k / 2) 1 x = if ch x =? i then Ok {| ch := o; ht := ht x; wd := wd x |} else Raise RuntimeError.
Proof.
  intros h0 hk hh hw. unfold conv. destruct (Z.eqb_spec (ch x) i); cbn [negb orb]; [|reflexivity].
  destruct (Z.ltb_spec (ht x + 2 * (k / 2)) (1 * (k - 1) + 1)); [lia|].
  destruct (Z.ltb_spec (wd x + 2 * (k / 2)) (1 * (k - 1) + 1)); [lia|]. cbn [orb]. rewrite !Z.div_1_r. f_equal. f_equal; lia.
Qed.
(** The sides that a separable convolution leaves. *)
Definition shrink (s v : Z) : Z := (v - 1) / s + 1.
Lemma shrink_pos s v : stride_ok s -> 1 <= v -> 1 <= shrink s v.
Proof. intros hs hv. unfold shrink. assert (0 <= (v - 1) / s) by (apply Z.div_pos; destruct hs; lia). lia. Qed.
Lemma conv_strided i o k s x : stride_ok s -> 0 <= k / 2 -> k = 2 * (k / 2) + 1 -> 1 <= ht x -> 1 <= wd x ->
  conv i o k s (k / 2) 1 x = if ch x =? i then Ok {| ch := o; ht := shrink s (ht x); wd := shrink s (wd x) |} else Raise RuntimeError.
Proof.
  intros hs h0 hk hh hw. unfold conv. destruct (Z.eqb_spec (ch x) i); cbn [negb orb]; [|reflexivity].
  destruct (Z.ltb_spec (ht x + 2 * (k / 2)) (1 * (k - 1) + 1)); [lia|].
  destruct (Z.ltb_spec (wd x + 2 * (k / 2)) (1 * (k - 1) + 1)); [lia|]. cbn [orb]. unfold shrink. f_equal. f_equal; f_equal; f_equal; lia.
Qed.
Lemma run_sep_spec k i o s x : kernel_ok k -> stride_ok s -> 1 <= ht x -> 1 <= wd x ->
  run_sep k i o s x = if ch x =? i then Ok {| ch := o; ht := shrink s (ht x); wd := shrink s (wd x) |} else Raise RuntimeError.
Proof.
  intros hk hs hh hw. assert (0 <= k / 2 /\ k = 2 * (k / 2) + 1) as [k0 k1] by (destruct hk; subst; cbn; lia).
  unfold run_sep, sep_forward. cbn [a_in a_out a_stride]. rewrite conv_strided by auto.
  destruct (ch x =? i); cbn [bind]; [|reflexivity].
  pose proof (shrink_pos s (ht x) hs hh) as sh. pose proof (shrink_pos s (wd x) hs hw) as sw.
  rewrite (conv_same _ _ 1) by (cbn; auto; lia). cbn [ch ht wd]. rewrite Z.eqb_refl. cbn [bind].
  unfold bn. cbn [ch]. rewrite Z.eqb_refl. cbn [bind]. rewrite conv_same by (cbn [ht wd]; auto). cbn [ch ht wd]. rewrite Z.eqb_refl. cbn [bind].
  rewrite (conv_same _ _ 1) by (cbn; auto; lia). cbn [ch ht wd]. rewrite Z.eqb_refl. cbn [bind ch]. rewrite Z.eqb_refl. reflexivity.
Qed.
Fixpoint shrinks (s : Z) (n : nat) (v : Z) : Z := match n with O => v | S n' => shrinks s n' (shrink s v) end.
Lemma shrinks_pos s n : stride_ok s -> forall v, 1 <= v -> 1 <= shrinks s n v.
Proof. intros hs. induction n as [|n IH]; intros v hv; cbn [shrinks]; [exact hv|]. apply IH, shrink_pos; auto. Qed.
Lemma shrinks_1 n : forall v, shrinks 1 n v = v.
Proof. induction n as [|n IH]; intros v; cbn [shrinks]; [reflexivity|]. rewrite IH. unfold shrink. rewrite Z.div_1_r. lia. Qed.
Lemma shrinks_2 n : forall v, shrinks 2 n v = (v - 1) / 2 ^ Z.of_nat n + 1.
Proof.
  induction n as [|n IH]; intros v; cbn [shrinks].
  - cbn. rewrite Z.div_1_r. lia.
  - rewrite IH. unfold shrink. rewrite Nat2Z.inj_succ, Z.pow_succ_r by lia.
    rewrite <- Z.div_div by (try apply Z.pow_pos_nonneg; lia). f_equal. f_equal. lia.
Qed.
Lemma run_scala_spec k i e s n : kernel_ok k -> stride_ok s -> forall j x, 1 <= ht x -> 1 <= wd x -> ch x = scala_in i e j ->
  run_scala k i e s n j x = Ok {| ch := scala_in i e (n + j); ht := shrinks s n (ht x); wd := shrinks s n (wd x) |}.
Proof.
  intros hk hs. induction n as [|n IH]; intros j x hh hw hc; cbn [run_scala shrinks].
  - cbn [Nat.add]. rewrite <- hc. destruct x. reflexivity.
  - rewrite run_sep_spec by auto. rewrite hc, Z.eqb_refl. cbn [bind]. rewrite IH; cbn [ch ht wd]; auto using shrink_pos.
    replace (n + S j)%nat with (S n + j)%nat by lia. reflexivity.
Qed.
Lemma pool_spec p x : 0 < p -> pool p p 0 x = if (p <=? ht x) && (p <=? wd x) then Ok {| ch := ch x; ht := ht x / p; wd := wd x / p |} else Raise RuntimeError.
Proof.
  intros hp. unfold pool. destruct (Z.ltb_spec p (2 * 0)); [lia|].
  assert (forall v, (v + 2 * 0 - p) / p + 1 = v / p) as ed.
  { intros v. replace v with (v - p + 1 * p) at 2 by ring. rewrite Z.div_add by lia. f_equal. f_equal. lia. }
  rewrite !ed.
  assert (forall v, (v / p <? 1) = negb (p <=? v)) as el.
  { intros v. destruct (Z.leb_spec p v) as [h|h]; cbn [negb].
    - apply Z.ltb_ge. apply Z.div_le_lower_bound; lia.
    - apply Z.ltb_lt. apply Z.div_lt_upper_bound; lia. }
  rewrite !el. destruct (p <=? ht x), (p <=? wd x); reflexivity.
Qed.

(* ------------------------------------------------------------------ *)
(** ** Specification of the BYOT connector *)
(** Doubling the attention map must give back the side of the feature map, or that side is 1 and is broadcast. *)
Definition merged (s v : Z) (m : Z) : Prop :=
  (s = 2 /\ v mod 2 = 0 /\ m = v) \/ (v = 1 /\ m = 2).
(** What is left of the side [m] after [n] separable convolutions: all of it, or the [2 ^ n]-th part rounded up. *)
Definition left_over (s : Z) (n : nat) (m l : Z) : Prop :=
  (s = 1 /\ l = m) \/ (s = 2 /\ 2 ^ Z.of_nat n * (l - 1) < m <= 2 ^ Z.of_nat n * l).
(** The pooling must leave a single position. *)
Definition side_fits (s : Z) (n : nat) (p v : Z) : Prop :=
  exists m l, merged s v m /\ left_over s n m l /\ p <= l < 2 * p.

Lemma left_over_spec s n m l : stride_ok s -> (left_over s n m l <-> l = shrinks s n m).
Proof.
  intros hs. unfold left_over. pose proof (Z.pow_pos_nonneg 2 (Z.of_nat n) ltac:(lia) ltac:(lia)) as hp. destruct hs; subst s.
  - rewrite shrinks_1. split; [intros [[_ h]|[h _]]; [exact h|lia]|intros h; left; auto].
  - rewrite shrinks_2. set (q := 2 ^ Z.of_nat n) in *. clearbody q. split.
    + intros [[h _]|[_ [h1 h2]]]; [lia|]. assert ((m - 1) / q = l - 1) as h; [|lia].
      symmetry. apply (Z.div_unique_pos _ _ _ (m - 1 - q * (l - 1))); lia.
    + intros h. right. split; [reflexivity|]. pose proof (Z.div_mod (m - 1) q ltac:(lia)). pose proof (Z.mod_pos_bound (m - 1) q hp). subst l. nia.
Qed.
Lemma badd1_merged s v : stride_ok s -> 1 <= v ->
  match badd1 (2 * shrink s v) v with
  | Ok m => merged s v m /\ 1 <= m
  | Raise _ => forall m, ~ merged s v m
  end.
Proof.
  intros hs hv. unfold badd1, shrink, merged. pose proof (Z.div_mod v 2 ltac:(lia)) as hd. pose proof (Z.mod_pos_bound v 2 ltac:(lia)) as hb.
  destruct hs; subst s.
  - rewrite Z.div_1_r. destruct (Z.eqb_spec (2 * (v - 1 + 1)) v); [lia|]. destruct (Z.eqb_spec (2 * (v - 1 + 1)) 1); [lia|].
    destruct (Z.eqb_spec v 1); [lia|]. intros m; lia.
  - pose proof (Z.div_mod (v - 1) 2 ltac:(lia)) as he. pose proof (Z.mod_pos_bound (v - 1) 2 ltac:(lia)) as hc.
    destruct (Z.eqb_spec (2 * ((v - 1) / 2 + 1)) v); [lia|]. destruct (Z.eqb_spec (2 * ((v - 1) / 2 + 1)) 1); [lia|].
    destruct (Z.eqb_spec v 1); [subst v; cbn in *; lia|]. intros m; lia.
Qed.
Lemma merged_unique s v m m' : merged s v m -> merged s v m' -> m = m'.
Proof. unfold merged. intros [[h1 [h2 h3]]|[h1 h2]] [[h4 [h5 h6]]|[h4 h5]]; subst; cbn in *; lia. Qed.

(* ------------------------------------------------------------------ *)
(** The constructor accepts exactly the pairs of channels of which one is the other times a power of two. *)
Theorem C176_accepts : forall i o classes e p k s,
  0 < i -> 0 < o -> 0 < e -> kernel_ok k -> stride_ok s ->
  ((exists b, new_byot i o classes e p k s = Ok b) <-> exists n : nat, o = i * 2 ^ Z.of_nat n \/ i = o * 2 ^ Z.of_nat n).
Proof.
  intros i o classes e p k s hi ho he hk hs. unfold new_byot.
  replace (new_sep k (i * e) (i * e) s) with (new_sep k (i * e) (i * e * 1) s) by (f_equal; ring).
  rewrite new_sep_ok by (auto; nia). cbn [bind]. split.
  - intros [b hb]. destruct (scala_num i o) eqn:e1; [|discriminate]. eapply scala_inv; eauto.
  - intros [n hn]. assert (exists z, scala_num i o = Ok z) as [z hz].
    { destruct hn as [->| ->]; [eexists; apply scala_up; exact hi|]. destruct n as [|n].
      - cbn. rewrite Z.mul_1_r. exists 0. rewrite <- (Z.mul_1_r o) at 2. apply (scala_up o 0 ho).
      - eexists. apply scala_down; [exact ho|lia]. }
    rewrite hz. cbn [bind]. rewrite new_scala_ok by auto. cbn [bind]. eexists. reflexivity.
Qed.
Example C176_accepts_example :
  (exists b, new_byot 64 512 100 1 4 3 2 = Ok b /\ b_doublings b = 3%nat) /\ new_byot 64 192 100 1 4 3 2 = Raise AssertionError.
Proof. split; [eexists; split; reflexivity|reflexivity]. Qed.

(** A connector to [2 ^ n] times as many channels accepts exactly the features with its own number of channels and with sides
    that fit, and it returns one feature for every output channel and one logit for every class. *)
Theorem C176_forward : forall i n classes e p k s b x r,
  0 < i -> 0 < e -> 0 < p -> kernel_ok k -> stride_ok s -> 1 <= ht x -> 1 <= wd x ->
  new_byot i (i * 2 ^ Z.of_nat n) classes e p k s = Ok b ->
  (byot_forward b x = Ok r <->
   ch x = i * e /\ side_fits s n p (ht x) /\ side_fits s n p (wd x) /\ r = (i * 2 ^ Z.of_nat n * e, classes)).
Proof.
  intros i n classes e p k s b x r hi he hp hk hs hh hw hb.
  pose proof (Z.pow_pos_nonneg 2 (Z.of_nat n) ltac:(lia) ltac:(lia)) as hpow.
  unfold new_byot in hb. replace (new_sep k (i * e) (i * e) s) with (new_sep k (i * e) (i * e * 1) s) in hb by (f_equal; ring).
  rewrite new_sep_ok in hb by (auto; nia). cbn [bind] in hb. rewrite scala_up in hb by exact hi. cbn [bind] in hb.
  rewrite new_scala_ok in hb by auto. cbn [bind] in hb. apply Ok_inj in hb. subst b. rewrite Nat2Z.id.
  unfold byot_forward. cbn [b_in b_out b_classes b_expansion b_pool b_kernel b_stride b_doublings].
  rewrite run_sep_spec by auto. destruct (Z.eqb_spec (ch x) (i * e)) as [hc|hc]; cbn [bind].
  2: { split; [discriminate|intros [h _]; contradiction]. }
  unfold bn. cbn [ch]. rewrite Z.eqb_refl. cbn [bind]. unfold badd, upsample. cbn [ch ht wd]. rewrite hc.
  unfold badd1 at 1. rewrite Z.eqb_refl. cbn [bind].
  pose proof (badd1_merged s (ht x) hs hh) as mh. pose proof (badd1_merged s (wd x) hs hw) as mw.
  destruct (badd1 (2 * shrink s (ht x)) (ht x)) as [m1|]; cbn [bind].
  2: { split; [discriminate|]. intros (_ & (m & l & h & _) & _). destruct (mh m h). }
  destruct (badd1 (2 * shrink s (wd x)) (wd x)) as [m2|]; cbn [bind].
  2: { split; [discriminate|]. intros (_ & _ & (m & l & h & _) & _). destruct (mw m h). }
  destruct mh as [mh1 mh2], mw as [mw1 mw2].
  assert (forall v m, merged s v m -> (side_fits s n p v <-> p <= shrinks s n m < 2 * p)) as fits.
  { intros v m hm. unfold side_fits. split.
    - intros (m' & l & h1 & h2 & h3). rewrite (merged_unique _ _ _ _ hm h1). apply left_over_spec in h2; [|exact hs]. subst l. exact h3.
    - intros h. exists m, (shrinks s n m). split; [exact hm|]. split; [apply left_over_spec; auto|exact h]. }
  rewrite run_scala_spec; cbn [ch ht wd]; auto; [|unfold scala_in; cbn; ring]. cbn [bind].
  rewrite pool_spec by exact hp. cbn [ht wd ch]. rewrite (fits _ _ mh1), (fits _ _ mw1). unfold linear.
  destruct (Z.leb_spec p (shrinks s n m1)) as [g1|g1]; [|split; [discriminate|lia]].
  destruct (Z.leb_spec p (shrinks s n m2)) as [g2|g2]; [|split; [discriminate|lia]]. cbn [andb bind ch ht wd].
  assert (1 <= shrinks s n m1 / p) as d1 by (apply Z.div_le_lower_bound; lia).
  assert (1 <= shrinks s n m2 / p) as d2 by (apply Z.div_le_lower_bound; lia).
  rewrite Nat.add_0_r. unfold scala_in. set (c := i * 2 ^ Z.of_nat n * e) in *. assert (0 < c) as hc0 by (unfold c; nia).
  assert (forall v, 1 <= v / p -> (v / p = 1 <-> v < 2 * p)) as one.
  { intros v h. split.
    - intros h1. pose proof (Z.mul_succ_div_gt v p hp). nia.
    - intros h1. assert (v / p < 2) by (apply Z.div_lt_upper_bound; lia). lia. }
  destruct (Z.eqb_spec (c * (shrinks s n m1 / p) * (shrinks s n m2 / p)) c) as [hq|hq].
  - assert (shrinks s n m1 / p = 1 /\ shrinks s n m2 / p = 1) as [q1 q2].
    { clearbody c. revert hq d1 d2. generalize (shrinks s n m1 / p) (shrinks s n m2 / p). intros u w hq d1 d2.
      assert (u * w = 1) as h by (apply (Z.mul_reg_l _ _ c); lia). assert (u <= 1) by nia. assert (w <= 1) by nia. lia. }
    rewrite q1, q2, !Z.mul_1_r. cbn [bind].
    apply (one _ d1) in q1. apply (one _ d2) in q2. split.
    + intros h. apply Ok_inj in h. subst r. repeat split; auto.
    + intros (_ & _ & _ & ->). reflexivity.
  - split; [discriminate|]. intros (_ & [_ h1] & [_ h2] & _). apply (one _ d1) in h1. apply (one _ d2) in h2. exfalso. apply hq. rewrite h1, h2. ring.
Qed.
Example C176_forward_example :
  match new_byot 64 512 100 1 4 3 2 with
  | Ok b => byot_forward b {| ch := 64; ht := 32; wd := 32 |} = Ok (512, 100) /\
            byot_forward b {| ch := 64; ht := 30; wd := 56 |} = Ok (512, 100) /\
            byot_forward b {| ch := 64; ht := 31; wd := 32 |} = Raise RuntimeError /\
            byot_forward b {| ch := 64; ht := 64; wd := 32 |} = Raise RuntimeError
  | Raise _ => False
  end.
Proof. cbn. repeat split; reflexivity. Qed.

(** Claim: every connector that can be constructed accepts some features. *)
Definition C176_usable_claim : Prop := forall i o classes e p k s b,
  0 < i -> 0 < o -> 0 < e -> 0 < p -> kernel_ok k -> stride_ok s ->
  new_byot i o classes e p k s = Ok b -> exists x r, 1 <= ht x /\ 1 <= wd x /\ byot_forward b x = Ok r.

Lemma down_refuses i o classes e p k s b x : 0 < i -> 0 < o -> 0 < e -> 0 < p -> kernel_ok k -> stride_ok s -> 1 <= ht x -> 1 <= wd x ->
  o < i -> new_byot i o classes e p k s = Ok b -> exists er, byot_forward b x = Raise er.
Proof.
  intros hi ho he hp hk hs hh hw lt hb. unfold new_byot in hb.
  replace (new_sep k (i * e) (i * e) s) with (new_sep k (i * e) (i * e * 1) s) in hb by (f_equal; ring).
  rewrite new_sep_ok in hb by (auto; nia). cbn [bind] in hb. destruct (scala_num i o) as [z|] eqn:ez; [|discriminate]. cbn [bind] in hb.
  assert (Z.to_nat z = 0%nat) as z0.
  { destruct (scala_inv i o z hi ho ez) as [n [hn|hn]]; pose proof (Z.pow_pos_nonneg 2 (Z.of_nat n) ltac:(lia) ltac:(lia)); [exfalso; nia|].
    destruct n as [|n]; [cbn in hn; lia|]. subst i. rewrite scala_down in ez by (auto; lia). apply Ok_inj in ez. subst z. lia. }
  rewrite new_scala_ok in hb by auto. cbn [bind] in hb. apply Ok_inj in hb. subst b. rewrite z0.
  unfold byot_forward. cbn [b_in b_out b_classes b_expansion b_pool b_kernel b_stride b_doublings].
  rewrite run_sep_spec by auto. destruct (Z.eqb_spec (ch x) (i * e)) as [hc|hc]; cbn [bind]; [|eexists; reflexivity].
  unfold bn. cbn [ch]. rewrite Z.eqb_refl. cbn [bind]. unfold badd, upsample. cbn [ch ht wd]. rewrite hc.
  unfold badd1 at 1. rewrite Z.eqb_refl. cbn [bind].
  destruct (badd1 (2 * shrink s (ht x)) (ht x)) as [m1|]; cbn [bind]; [|eexists; reflexivity].
  destruct (badd1 (2 * shrink s (wd x)) (wd x)) as [m2|]; cbn [bind]; [|eexists; reflexivity].
  cbn [run_scala bind]. rewrite pool_spec by exact hp. cbn [ch ht wd].
  destruct (Z.leb_spec p m1) as [g1|g1]; [|eexists; reflexivity]. destruct (Z.leb_spec p m2) as [g2|g2]; [|eexists; reflexivity].
  cbn [andb bind ch ht wd]. unfold linear.
  assert (1 <= m1 / p) as d1 by (apply Z.div_le_lower_bound; lia).
  assert (1 <= m2 / p) as d2 by (apply Z.div_le_lower_bound; lia).
  destruct (Z.eqb_spec (i * e * (m1 / p) * (m2 / p)) (o * e)) as [hq|hq]; cbn [bind]; [|eexists; reflexivity].
  exfalso. assert (i * (m1 / p * (m2 / p)) = o) by nia. assert (1 <= m1 / p * (m2 / p)) by nia. nia.
Qed.

(** A connector accepts some features exactly if it does not reduce the channels and either halves the features and has
    something left to pool, or keeps them and pools two by two. *)
Theorem C176_usable_partial : forall i o classes e p k s b,
  0 < i -> 0 < o -> 0 < e -> 0 < p -> kernel_ok k -> stride_ok s ->
  new_byot i o classes e p k s = Ok b ->
  ((exists x r, 1 <= ht x /\ 1 <= wd x /\ byot_forward b x = Ok r) <->
   i <= o /\ ((s = 2 /\ (i < o \/ 2 <= p)) \/ (s = 1 /\ p = 2))).
Proof.
  intros i o classes e p k s b hi ho he hp hk hs hb.
  destruct (Z.le_gt_cases i o) as [le|lt].
  2: { split; [|lia]. intros (x & r & hh & hw & hx). destruct (down_refuses _ _ _ _ _ _ _ _ x hi ho he hp hk hs hh hw lt hb) as [er her]. congruence. }
  assert (exists n : nat, o = i * 2 ^ Z.of_nat n) as [n hn].
  { destruct (proj1 (C176_accepts i o classes e p k s hi ho he hk hs) (ex_intro _ b hb)) as [n [h|h]]; [eauto|].
    exists 0%nat. pose proof (Z.pow_pos_nonneg 2 (Z.of_nat n) ltac:(lia) ltac:(lia)). cbn. nia. }
  subst o. pose proof (Z.pow_pos_nonneg 2 (Z.of_nat n) ltac:(lia) ltac:(lia)) as hpow.
  assert ((exists x r, 1 <= ht x /\ 1 <= wd x /\ byot_forward b x = Ok r) <-> exists v, 1 <= v /\ side_fits s n p v) as red.
  { split.
    - intros (x & r & hh & hw & hx). apply (C176_forward i n classes e p k s b x r) in hx; auto. exists (ht x). split; [exact hh|]. apply hx.
    - intros (v & hv & hf). exists {| ch := i * e; ht := v; wd := v |}, (i * 2 ^ Z.of_nat n * e, classes). cbn [ht wd]. repeat split; auto.
      apply (C176_forward i n classes e p k s b _ _); cbn [ch ht wd]; auto. }
  rewrite red. clear red. unfold side_fits. split.
  - intros (v & hv & m & l & hm & hl & hf). split; [exact le|]. apply left_over_spec in hl; [|exact hs].
    destruct hs; subst s; [right|left]; (split; [reflexivity|]).
    + rewrite shrinks_1 in hl. unfold merged in hm. lia.
    + destruct n as [|n]; [|left; rewrite Nat2Z.inj_succ, Z.pow_succ_r by lia; pose proof (Z.pow_pos_nonneg 2 (Z.of_nat n) ltac:(lia) ltac:(lia)); nia].
      right. cbn [shrinks] in hl. unfold merged in hm. destruct hm as [[_ [h1 h2]]|[h1 h2]]; [|lia]. subst.
      destruct (Z.eq_dec p 1) as [->|]; [|lia]. assert (v = 1) by lia. subst v. cbn in h1. lia.
  - intros [_ [[-> h]|[-> ->]]].
    + destruct n as [|n].
      * cbn in h. destruct h as [h|h]; [lia|]. pose proof (Z.div_mod p 2 ltac:(lia)). pose proof (Z.mod_pos_bound p 2 ltac:(lia)).
        exists (p + p mod 2). split; [lia|]. exists (p + p mod 2), (p + p mod 2). split; [left; split; [reflexivity|split; [|reflexivity]]|].
        -- destruct (Z.eq_dec (p mod 2) 0) as [h0|h0]; [rewrite h0, Z.add_0_r; exact h0|]. assert (p mod 2 = 1) as h1 by lia.
           rewrite h1. rewrite Z.add_mod, h1 by lia. reflexivity.
        -- split; [apply left_over_spec; auto; reflexivity|lia].
      * exists (2 ^ Z.of_nat (S n) * p). rewrite Nat2Z.inj_succ, Z.pow_succ_r by lia. pose proof (Z.pow_pos_nonneg 2 (Z.of_nat n) ltac:(lia) ltac:(lia)) as hq.
        split; [nia|]. exists (2 * 2 ^ Z.of_nat n * p), p. split; [left; split; [reflexivity|split; [|reflexivity]]|].
        -- rewrite <- Z.mul_assoc, Z.mul_comm. apply Z.mod_mul. lia.
        -- split; [right; split; [reflexivity|]; rewrite Nat2Z.inj_succ, Z.pow_succ_r by lia; nia|lia].
    + exists 1. split; [lia|]. exists 2, 2. split; [right; auto|]. split; [left; auto|lia].
Qed.
Example C176_usable_partial_example :
  match new_byot 256 512 100 1 4 3 2 with Ok b => byot_forward b {| ch := 256; ht := 8; wd := 8 |} = Ok (512, 100) | Raise _ => False end.
Proof. reflexivity. Qed.
(** With the default arguments (expansion 4, pooling 4, kernel 3, stride 1) nothing is accepted. *)
Theorem C176_usable_refuted : ~ C176_usable_claim.
Proof.
  intros h. destruct (proj2 (C176_accepts 64 512 100 4 4 3 1 ltac:(lia) ltac:(lia) ltac:(lia) (or_introl eq_refl) (or_introl eq_refl))
                        (ex_intro _ 3%nat (or_introl eq_refl))) as [b hb].
  pose proof (h 64 512 100 4 4 3 1 b ltac:(lia) ltac:(lia) ltac:(lia) ltac:(lia) (or_introl eq_refl) (or_introl eq_refl) hb) as hx.
  apply (C176_usable_partial 64 512 100 4 4 3 1 b) in hx; auto; try lia; try (left; reflexivity).
Qed.
Example C176_usable_refuted_example :
  match new_byot 64 512 100 4 4 3 1 with Ok b => byot_forward b {| ch := 256; ht := 8; wd := 8 |} = Raise RuntimeError | Raise _ => False end.
Proof. reflexivity. Qed.
Print Assumptions C176_accepts.
Print Assumptions C176_forward.
Print Assumptions C176_usable_partial.
Print Assumptions C176_usable_refuted.

(* ------------------------------------------------------------------ *)
(** ** C177 *)
(** Claim: a non-local block with subsampling compares every position with the positions that max pooling with the configured
    stride leaves. *)
Definition C177_stride_claim : Prop := forall c reduction m stride x,
  0 < stride -> ch x = c -> stride <= ht x -> stride <= wd x ->
  nl_forward (new_nonlocal c reduction m true stride) x = Ok (x, (ht x / stride) * (wd x / stride)).
(** The block pools by twice the stride, because its parent has pooled by two already, and refuses maps smaller than that. *)
Theorem C177_stride_partial : forall c reduction m stride x,
  0 < stride -> m <> Gaussian -> ch x = c -> 0 <= ht x -> 0 <= wd x ->
  nl_forward (new_nonlocal c reduction m true stride) x =
  if (2 * stride <=? ht x) && (2 * stride <=? wd x) then Ok (x, (ht x / (2 * stride)) * (wd x / (2 * stride))) else Raise RuntimeError.
Proof.
  intros c reduction m stride x hs hm hc h0 w0. unfold nl_forward, new_nonlocal. cbn [nl_channels nl_g nl_phi].
  replace (is_gaussian m) with false by (destruct m; [contradiction|reflexivity..]). cbn [nl_channels nl_g nl_phi app].
  rewrite hc, Z.eqb_refl. cbn [negb pools]. rewrite pool_spec by lia.
  assert (forall v, (2 * stride <=? v) = (2 <=? v) && (stride <=? v / 2)) as e.
  { intros v. pose proof (Z.div_mod v 2 ltac:(lia)). pose proof (Z.mod_pos_bound v 2 ltac:(lia)).
    destruct (Z.leb_spec (2 * stride) v), (Z.leb_spec 2 v), (Z.leb_spec stride (v / 2)); cbn; lia. }
  rewrite !e. destruct (2 <=? ht x); [|reflexivity]. destruct (2 <=? wd x); [|cbn [andb bind]; rewrite ?andb_false_r; reflexivity].
  cbn [andb bind]. rewrite pool_spec by exact hs. cbn [ht wd ch]. destruct ((stride <=? ht x / 2) && (stride <=? wd x / 2)); [|reflexivity].
  cbn [bind ht wd]. rewrite Z.eqb_refl, !Z.div_div by lia. reflexivity.
Qed.
Example C177_stride_partial_example :
  nl_forward (new_nonlocal 16 2 DotProduct true 2) {| ch := 16; ht := 9; wd := 8 |} = Ok ({| ch := 16; ht := 9; wd := 8 |}, 4).
Proof. reflexivity. Qed.
Theorem C177_stride_refuted : ~ C177_stride_claim.
Proof.
  intros h. specialize (h 16 2 DotProduct 2 {| ch := 16; ht := 8; wd := 8 |}). cbn [ch ht wd] in h.
  rewrite C177_stride_partial in h by (cbn; try discriminate; lia). cbn in h. specialize (h ltac:(lia) eq_refl ltac:(lia) ltac:(lia)). discriminate.
Qed.
Example C177_stride_refuted_example :
  nl_forward (new_nonlocal 16 2 DotProduct true 2) {| ch := 16; ht := 8; wd := 8 |} = Ok ({| ch := 16; ht := 8; wd := 8 |}, 4).
Proof. reflexivity. Qed.
(** In mode gaussian the pooling of the parent is dropped on one side only, and no feature map is accepted. *)
Theorem C177_gaussian : forall c reduction stride x,
  0 < stride -> exists e, nl_forward (new_nonlocal c reduction Gaussian true stride) x = Raise e.
Proof.
  intros c reduction stride x hs. unfold nl_forward, new_nonlocal. cbn [nl_channels nl_g nl_phi is_gaussian app].
  destruct (negb (ch x =? c)); [eexists; reflexivity|]. cbn [pools]. rewrite !pool_spec by lia.
  destruct (Z.leb_spec 2 (ht x)) as [a1|a1]; [|eexists; reflexivity]. destruct (Z.leb_spec 2 (wd x)) as [a2|a2]; [|eexists; reflexivity].
  cbn [andb bind]. rewrite pool_spec by exact hs. cbn [ch ht wd].
  destruct (Z.leb_spec stride (ht x / 2)) as [b1|b1]; [|eexists; reflexivity]. destruct (Z.leb_spec stride (wd x / 2)) as [b2|b2]; [|eexists; reflexivity].
  cbn [andb bind ht wd].
  destruct ((stride <=? ht x) && (stride <=? wd x)); cbn [bind ht wd]; [|eexists; reflexivity].
  assert (forall v, stride <= v / 2 -> 1 <= v / 2 / stride /\ 2 * (v / 2 / stride) <= v / stride) as hd.
  { intros v hv. split; [apply Z.div_le_lower_bound; lia|]. rewrite Z.div_div, (Z.mul_comm 2 stride), <- Z.div_div by lia.
    pose proof (Z.div_mod (v / stride) 2 ltac:(lia)). pose proof (Z.mod_pos_bound (v / stride) 2 ltac:(lia)). lia. }
  destruct (hd _ b1) as [p1 q1], (hd _ b2) as [p2 q2].
  set (u := ht x / 2 / stride) in *. set (w := wd x / 2 / stride) in *. clearbody u w.
  destruct (Z.eqb_spec (u * w) (ht x / stride * (wd x / stride))) as [q|q]; [exfalso|eexists; reflexivity].
  set (a := ht x / stride) in *. set (b := wd x / stride) in *. clearbody a b. assert ((2 * u) * (2 * w) <= a * b) by (apply Z.mul_le_mono_nonneg; lia). nia.
Qed.
Example C177_gaussian_example :
  nl_forward (new_nonlocal 16 2 Gaussian true 2) {| ch := 16; ht := 32; wd := 32 |} = Raise RuntimeError.
Proof. reflexivity. Qed.
(** Without subsampling every position is compared with every position, in every mode. *)
Theorem C177_whole : forall c reduction m stride x,
  ch x = c -> nl_forward (new_nonlocal c reduction m false stride) x = Ok (x, ht x * wd x).
Proof.
  intros c reduction m stride x hc. unfold nl_forward, new_nonlocal. cbn [nl_channels nl_g nl_phi]. rewrite hc, Z.eqb_refl. cbn [negb pools bind].
  rewrite Z.eqb_refl. reflexivity.
Qed.
Example C177_whole_example :
  nl_forward (new_nonlocal 16 2 Gaussian false 2) {| ch := 16; ht := 7; wd := 5 |} = Ok ({| ch := 16; ht := 7; wd := 5 |}, 35).
Proof. reflexivity. Qed.
Print Assumptions C177_stride_partial.
Print Assumptions C177_stride_refuted.
Print Assumptions C177_gaussian.
Print Assumptions C177_whole.

(* ------------------------------------------------------------------ *)
(** ** C181 *)
Lemma encoder_spec i o x : 1 <= ht x -> 1 <= wd x ->
  encoder i o x = if ch x =? i then Ok {| ch := o; ht := ht x; wd := wd x |} else Raise RuntimeError.
Proof.
  intros hh hw. unfold encoder, conv3. change 1 with (3 / 2) at 2 5 8.
  assert (forall a b y, 1 <= ht y -> 1 <= wd y -> conv a b 3 1 1 1 y = if ch y =? a then Ok {| ch := b; ht := ht y; wd := wd y |} else Raise RuntimeError) as e
    by (intros; apply (conv_same a b 3); cbn; auto; lia).
  change (3 / 2) with 1. rewrite e by auto. destruct (ch x =? i); cbn [bind]; [|reflexivity].
  unfold bn. cbn [ch]. rewrite Z.eqb_refl. cbn [bind]. rewrite e by auto. cbn [ch ht wd]. rewrite Z.eqb_refl. cbn [bind ch]. rewrite Z.eqb_refl. cbn [bind].
  rewrite e by auto. cbn [ch ht wd]. rewrite Z.eqb_refl. cbn [bind ch]. rewrite Z.eqb_refl. reflexivity.
Qed.
Lemma decoder_spec i o x : decoder i o x = if ch x =? o then Ok {| ch := i; ht := ht x; wd := wd x |} else Raise RuntimeError.
Proof.
  unfold decoder, conv_t3. destruct (ch x =? o) eqn:e; cbn [negb bind]; [|reflexivity].
  unfold bn. cbn [ch ht wd]. rewrite !Z.eqb_refl. cbn [negb bind ch ht wd]. rewrite !Z.eqb_refl. cbn [negb bind ch ht wd]. rewrite !Z.eqb_refl. cbn [negb bind ch ht wd].
  rewrite ?Z.eqb_refl. cbn [negb bind ch ht wd]. rewrite ?Z.eqb_refl. f_equal. f_equal; lia.
Qed.
(** A teacher in phase train and a student give factors that can be compared exactly if they have as many channels and the
    features have the same sides; no gradient reaches the teacher's connector and gradients reach the student's. *)
Theorem C181_factors : forall it o is_ o' xt xs,
  1 <= ht xt -> 1 <= wd xt -> 1 <= ht xs -> 1 <= wd xs -> ch xt = it -> ch xs = is_ ->
  exists t s, paraphrase {| p_in := it; p_out := o; p_phase := PhTrain |} xt = Ok (t, false) /\
              translate is_ o' xs = Ok (s, true) /\
              (t = s <-> o = o' /\ ht xt = ht xs /\ wd xt = wd xs).
Proof.
  intros it o is_ o' xt xs h1 h2 h3 h4 c1 c2. unfold paraphrase, translate. cbn [p_phase p_in p_out]. rewrite !encoder_spec by auto.
  rewrite c1, c2, !Z.eqb_refl. cbn [bind]. do 2 eexists. split; [reflexivity|]. split; [reflexivity|]. split.
  - intros h. injection h as -> -> ->. auto.
  - intros (-> & -> & ->). reflexivity.
Qed.
Example C181_factors_example :
  paraphrase {| p_in := 64; p_out := 32; p_phase := PhTrain |} {| ch := 64; ht := 8; wd := 6 |} = Ok ({| ch := 32; ht := 8; wd := 6 |}, false) /\
  translate 16 32 {| ch := 16; ht := 8; wd := 6 |} = Ok ({| ch := 32; ht := 8; wd := 6 |}, true).
Proof. split; reflexivity. Qed.
(** In phase pretrain, the default, the teacher's connector gives a reconstruction with the shape of its input, whatever the
    number of channels of its factors, and it is trained. *)
Theorem C181_reconstruction : forall i o x r,
  1 <= ht x -> 1 <= wd x ->
  (paraphrase {| p_in := i; p_out := o; p_phase := PhPretrain |} x = Ok r <-> ch x = i /\ r = (x, true)).
Proof.
  intros i o x r hh hw. unfold paraphrase. cbn [p_phase p_in p_out]. rewrite encoder_spec by auto.
  destruct (Z.eqb_spec (ch x) i) as [e|e]; cbn [bind]; [|split; [discriminate|intros [h _]; contradiction]].
  rewrite decoder_spec. cbn [ch ht wd]. rewrite Z.eqb_refl. cbn [bind]. subst i. destruct x as [c a b]. cbn [ch ht wd]. split.
  - intros h. apply Ok_inj in h. auto.
  - intros [_ ->]. reflexivity.
Qed.
Example C181_reconstruction_example :
  paraphrase {| p_in := 64; p_out := 32; p_phase := PhPretrain |} {| ch := 64; ht := 8; wd := 6 |} = Ok ({| ch := 64; ht := 8; wd := 6 |}, true).
Proof. reflexivity. Qed.
Print Assumptions C181_factors.
Print Assumptions C181_reconstruction.
