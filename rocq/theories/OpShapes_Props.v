(** C152: which shape every searchable operation returns. *)
From Coq Require Import List ZArith Bool Lia.
From Verif Require Import Prelude OpShapes_Model.
Import ListNotations.
Local Open Scope Z_scope.

(** ** Specification *)
(** [a / s] rounded up. *)
Definition up (a s : Z) : Z := - ((- a) / s).
(** What the operations of one choice must agree on: the requested channels at 1 / stride of the resolution. *)
Definition target (c : args) (x : fmap) : fmap := {| ch := a_out c; ht := up (ht x) (a_stride c); wd := up (wd x) (a_stride c) |}.
Definition odd (k : Z) : Prop := exists h, 0 <= h /\ k = 2 * h + 1.
Definition even (k : Z) : Prop := exists h, k = 2 * h.
(** The arguments are sensible and the input is the one the operation was built for. *)
Definition proper (c : args) (x : fmap) : Prop :=
  1 <= a_in c /\ 1 <= a_out c /\ 1 <= a_stride c /\ ch x = a_in c /\ 1 <= ht x /\ 1 <= wd x.
(** When an operation fits. *)
Definition fits (o : op) (c : args) (x : fmap) : Prop :=
  match o with
  | ShuffleBlock k => (k = 3 \/ k = 5 \/ k = 7) /\ even (a_out c) /\ (a_stride c = 1 -> a_in c = a_out c)
  | ShuffleXception => even (a_out c) /\ (a_stride c = 1 -> a_in c = a_out c)
  | MBBlock k e _ attentive =>
      odd k /\ 1 <= e /\ (a_stride c = 1 \/ a_stride c = 2)
      /\ (attentive = true -> a_stride c = 2 -> even (ht x - wd x))
  | IdentityOp => True
  | ConvBnAct k d p _ => 2 * p = d * (k - 1)
  | DepthwiseSeparableConv k d _ pwk se => odd k /\ d = 1 /\ odd pwk /\ (se = true -> a_in c = a_out c)
  | DartsPoolBN k => k = 3 /\ a_in c = a_out c
  | DartsDilConv k => (k = 3 \/ k = 5) /\ (a_stride c = 1 \/ a_stride c = 2) /\ a_in c = a_out c
  | DartsSepConv k => (k = 3 \/ k = 5) /\ (a_stride c = 1 \/ a_stride c = 2) /\ (a_in c | a_out c)
  | DartsSkipConnect => (a_stride c = 1 /\ a_in c = a_out c) \/ (a_stride c = 2 /\ even (a_out c) /\ even (ht x) /\ even (wd x))
  | DartsZero => a_in c = a_out c
  end.

(** ** Lemmas *)
Lemma up_floor a s : 1 <= s -> up a s = (a - 1) / s + 1.
Proof.
  intros Hs. unfold up. pose proof (Z.div_mod (- a) s ltac:(lia)). pose proof (Z.mod_pos_bound (- a) s ltac:(lia)).
  assert ((a - 1) / s = - (- a / s) - 1); [|lia].
  symmetry. apply (Z.div_unique _ _ _ (s - 1 - (- a) mod s)); nia.
Qed.
Lemma up_one a : up a 1 = a.
Proof. unfold up. rewrite Z.div_1_r. lia. Qed.
Lemma up_pos a s : 1 <= s -> 1 <= a -> 1 <= up a s.
Proof. intros Hs Ha. rewrite up_floor by lia. pose proof (Z.div_pos (a - 1) s ltac:(lia) ltac:(lia)). lia. Qed.
Lemma fmap_eq a b c a' b' c' : a = a' -> b = b' -> c = c' -> Ok {| ch := a; ht := b; wd := c |} = Ok {| ch := a'; ht := b'; wd := c' |}.
Proof. intros -> -> ->. reflexivity. Qed.
(** A convolution whose padding makes up for its kernel. *)
Lemma conv_same i o k s p d x : ch x = i -> 1 <= ht x -> 1 <= wd x -> 1 <= s -> 2 * p = d * (k - 1) ->
  conv i o k s p d x = Ok {| ch := o; ht := up (ht x) s; wd := up (wd x) s |}.
Proof.
  intros E Hh Hw Hs Hp. unfold conv. rewrite E, Z.eqb_refl. cbn [negb orb].
  replace (ht x + 2 * p <? d * (k - 1) + 1) with false by (symmetry; apply Z.ltb_ge; lia).
  replace (wd x + 2 * p <? d * (k - 1) + 1) with false by (symmetry; apply Z.ltb_ge; lia).
  cbn [orb]. rewrite !up_floor by lia. apply fmap_eq; [reflexivity| |]; f_equal; f_equal; lia.
Qed.
Lemma conv_point i o x : ch x = i -> 1 <= ht x -> 1 <= wd x -> conv i o 1 1 0 1 x = Ok {| ch := o; ht := ht x; wd := wd x |}.
Proof. intros. rewrite conv_same by lia. rewrite !up_one. reflexivity. Qed.
Lemma bn_same n x : ch x = n -> bn n x = Ok x.
Proof. intros E. unfold bn. rewrite E, Z.eqb_refl. reflexivity. Qed.
Lemma badd1_same a b : a = b -> badd1 a b = Ok a.
Proof. intros ->. unfold badd1. rewrite Z.eqb_refl. reflexivity. Qed.
Lemma badd_same x y : ch x = ch y -> ht x = ht y -> wd x = wd y -> badd x y = Ok x.
Proof. intros A B C. unfold badd. rewrite !badd1_same by assumption. destruct x. reflexivity. Qed.
Lemma iadd_same x y : ch x = ch y -> ht x = ht y -> wd x = wd y -> iadd x y = Ok x.
Proof. intros A B C. unfold iadd. rewrite badd_same by assumption. cbn [bind]. rewrite !Z.eqb_refl. reflexivity. Qed.
Lemma conv_new_self n : 1 <= n -> conv_new n n n = Ok tt.
Proof. intros H. unfold conv_new. rewrite Z.mod_same by lia. replace (n <=? 0) with false by (symmetry; apply Z.leb_gt; lia). reflexivity. Qed.
Lemma odd_half k : odd k -> 2 * (k / 2) = 1 * (k - 1).
Proof. intros (h & Hh & ->). replace (2 * h + 1) with (1 + h * 2) by lia. rewrite Z.div_add by lia. change (1 / 2) with 0. lia. Qed.
Lemma even_half k : even k -> k / 2 + k / 2 = k /\ k / 2 * 2 = k.
Proof. intros (h & ->). rewrite Z.mul_comm, Z.div_mul by lia. lia. Qed.
Lemma half_even k : k / 2 + k / 2 = k -> even k.
Proof. intros H. exists (k / 2). lia. Qed.
Lemma even_mod k : even k -> k mod 2 = 0.
Proof. intros (h & ->). rewrite Z.mul_comm. apply Z.mod_mul. lia. Qed.
Lemma k_odd k : k = 3 \/ k = 5 \/ k = 7 -> odd k.
Proof. intros [-> | [-> | ->]]; [exists 1 | exists 2 | exists 3]; lia. Qed.
Lemma cat_same x y : ht x = ht y -> wd x = wd y -> cat x y = Ok {| ch := ch x + ch y; ht := ht x; wd := wd x |}.
Proof. intros A B. unfold cat. rewrite A, B, !Z.eqb_refl. reflexivity. Qed.
Lemma shuffle_same x : even (ch x) -> shuffle2 x = Ok x.
Proof. intros H. unfold shuffle2. rewrite even_mod by assumption. reflexivity. Qed.

Ltac pt := rewrite conv_point by (cbn [ch ht wd]; lia || reflexivity || (apply up_pos; lia)).
Ltac sm := rewrite conv_same by (cbn [ch ht wd]; lia || reflexivity || (apply up_pos; lia) || (apply odd_half; assumption)).

Lemma branch1_ok k c x : odd k -> proper c x -> branch1 k c x = Ok {| ch := a_out c / 2; ht := up (ht x) (a_stride c); wd := up (wd x) (a_stride c) |}.
Proof. intros Hk (Hi & Ho & Hs & Hc & Hh & Hw). unfold branch1. sm. cbn [bind]. pt. reflexivity. Qed.
Definition feeds (c : args) (x : fmap) : Prop :=
  ch x = (if 1 <? a_stride c then a_in c else a_out c / 2) /\ 1 <= ht x /\ 1 <= wd x /\ 1 <= a_stride c.
Lemma branch2_ok k c x : odd k -> feeds c x -> branch2 k c x = Ok {| ch := a_out c / 2; ht := up (ht x) (a_stride c); wd := up (wd x) (a_stride c) |}.
Proof. intros Hk (Hc & Hh & Hw & Hs). unfold branch2. cbv zeta. pt. cbn [bind]. sm. cbn [bind ht wd]. pt. reflexivity. Qed.
Lemma separable_ok i o s x : ch x = i -> 1 <= ht x -> 1 <= wd x -> 1 <= s ->
  separable i o s x = Ok {| ch := o; ht := up (ht x) s; wd := up (wd x) s |}.
Proof. intros. unfold separable. sm. cbn [bind]. pt. reflexivity. Qed.
Lemma branch2x_ok c x : feeds c x -> branch2x c x = Ok {| ch := a_out c / 2; ht := up (ht x) (a_stride c); wd := up (wd x) (a_stride c) |}.
Proof.
  intros (Hc & Hh & Hw & Hs). unfold branch2x. cbv zeta. rewrite separable_ok by assumption. cbn [bind].
  rewrite separable_ok by (cbn [ch ht wd]; lia || reflexivity || (apply up_pos; lia)). cbn [bind ht wd].
  rewrite !up_one. rewrite separable_ok by (cbn [ch ht wd]; lia || reflexivity || (apply up_pos; lia)). cbn [ht wd]. rewrite !up_one. reflexivity.
Qed.
Lemma shuffle_ok k b2 c x : odd k -> proper c x -> even (a_out c) -> (a_stride c = 1 -> a_in c = a_out c) ->
  (forall x, feeds c x -> b2 c x = Ok {| ch := a_out c / 2; ht := up (ht x) (a_stride c); wd := up (wd x) (a_stride c) |}) ->
  shuffle_forward k b2 c x = Ok (target c x).
Proof.
  intros Hk P Ev Hsame Hb. pose proof P as (Hi & Ho & Hs & Hc & Hh & Hw). destruct (even_half _ Ev) as (E1 & E2).
  unfold shuffle_forward. destruct (1 <? a_stride c) eqn:L.
  - rewrite branch1_ok by assumption. cbn [bind]. rewrite Hb by (unfold feeds; rewrite L; auto). cbn [bind].
    rewrite cat_same by reflexivity. cbn [bind ch ht wd]. rewrite E1. rewrite shuffle_same by assumption. reflexivity.
  - apply Z.ltb_ge in L. assert (S1 : a_stride c = 1) by lia. rewrite (Hsame S1) in *.
    unfold chunk2. replace (ch x <? 2) with false by (symmetry; apply Z.ltb_ge; lia). cbn [bind].
    assert (Hn : (ch x + 1) / 2 = a_out c / 2).
    { rewrite Hc. destruct Ev as (h & E). clear - E. Z.div_mod_to_equations. lia. }
    rewrite Hb by (unfold feeds; rewrite S1; cbn [ch ht wd Z.ltb Z.compare Pos.compare Pos.compare_cont]; repeat split; try lia).
    cbn [bind]. rewrite S1. cbn [ht wd]. rewrite !up_one. rewrite cat_same by reflexivity. cbn [bind ch ht wd]. rewrite Hn, E1.
    rewrite shuffle_same by assumption. unfold target. rewrite S1, !up_one. reflexivity.
Qed.
Lemma new_shuffle_ok c x : proper c x -> even (a_out c) -> (a_stride c = 1 -> a_in c = a_out c) -> new_shuffle c = Ok tt.
Proof.
  intros (Hi & Ho & Hs & Hc & Hh & Hw) Ev Hsame. destruct (even_half _ Ev) as (E1 & E2). unfold new_shuffle. cbv zeta. rewrite E2.
  rewrite !conv_new_self by lia. destruct (a_stride c =? 1) eqn:S1.
  - apply Z.eqb_eq in S1. rewrite (Hsame S1), Z.eqb_refl. cbn. destruct (1 <? a_stride c); reflexivity.
  - cbn. destruct (a_in c =? a_out c), (1 <? a_stride c); reflexivity.
Qed.
Lemma pool_pair s h w : (s = 1 \/ s = 2) -> 1 <= h -> 1 <= w -> even (h - w) -> forall n,
  pool 2 2 (w mod 2) {| ch := n; ht := h; wd := w |} = Ok {| ch := n; ht := up h 2; wd := up w 2 |}.
Proof.
  intros _ Hh Hw (q & Hq) n. unfold pool. cbn [ht wd ch].
  pose proof (Z.mod_pos_bound w 2 ltac:(lia)) as Hm. pose proof (Z.div_mod w 2 ltac:(lia)) as Hd.
  replace (2 <? 2 * (w mod 2)) with false by (symmetry; apply Z.ltb_ge; lia).
  assert (Ew : (w + 2 * (w mod 2) - 2) / 2 + 1 = up w 2) by (rewrite up_floor by lia; clear - Hw; Z.div_mod_to_equations; lia).
  assert (Eh : (h + 2 * (w mod 2) - 2) / 2 + 1 = up h 2) by (rewrite up_floor by lia; clear - Hh Hq; Z.div_mod_to_equations; lia).
  cbv zeta. rewrite Ew, Eh. pose proof (up_pos w 2 ltac:(lia) Hw). pose proof (up_pos h 2 ltac:(lia) Hh).
  replace (up h 2 <? 1) with false by (symmetry; apply Z.ltb_ge; lia). replace (up w 2 <? 1) with false by (symmetry; apply Z.ltb_ge; lia). reflexivity.
Qed.
Lemma pool3_ok s x : 1 <= s -> 1 <= ht x -> 1 <= wd x -> pool 3 s 1 x = Ok {| ch := ch x; ht := up (ht x) s; wd := up (wd x) s |}.
Proof.
  intros Hs Hh Hw. unfold pool. cbn [Z.ltb Z.compare Z.mul Pos.mul Pos.compare Pos.compare_cont]. cbv zeta.
  pose proof (up_pos (wd x) s Hs Hw) as A. pose proof (up_pos (ht x) s Hs Hh) as B. rewrite up_floor in * by lia.
  replace (ht x + 2 - 3) with (ht x - 1) by lia. replace (wd x + 2 - 3) with (wd x - 1) by lia. rewrite (up_floor (wd x)) by lia.
  replace ((ht x - 1) / s + 1 <? 1) with false by (symmetry; apply Z.ltb_ge; lia).
  replace ((wd x - 1) / s + 1 <? 1) with false by (symmetry; apply Z.ltb_ge; lia). reflexivity.
Qed.
Lemma shortcut_ok c x : proper c x -> (a_stride c = 1 \/ a_stride c = 2) -> (a_stride c = 2 -> even (ht x - wd x)) -> shortcut c x = Ok (target c x).
Proof.
  intros (Hi & Ho & Hs & Hc & Hh & Hw) St Ev. unfold shortcut, target. destruct x as [n h w]. cbn [ch ht wd] in *. subst n.
  destruct St as [S1 | S2].
  - rewrite S1, !up_one. cbn [Z.ltb Z.compare Pos.compare Pos.compare_cont bind]. destruct (a_in c =? a_out c) eqn:E; cbn [negb].
    + apply Z.eqb_eq in E. rewrite E. reflexivity.
    + pt. reflexivity.
  - rewrite S2. cbn [Z.ltb Z.compare Pos.compare Pos.compare_cont]. rewrite (pool_pair 2) by auto. cbn [bind].
    destruct (a_in c =? a_out c) eqn:E; cbn [negb].
    + apply Z.eqb_eq in E. rewrite E. reflexivity.
    + pt. reflexivity.
Qed.
Lemma reduce_ok i o x : ch x = i -> 1 <= ht x -> 1 <= wd x -> even o -> even (ht x) -> even (wd x) ->
  factorized_reduce i o x = Ok {| ch := o; ht := up (ht x) 2; wd := up (wd x) 2 |}.
Proof.
  intros Hc Hh Hw Eo (p & Ep) (q & Eq). unfold factorized_reduce. sm. cbn [bind].
  rewrite conv_same by (cbn [ch ht wd crop]; lia). cbn [bind].
  assert (U : forall n m, n = 2 * m -> up (n - 1) 2 = up n 2).
  { intros n m ->. rewrite !up_floor by lia. f_equal. replace (2 * m - 1 - 1) with ((m - 1) * 2) by lia. rewrite Z.div_mul by lia.
    replace (2 * m - 1) with (1 + (m - 1) * 2) by lia. rewrite Z.div_add by lia. change (1 / 2) with 0. lia. }
  rewrite cat_same by (cbn [ht wd crop]; symmetry; eapply U; eassumption). cbn [bind ch ht wd].
  rewrite (proj1 (even_half _ Eo)). apply bn_same. reflexivity.
Qed.

(** ** Theorems *)
(** [up] is division rounded up. *)
Theorem C152_up : forall a s n, 1 <= s -> (up a s = n <-> (n - 1) * s < a <= n * s).
Proof.
  intros a s n Hs. rewrite up_floor by lia. pose proof (Z.div_mod (a - 1) s ltac:(lia)). pose proof (Z.mod_pos_bound (a - 1) s ltac:(lia)). split.
  - intros <-. split; nia.
  - intros (A & B). assert ((a - 1) / s = n - 1); [|lia]. symmetry. apply (Z.div_unique _ _ _ (a - 1 - s * (n - 1))); nia.
Qed.

(** An operation that fits can be built and returns the shape of its choice: all candidates that fit are interchangeable. *)
Theorem C152_shape : forall o c x, proper c x -> fits o c x -> new_op o c = Ok tt /\ forward_op o c x = Ok (target c x).
Proof.
  intros o c x P F. pose proof P as (Hi & Ho & Hs & Hc & Hh & Hw). destruct o; cbn [fits new_op forward_op] in *.
  - destruct F as (Hk & Ev & Hsame). split.
    + rewrite (new_shuffle_ok c x) by assumption. destruct Hk as [-> | [-> | ->]]; reflexivity.
    + apply shuffle_ok; auto using k_odd. intros y Hy. apply branch2_ok; auto using k_odd.
  - destruct F as (Ev & Hsame). split.
    + rewrite (new_shuffle_ok c x) by assumption. cbn [bind]. rewrite conv_new_self by lia. destruct (1 <? a_stride c); reflexivity.
    + apply shuffle_ok; auto. { exists 1; lia. } intros y Hy. apply branch2x_ok; assumption.
  - destruct F as (Hk & He & St & Hat). assert (Hm : 1 <= a_in c * expand) by nia. split.
    + rewrite conv_new_self by assumption. destruct St as [E | E]; rewrite E; destruct attentive; reflexivity.
    + unfold mb_forward. cbv zeta.
      assert (E1 : (if negb (a_in c * expand =? a_in c) then conv (a_in c) (a_in c * expand) 1 1 0 1 x else Ok x)
                   = Ok {| ch := a_in c * expand; ht := ht x; wd := wd x |}).
      { destruct (a_in c * expand =? a_in c) eqn:E; cbn [negb]; [apply Z.eqb_eq in E; rewrite E, <- Hc; destruct x; reflexivity | pt; reflexivity]. }
      rewrite E1. cbn [bind]. sm. cbn [bind ht wd ch].
      assert (E2 : (if se then bn (a_in c * expand) {| ch := a_in c * expand; ht := up (ht x) (a_stride c); wd := up (wd x) (a_stride c) |}
                    else Ok {| ch := a_in c * expand; ht := up (ht x) (a_stride c); wd := up (wd x) (a_stride c) |})
                   = Ok {| ch := a_in c * expand; ht := up (ht x) (a_stride c); wd := up (wd x) (a_stride c) |}).
      { destruct se; [apply bn_same|]; reflexivity. }
      rewrite E2. cbn [bind]. pt. cbn [bind ht wd ch]. destruct attentive; cbn [negb].
      * rewrite andb_false_r. rewrite shortcut_ok by auto. cbn [bind]. apply badd_same; reflexivity.
      * rewrite andb_true_r. destruct (a_stride c =? 1) eqn:S1, (a_in c =? a_out c) eqn:IO; try reflexivity.
        apply Z.eqb_eq in S1, IO. rewrite badd_same; cbn [ch ht wd]; rewrite ?S1, ?up_one; try congruence.
        unfold target. rewrite S1, !up_one, <- IO, <- Hc. destruct x; reflexivity.
  - split; [reflexivity|]. destruct (a_stride c =? 1) eqn:S1, (a_in c =? a_out c) eqn:IO; cbn [negb orb]; try (sm; reflexivity).
    apply Z.eqb_eq in S1, IO. unfold target. rewrite S1, !up_one, <- IO, <- Hc. destruct x; reflexivity.
  - split; [reflexivity|]. unfold cba_forward. rewrite conv_same by assumption. cbn [bind].
    destruct (skip && (a_stride c =? 1) && (a_in c =? a_out c)) eqn:E; [|reflexivity].
    apply andb_prop in E. destruct E as (E & IO). apply andb_prop in E. destruct E as (_ & S1). apply Z.eqb_eq in S1, IO.
    rewrite iadd_same; cbn [ch ht wd]; rewrite ?S1, ?up_one; try congruence. unfold target. rewrite S1, !up_one. reflexivity.
  - destruct F as (Hk & -> & Hp & Hse). split; [apply conv_new_self; assumption|]. unfold ds_forward. sm. cbn [bind].
    assert (E2 : (if se then bn (a_out c) {| ch := a_in c; ht := up (ht x) (a_stride c); wd := up (wd x) (a_stride c) |}
                  else Ok {| ch := a_in c; ht := up (ht x) (a_stride c); wd := up (wd x) (a_stride c) |})
                 = Ok {| ch := a_in c; ht := up (ht x) (a_stride c); wd := up (wd x) (a_stride c) |}).
    { destruct se; [apply bn_same; cbn [ch]; auto | reflexivity]. }
    rewrite E2. cbn [bind]. sm. cbn [bind ht wd]. rewrite !up_one.
    destruct ((a_stride c =? 1) && (a_in c =? a_out c) && negb noskip) eqn:E; [|reflexivity].
    apply andb_prop in E. destruct E as (E & _). apply andb_prop in E. destruct E as (S1 & IO). apply Z.eqb_eq in S1, IO.
    rewrite iadd_same; cbn [ch ht wd]; rewrite ?S1, ?up_one; try congruence. unfold target. rewrite S1, !up_one. reflexivity.
  - destruct F as (-> & IO). split; [reflexivity|]. rewrite pool3_ok by assumption. cbn [bind].
    rewrite bn_same by (cbn [ch]; congruence). unfold target. rewrite <- IO, Hc. reflexivity.
  - destruct F as (Hk & St & IO). split.
    + rewrite conv_new_self by assumption. destruct Hk as [-> | ->], St as [E | E]; rewrite E; reflexivity.
    + unfold dil_forward. rewrite conv_same; try assumption; [|destruct Hk as [-> | ->]; reflexivity]. cbn [bind]. pt. cbn [bind].
      rewrite bn_same; [reflexivity | cbn [ch]; congruence].
  - destruct F as (Hk & St & (q & Hq)). assert (Hk' : odd k) by (apply k_odd; tauto). split.
    + rewrite conv_new_self by assumption. cbn [bind]. unfold conv_new. rewrite Z.mod_same, Hq, Z.mod_mul by lia.
      replace (a_in c <=? 0) with false by (symmetry; apply Z.leb_gt; lia). destruct Hk as [-> | ->], St as [E | E]; rewrite E; reflexivity.
    + unfold sep_forward. sm. cbn [bind]. pt. cbn [bind]. rewrite bn_same by reflexivity. cbn [bind]. sm. cbn [bind ht wd]. rewrite !up_one. pt.
      cbn [bind]. apply bn_same. reflexivity.
  - split; [reflexivity|]. unfold skip_forward. destruct F as [(S1 & IO) | (S2 & Eo & Eh & Ew)].
    + rewrite S1. unfold target. rewrite S1, !up_one, <- IO, <- Hc. destruct x; reflexivity.
    + rewrite S2. cbn [Z.ltb Z.compare Pos.compare Pos.compare_cont]. rewrite reduce_ok by assumption. unfold target. rewrite S2. reflexivity.
  - split; [reflexivity|]. unfold strided, target. rewrite <- F, <- Hc. destruct (a_stride c =? 1) eqn:S1.
    + apply Z.eqb_eq in S1. rewrite S1, !up_one. destruct x; reflexivity.
    + rewrite !up_floor by lia. apply fmap_eq; [reflexivity| |].
      * replace (ht x + a_stride c - 1) with (ht x - 1 + 1 * a_stride c) by lia. apply Z.div_add. lia.
      * replace (wd x + a_stride c - 1) with (wd x - 1 + 1 * a_stride c) by lia. apply Z.div_add. lia.
Qed.

(** Two candidates of one choice return the same shape, so that they can be exchanged or summed. *)
Theorem C152_exchange : forall o o' c x, proper c x -> fits o c x -> fits o' c x ->
  exists y, forward_op o c x = Ok y /\ forward_op o' c x = Ok y /\ badd y y = Ok y.
Proof.
  intros o o' c x P F F'. exists (target c x). split; [|split].
  - apply C152_shape; assumption.
  - apply C152_shape; assumption.
  - apply badd_same; reflexivity.
Qed.

Definition c_in4 : args := {| a_in := 4; a_out := 8; a_stride := 2 |}.
Definition x_odd : fmap := {| ch := 4; ht := 7; wd := 5 |}.
Example C152_example : proper c_in4 x_odd
  /\ forward_op (MBBlock 5 6 true true) c_in4 x_odd = Ok {| ch := 8; ht := 4; wd := 3 |}
  /\ forward_op ShuffleXception c_in4 x_odd = Ok {| ch := 8; ht := 4; wd := 3 |}
  /\ forward_op (DartsSepConv 5) c_in4 x_odd = Ok {| ch := 8; ht := 4; wd := 3 |}
  /\ forward_op IdentityOp c_in4 x_odd = Ok {| ch := 8; ht := 4; wd := 3 |}.
Proof. unfold proper. cbn. repeat split; try lia. Qed.
Example C152_fits_example : fits (MBBlock 5 6 true true) c_in4 x_odd /\ fits ShuffleXception c_in4 x_odd /\ fits (DartsSepConv 5) c_in4 x_odd.
Proof.
  cbn. repeat split; try lia.
  - exists 2. lia.
  - intros _ _. exists 1. lia.
  - exists 4. lia.
  - exists 2. lia.
Qed.
Print Assumptions C152_up.
Print Assumptions C152_shape.
Print Assumptions C152_exchange.
