(** What every subnet of the searchable AutoFormer returns (C170), which images and patch sizes it takes (C171) and what the order of
    the lists of its choices changes (C172). *)
From Coq Require Import List Arith Bool QArith Lia.
From Verif Require Import Prelude Autoformer_Model.
Import ListNotations.
Local Open Scope nat_scope.

(** ** Specification *)
(** The list ends with [m], which none of its entries exceeds. *)
Definition ends_with_max (l : list nat) (m : nat) : Prop := (exists p, l = p ++ [m]) /\ (forall x, In x l -> x <= m).
Definition ends_with_maxQ (l : list Q) (m : Q) : Prop := (exists p, l = p ++ [m]) /\ (forall x, In x l -> (x <= m)%Q).
(** What is asked of [int(k * ratio)]: it grows with [k] and with the ratio. *)
Definition grows (rmul : nat -> Q -> nat) : Prop := forall a b q r, a <= b -> (q <= r)%Q -> rmul a q <= rmul b r.
(** The images the network takes. *)
Definition fits (ch patches ch' h w : nat) : Prop := ch' = ch /\ 16 <= h /\ 16 <= w /\ ((h / 16) * (w / 16) = patches \/ patches = 0).

(** ** Lemmas *)
Lemma last_of_app {X} (p : list X) m : last_of (p ++ [m]) = Ok m.
Proof. unfold last_of. rewrite rev_app_distr. reflexivity. Qed.
Lemma last_of_inv {X} (l : list X) m : last_of l = Ok m -> exists p, l = p ++ [m].
Proof.
  unfold last_of. destruct (rev l) as [|x r] eqn:E; [discriminate|]. intros H. apply Ok_inj in H. subst x.
  exists (rev r). rewrite <- (rev_involutive l), E. reflexivity.
Qed.
Lemma fold_max_nat r : forall x, let m := fold_left (fun a b => if a <=? b then b else a) r x in x <= m /\ (forall y, In y r -> y <= m) /\ (m = x \/ In m r).
Proof.
  induction r as [|y r IH]; intros x; cbn [fold_left]; [cbn; split; [lia|split; [tauto|tauto]]|].
  destruct (Nat.leb_spec x y) as [L|L].
  - destruct (IH y) as [A [B C]]. split; [lia|]. split; [intros z [->|Z]; [exact A|apply B; exact Z]|]. right. cbn. destruct C as [C|C]; [left; symmetry; exact C|right; exact C].
  - destruct (IH x) as [A [B C]]. split; [exact A|]. split; [intros z [->|Z]; [lia|apply B; exact Z]|]. cbn. destruct C as [C|C]; [left; exact C|right; right; exact C].
Qed.
Lemma max_of_spec l m : max_of Nat.leb l = Ok m -> In m l /\ forall x, In x l -> x <= m.
Proof.
  destruct l as [|x r]; [discriminate|]. unfold max_of. intros H. apply Ok_inj in H. destruct (fold_max_nat r x) as [A [B C]]. rewrite H in *.
  split; [cbn; destruct C as [C|C]; [left; symmetry; exact C|right; exact C]|]. intros y [->|Y]; [exact A|apply B; exact Y].
Qed.
Lemma max_of_ok {X} leb (l : list X) p m : l = p ++ [m] -> exists k, max_of leb l = Ok k.
Proof. destruct l; intros E; [destruct p; discriminate E|]. eexists; reflexivity. Qed.
Lemma fold_max_q r : forall x, let m := fold_left (fun a b => if Qle_bool a b then b else a) r x in (x <= m)%Q /\ (forall y, In y r -> (y <= m)%Q) /\ (m = x \/ In m r).
Proof.
  induction r as [|y r IH]; intros x; cbn [fold_left]; [cbn; split; [apply Qle_refl|split; [tauto|tauto]]|].
  destruct (Qle_bool x y) eqn:L.
  - apply Qle_bool_iff in L. destruct (IH y) as [A [B C]]. split; [eapply Qle_trans; eassumption|]. split; [intros z [->|Z]; [exact A|apply B; exact Z]|].
    right. cbn. destruct C as [C|C]; [left; symmetry; exact C|right; exact C].
  - assert (L' : (y <= x)%Q). { apply Qlt_le_weak, Qnot_le_lt. intros N. apply Qle_bool_iff in N. congruence. }
    destruct (IH x) as [A [B C]]. split; [exact A|]. split; [intros z [->|Z]; [eapply Qle_trans; eassumption|apply B; exact Z]|].
    cbn. destruct C as [C|C]; [left; exact C|right; right; exact C].
Qed.
Lemma max_of_specQ l m : max_of Qle_bool l = Ok m -> In m l /\ forall x, In x l -> (x <= m)%Q.
Proof.
  destruct l as [|x r]; [discriminate|]. unfold max_of. intros H. apply Ok_inj in H. destruct (fold_max_q r x) as [A [B C]]. rewrite H in *.
  split; [cbn; destruct C as [C|C]; [left; symmetry; exact C|right; exact C]|]. intros y [->|Y]; [exact A|apply B; exact Y].
Qed.
Lemma insert_in x y l : In y (insert x l) <-> y = x \/ In y l.
Proof. induction l as [|z l IH]; cbn; [intuition congruence|]. destruct (x <=? z); cbn; [intuition congruence|]. rewrite IH. tauto. Qed.
Lemma sort_in y l : In y (sort l) <-> In y l.
Proof. induction l as [|x l IH]; cbn; [tauto|]. rewrite insert_in, IH. intuition congruence. Qed.
Lemma count_true_app a b : count_true (a ++ b) = count_true a + count_true b.
Proof. unfold count_true. rewrite filter_app, app_length. reflexivity. Qed.
Lemma count_true_on n : count_true (repeat true n) = n.
Proof. unfold count_true. induction n; cbn; [reflexivity|]. f_equal. exact IHn. Qed.
Lemma count_true_off n : count_true (repeat false n) = 0.
Proof. unfold count_true. induction n; cbn; [reflexivity|exact IHn]. Qed.
Lemma count_mask s k : count_true (mask s k) = Nat.min k s.
Proof. unfold mask. rewrite count_true_app, count_true_on, count_true_off. lia. Qed.
Lemma length_mask s k : length (mask s k) = s.
Proof. unfold mask. rewrite app_length, !repeat_length. lia. Qed.
Lemma mem_in x l : existsb (Nat.eqb x) l = true <-> In x l.
Proof. rewrite existsb_exists. split; [intros [y [Y E]]; apply Nat.eqb_eq in E; subst; exact Y|intros H; exists x; split; [exact H|apply Nat.eqb_refl]]. Qed.
Lemma width_min n c : width n c = Nat.min (c_embed c) (n_width n).
Proof. unfold width, embed_mask. apply count_mask. Qed.
Lemma embed_masked n c : masked (n_width n) (embed_mask n c) = Ok (width n c).
Proof. unfold masked, width, embed_mask. rewrite length_mask, Nat.eqb_refl. reflexivity. Qed.
Lemma norm_same n c : norm n c (width n c) = Ok (width n c).
Proof. unfold norm. rewrite embed_masked. cbn [bind]. rewrite Nat.eqb_refl. reflexivity. Qed.
Lemma badd_refl a : badd a a = Ok a.
Proof. unfold badd. rewrite Nat.eqb_refl. reflexivity. Qed.
Lemma linear_refl i o : linear i o i = Ok o.
Proof. unfold linear. rewrite Nat.eqb_refl. reflexivity. Qed.
Lemma container_all num m : container num num m = Ok m.
Proof. unfold container. rewrite Nat.ltb_irrefl, Nat.max_id, Nat.eqb_refl. reflexivity. Qed.

(** What a finished construction knows. *)
Lemma init_inv a img p ch fn n : fst (init a img p ch fn) = Ok n ->
  exists depth, last_of (a_depth a) = Ok depth /\ last_of (a_embed a) = Ok (n_width n) /\ max_of Nat.leb (a_depth a) = Ok (n_layers n) /\ n_layers n = depth /\
  n_cands n = sort (a_embed a) /\ n_depths n = a_depth a /\ n_heads n = a_heads a /\ n_ratios n = a_ratios a /\
  n_in n = ch /\ p <> 0 /\ n_patches n = (img / p) * (img / p) /\ n_norm n = fn /\
  (depth <> 0 -> max_of Nat.leb (a_heads a) = Ok (n_max_heads n) /\ last_of (a_heads a) = Ok (n_reg_heads n) /\
                 max_of Qle_bool (a_ratios a) = Ok (n_max_ratio n) /\ last_of (a_ratios a) = Ok (n_reg_ratio n)).
Proof.
  unfold init. destruct (last_of (a_depth a)) as [d|e] eqn:D; [|cbn; discriminate]. destruct (last_of (a_embed a)) as [w|e] eqn:W; [|cbn; discriminate].
  cbn [fst]. destruct (max_of Nat.leb (a_depth a)) as [maxd|e] eqn:M; cbn [bind]; [|discriminate].
  pose proof (max_of_spec _ _ M) as [M1 M2]. destruct (last_of_inv _ _ D) as [pd Pd].
  assert (L : d <= maxd). { apply M2. rewrite Pd. apply in_or_app; right; left; reflexivity. }
  destruct (Nat.eqb_spec d 0) as [D0|D0].
  - subst d. cbn [bind]. destruct (Nat.eqb_spec p 0) as [P|P]; cbn [bind]; [discriminate|]. destruct (Nat.eqb_spec maxd 0) as [M0|M0]; cbn [bind].
    + intros H. apply Ok_inj in H. subst n maxd. cbn. exists 0. repeat split; try reflexivity; try assumption; match goal with |- max_of _ _ = _ => idtac | |- last_of _ = _ => idtac end; lia.
    + unfold mutable_at. cbn [bind]. intros H; discriminate H.
  - destruct (last_of (a_heads a)) as [h0|e] eqn:H0; cbn [bind]; [|discriminate].
    destruct (last_of (a_ratios a)) as [r0|e] eqn:R0; cbn [bind]; [|discriminate].
    destruct (Nat.eqb_spec p 0) as [P|P]; cbn [bind]; [discriminate|].
    destruct (Nat.eqb_spec maxd 0) as [M0|M0]; [lia|]. unfold mutable_at. destruct (Nat.ltb_spec (maxd - 1) d) as [K|K]; cbn [bind]; [|discriminate].
    destruct (max_of Nat.leb (a_heads a)) as [h|e]; cbn [bind]; [|discriminate].
    destruct (max_of Qle_bool (a_ratios a)) as [r|e]; cbn [bind]; [|discriminate].
    intros H. apply Ok_inj in H. subst n. cbn. exists d. repeat split; try reflexivity; try assumption. lia.
Qed.
Lemma init_ok a img p ch fn D W H R : ends_with_max (a_depth a) D -> ends_with_max (a_embed a) W -> ends_with_max (a_heads a) H -> ends_with_maxQ (a_ratios a) R ->
  1 <= p -> exists n, fst (init a img p ch fn) = Ok n.
Proof.
  intros [[pd ED] LD] [[pw EW] LW] [[ph EH] LH] [[pr ER] LR] P. unfold init. rewrite ED, EW, EH, ER, !last_of_app. cbn [fst].
  destruct (max_of_ok Nat.leb (pd ++ [D]) pd D eq_refl) as [maxd M]. rewrite M. cbn [bind].
  pose proof (max_of_spec _ _ M) as [M1 M2]. assert (maxd = D). { apply Nat.le_antisymm; [apply LD; rewrite ED; exact M1|apply M2, in_or_app; right; left; reflexivity]. } subst maxd.
  destruct (max_of_ok Nat.leb (ph ++ [H]) ph H eq_refl) as [mh MH]. rewrite MH. destruct (max_of_ok Qle_bool (pr ++ [R]) pr R eq_refl) as [mr MR]. rewrite MR.
  destruct (Nat.eqb_spec p 0) as [P0|P0]; [lia|].
  destruct (Nat.eqb_spec D 0) as [D0|D0]; cbn [bind].
  - eexists; reflexivity.
  - unfold mutable_at. destruct (Nat.ltb_spec (D - 1) D) as [K|K]; [|lia]. cbn [bind]. eexists; reflexivity.
Qed.
(** The choices, entry by entry. *)
Lemma allowed_inv n c : allowed n c = true -> In (c_embed c) (n_cands n) /\ In (c_depth c) (n_depths n) /\
  (forall i, i < n_layers n -> In (c_heads c i) (n_heads n) /\ exists q, In q (n_ratios n) /\ (c_ratio c i == q)%Q).
Proof.
  unfold allowed. rewrite !andb_true_iff, !mem_in, forallb_forall. intros [[A B] C]. split; [exact A|]. split; [exact B|]. intros i I.
  specialize (C i). rewrite andb_true_iff, mem_in, existsb_exists in C. destruct C as [C1 [q [Q1 Q2]]]; [apply in_seq; lia|].
  split; [exact C1|]. exists q. split; [exact Q1|]. apply Qeq_bool_eq. exact Q2.
Qed.
(** A layer keeps the width when its containers are registered to their ends. *)
Lemma encoder_same rmul n c i : n_reg_heads n = n_max_heads n -> rmul (n_width n) (n_reg_ratio n) = rmul (n_width n) (n_max_ratio n) ->
  1 <= c_heads c i -> c_heads c i <= n_max_heads n -> encoder rmul n c i (width n c) = Ok (width n c).
Proof.
  intros RH RR H1 H2. unfold encoder. rewrite norm_same. cbn [bind].
  assert (A : attention n c i (width n c) = Ok (width n c)).
  { unfold attention, q_mask. rewrite RH, container_all. cbn [bind]. rewrite count_mask.
    replace (Nat.min (width n c) (n_width n)) with (width n c) by (rewrite width_min; lia). rewrite linear_refl. cbn [bind].
    replace (Nat.min (64 * c_heads c i) (64 * n_max_heads n)) with (64 * c_heads c i) by lia.
    replace (Nat.min (64 * c_heads c i) (64 * n_max_heads n)) with (64 * c_heads c i) by lia.
    rewrite Nat.div_mul by lia. destruct (Nat.eqb_spec (c_heads c i) 0) as [Z|Z]; [lia|]. cbn [bind].
    replace (c_heads c i * 64) with (64 * c_heads c i) by lia. rewrite Nat.eqb_refl. cbn [bind]. rewrite Nat.eqb_refl. cbn [bind]. apply linear_refl. }
  rewrite A. cbn [bind]. rewrite badd_refl. cbn [bind]. rewrite norm_same. cbn [bind]. unfold mid_mask. rewrite RR, container_all. cbn [bind].
  unfold masked at 1. rewrite length_mask, Nat.eqb_refl. cbn [bind]. rewrite embed_masked. cbn [bind]. rewrite linear_refl. cbn [bind]. rewrite linear_refl. cbn [bind]. apply badd_refl.
Qed.
Lemma run_same rmul n c : forall l i, (forall j, i <= j -> j < i + l -> encoder rmul n c j (width n c) = Ok (width n c)) -> run_layers rmul n c l i (width n c) = Ok (width n c).
Proof.
  induction l as [|l IH]; intros i H; cbn [run_layers]; [reflexivity|]. rewrite H by lia. cbn [bind]. apply IH. intros j J1 J2. apply H; lia.
Qed.
Lemma forward_in rmul n c ch h w : forward rmul n c ch h w =
  (do _ <- (if (ch =? n_in n) && (16 <=? h) && (16 <=? w) then Ok tt else Raise RuntimeError);
   do _ <- badd ((h / 16) * (w / 16) + 1) (n_patches n + 1);
   do x <- run_layers rmul n c (Nat.min (c_depth c) (n_layers n)) 0 (width n c); if n_norm n then norm n c x else Ok x).
Proof.
  unfold forward. rewrite embed_masked. cbn [bind]. replace (Nat.min (width n c) (n_width n)) with (width n c) by (rewrite width_min; lia).
  rewrite Nat.eqb_refl. cbn [bind]. destruct ((ch =? n_in n) && (16 <=? h) && (16 <=? w)); cbn [bind]; [|reflexivity].
  destruct (badd (h / 16 * (w / 16) + 1) (n_patches n + 1)); cbn [bind]; [|reflexivity]. rewrite badd_refl. reflexivity.
Qed.
(** The gate on the image. *)
Lemma gate n ch h w : fits (n_in n) (n_patches n) ch h w ->
  (if (ch =? n_in n) && (16 <=? h) && (16 <=? w) then Ok tt else Raise RuntimeError) = Ok tt /\ exists t, badd ((h / 16) * (w / 16) + 1) (n_patches n + 1) = Ok t.
Proof.
  intros [E [H1 [H2 F]]]. subst ch. rewrite Nat.eqb_refl. destruct (Nat.leb_spec 16 h); [|lia]. destruct (Nat.leb_spec 16 w); [|lia]. split; [reflexivity|].
  unfold badd. destruct (Nat.eqb_spec (h / 16 * (w / 16) + 1) (n_patches n + 1)); [eexists; reflexivity|]. destruct (_ =? 1); [eexists; reflexivity|].
  destruct (Nat.eqb_spec (n_patches n + 1) 1); [eexists; reflexivity|]. lia.
Qed.
Lemma gate_inv n ch h w t : (if (ch =? n_in n) && (16 <=? h) && (16 <=? w) then Ok tt else Raise RuntimeError) = Ok tt ->
  badd ((h / 16) * (w / 16) + 1) (n_patches n + 1) = Ok t -> fits (n_in n) (n_patches n) ch h w.
Proof.
  destruct (Nat.eqb_spec ch (n_in n)); cbn [andb]; [|discriminate]. destruct (Nat.leb_spec 16 h); cbn [andb]; [|discriminate]. destruct (Nat.leb_spec 16 w); [|discriminate].
  intros _. assert (1 <= h / 16) by (apply Nat.div_le_lower_bound; lia). assert (1 <= w / 16) by (apply Nat.div_le_lower_bound; lia).
  assert (1 <= h / 16 * (w / 16)) by nia.
  unfold badd. destruct (Nat.eqb_spec (h / 16 * (w / 16) + 1) (n_patches n + 1)); [intros _; repeat split; auto; left; lia|].
  destruct (Nat.eqb_spec (h / 16 * (w / 16) + 1) 1); [lia|]. destruct (Nat.eqb_spec (n_patches n + 1) 1); [intros _; repeat split; auto; right; lia|]. discriminate.
Qed.

(** ** C170 *)
(** Lists that end with their largest entries: the network is built with as many layers as the largest depth, and every choice takes
    exactly the images that fit, each of which it turns into as many features as the chosen width; others are refused. *)
Theorem C170_forward : forall rmul a img p ch fn D W H R, grows rmul ->
  ends_with_max (a_depth a) D -> ends_with_max (a_embed a) W -> ends_with_max (a_heads a) H -> ends_with_maxQ (a_ratios a) R ->
  (forall x, In x (a_heads a) -> 1 <= x) -> 1 <= p ->
  exists n, fst (init a img p ch fn) = Ok n /\ n_layers n = D /\
  forall c, allowed n c = true -> forall ch' h w,
    (fits ch ((img / p) * (img / p)) ch' h w -> forward rmul n c ch' h w = Ok (c_embed c)) /\
    (~ fits ch ((img / p) * (img / p)) ch' h w -> forward rmul n c ch' h w = Raise RuntimeError).
Proof.
  intros rmul a img p ch fn D W H R G MD MW MH MR HP P. destruct (init_ok a img p ch fn D W H R MD MW MH MR P) as [n N]. exists n. split; [exact N|].
  destruct (init_inv _ _ _ _ _ _ N) as [d [D1 [W1 [X [LD [NC [ND [NH [NR [NI [_ [NP [NN I]]]]]]]]]]]]].
  destruct MD as [[pd ED] LDm]. rewrite ED, last_of_app in D1. apply Ok_inj in D1. subst d. split; [exact LD|].
  destruct MW as [[pw EW] LW]. rewrite EW, last_of_app in W1. apply Ok_inj in W1.
  intros c C ch' h w. destruct (allowed_inv _ _ C) as [C1 [C2 C3]]. rewrite NC, sort_in in C1. apply LW in C1.
  assert (WC : width n c = c_embed c) by (rewrite width_min; lia).
  assert (RUN : run_layers rmul n c (Nat.min (c_depth c) (n_layers n)) 0 (width n c) = Ok (width n c)).
  { apply run_same. intros j _ J. assert (JL : j < n_layers n) by lia. destruct (C3 j JL) as [C4 _]. rewrite NH in C4.
    destruct (I ltac:(lia)) as [I1 [I2 [I3 I4]]]. destruct MH as [[ph EH] LH]. destruct MR as [[pr ER] LR].
    pose proof (max_of_spec _ _ I1) as [J1 J2]. pose proof (max_of_specQ _ _ I3) as [J3 J4].
    rewrite EH, last_of_app in I2. apply Ok_inj in I2. rewrite ER, last_of_app in I4. apply Ok_inj in I4.
    apply encoder_same.
    - rewrite <- I2. apply Nat.le_antisymm; [apply J2; rewrite EH; apply in_or_app; right; left; reflexivity|apply LH; exact J1].
    - rewrite <- I4. apply Nat.le_antisymm; apply G; try lia; [apply J4; rewrite ER; apply in_or_app; right; left; reflexivity|apply LR; exact J3].
    - apply HP; exact C4.
    - apply J2; exact C4. }
  rewrite forward_in. rewrite RUN. rewrite <- NI, <- NP. split.
  - intros F. destruct (gate n ch' h w F) as [G1 [t G2]]. rewrite G1, G2. cbn [bind]. rewrite norm_same, WC. destruct (n_norm n); reflexivity.
  - intros F. destruct (if (ch' =? n_in n) && (16 <=? h) && (16 <=? w) then Ok tt else Raise RuntimeError) as [[]|e] eqn:E1.
    + cbn [bind]. destruct (badd (h / 16 * (w / 16) + 1) (n_patches n + 1)) as [t|e] eqn:E2.
      * contradiction F. eapply gate_inv; eassumption.
      * cbn [bind]. revert E2. unfold badd. repeat match goal with |- (if ?b then _ else _) = _ -> _ => destruct b end; congruence.
    + cbn [bind]. destruct ((ch' =? n_in n) && (16 <=? h) && (16 <=? w)); congruence.
Qed.
(** Exact products rounded down. *)
Definition floors (k : nat) (q : Q) : nat := Z.to_nat (Qround.Qfloor (inject_Z (Z.of_nat k) * q)).
Lemma nat_Q a : (0 <= inject_Z (Z.of_nat a))%Q.
Proof. unfold Qle; cbn; lia. Qed.
Lemma floors_grows_on : forall a b q r, a <= b -> (0 <= q)%Q -> (q <= r)%Q -> floors a q <= floors b r.
Proof.
  intros a b q r A Q0 QR. unfold floors. apply Nat2Z.inj_le. rewrite !Z2Nat.id.
  - apply Qround.Qfloor_resp_le. apply Qle_trans with (inject_Z (Z.of_nat b) * q)%Q.
    + apply Qmult_le_compat_r; [unfold Qle; cbn; lia|exact Q0].
    + rewrite !(Qmult_comm (inject_Z (Z.of_nat b))). apply Qmult_le_compat_r; [exact QR|apply nat_Q].
  - rewrite <- (Qround.Qfloor_Z 0). apply Qround.Qfloor_resp_le. apply Qmult_le_0_compat; [apply nat_Q|eapply Qle_trans; eassumption].
  - rewrite <- (Qround.Qfloor_Z 0). apply Qround.Qfloor_resp_le. apply Qmult_le_0_compat; [apply nat_Q|exact Q0].
Qed.
Lemma floors_grows : grows floors.
Proof.
  intros a b q r A QR. destruct (Qlt_le_dec q 0) as [L|L]; [|apply floors_grows_on; assumption].
  enough (floors a q = 0) by lia. unfold floors. assert (Qround.Qfloor (inject_Z (Z.of_nat a) * q) <= 0)%Z; [|lia].
  rewrite <- (Qround.Qfloor_Z 0). apply Qround.Qfloor_resp_le. rewrite Qmult_comm.
  apply Qle_trans with (0 * inject_Z (Z.of_nat a))%Q; [|apply Qle_lteq; right; change (inject_Z 0) with 0%Q; ring].
  apply Qmult_le_compat_r; [apply Qlt_le_weak; exact L|apply nat_Q].
Qed.
(** A small AutoFormer: widths 4 and 6, ratios 1 and 3/2, one or two heads and layers, images of 32 by 32. *)
Definition small : arch := {| a_ratios := [1; 3 # 2]%Q; a_heads := [1; 2]; a_depth := [1; 2]; a_embed := [4; 6] |}.
Definition pick e d h q : choice := {| c_embed := e; c_depth := d; c_heads := fun _ => h; c_ratio := fun _ => q |}.
Example C170_small : ends_with_max (a_depth small) 2 /\ ends_with_max (a_embed small) 6 /\ ends_with_max (a_heads small) 2 /\ ends_with_maxQ (a_ratios small) (3 # 2) /\
  grows floors /\ exists n, fst (init small 32 16 3 true) = Ok n /\ allowed n (pick 4 1 1 1%Q) = true /\
  forward floors n (pick 4 1 1 1%Q) 3 32 32 = Ok 4 /\ forward floors n (pick 6 2 1 1%Q) 3 40 47 = Ok 6 /\ forward floors n (pick 6 2 1 1%Q) 3 32 48 = Raise RuntimeError.
Proof.
  repeat match goal with
  | |- ends_with_max _ _ /\ _ => split
  | |- ends_with_maxQ _ _ /\ _ => split
  | |- ends_with_max _ _ => split
  | |- ends_with_maxQ _ _ => split
  end.
  1,3,5: eexists [_]; reflexivity. all: try (cbn; intros; lia). 1: eexists [_]; reflexivity. 1: (intros x [<-|[<-|[]]]; unfold Qle; cbn; lia).
  split; [exact floors_grows|]. eexists. split; [reflexivity|]. repeat split; vm_compute; reflexivity.
Qed.

(** Under the same conditions: which channels each layer works with.  The heads of layer [i] read the first 64 times the number chosen for that
    layer of the projected entries, its middle layer has the first so many channels as the ratio of that layer gives for the chosen width, and
    the embedding keeps its first channels. *)
Definition first_on (size k : nat) (m : list bool) : Prop := length m = size /\ forall j, j < size -> nth j m false = (j <? k).
Lemma mask_first size k : first_on size k (mask size k).
Proof.
  split; [apply length_mask|]. intros j J. unfold mask. destruct (Nat.ltb_spec j k) as [L|L].
  - rewrite app_nth1 by (rewrite repeat_length; lia). rewrite (nth_indep _ false true) by (rewrite repeat_length; lia). apply nth_repeat.
  - rewrite app_nth2 by (rewrite repeat_length; lia). apply nth_repeat.
Qed.
Theorem C170_channels : forall rmul a img p ch fn D W H R n, grows rmul ->
  ends_with_max (a_depth a) D -> ends_with_max (a_embed a) W -> ends_with_max (a_heads a) H -> ends_with_maxQ (a_ratios a) R ->
  fst (init a img p ch fn) = Ok n -> forall c, allowed n c = true -> 
  first_on W (c_embed c) (embed_mask n c) /\
  forall i, i < D -> exists q m, q_mask n c i = Ok q /\ first_on (64 * H) (64 * c_heads c i) q /\
    mid_mask rmul n c i = Ok m /\ first_on (rmul W R) (rmul (c_embed c) (c_ratio c i)) m.
Proof.
  intros rmul a img p ch fn D W H R n G MD MW MH MR N.
  destruct (init_inv _ _ _ _ _ _ N) as [d [D1 [W1 [X [LD [NC [ND [NH [NR [NI [_ [NP [NN I]]]]]]]]]]]]].
  destruct MD as [[pd ED] LDm]. rewrite ED, last_of_app in D1. apply Ok_inj in D1. subst d.
  destruct MW as [[pw EW] LW]. rewrite EW, last_of_app in W1. apply Ok_inj in W1.
  intros c C. destruct (allowed_inv _ _ C) as [C1 [C2 C3]]. rewrite NC, sort_in in C1. apply LW in C1.
  assert (WC : width n c = c_embed c) by (rewrite width_min; lia).
  split; [unfold embed_mask; rewrite <- W1; apply mask_first|].
  intros i L. destruct (I ltac:(lia)) as [I1 [I2 [I3 I4]]]. destruct MH as [[ph EH] LH]. destruct MR as [[pr ER] LR].
  pose proof (max_of_spec _ _ I1) as [J1 J2]. pose proof (max_of_specQ _ _ I3) as [J3 J4].
  rewrite EH, last_of_app in I2. apply Ok_inj in I2. rewrite ER, last_of_app in I4. apply Ok_inj in I4.
  assert (MH : n_max_heads n = H).
  { apply Nat.le_antisymm; [apply LH; exact J1|apply J2; rewrite EH; apply in_or_app; right; left; reflexivity]. }
  assert (MR : rmul (n_width n) (n_max_ratio n) = rmul W R).
  { rewrite <- W1. apply Nat.le_antisymm; apply G; try lia; [apply LR; exact J3|apply J4; rewrite ER; apply in_or_app; right; left; reflexivity]. }
  exists (mask (64 * H) (64 * c_heads c i)), (mask (rmul W R) (rmul (c_embed c) (c_ratio c i))).
  unfold q_mask, mid_mask. rewrite <- I2, <- I4, MR, MH, <- W1, WC, !container_all. split; [reflexivity|]. split; [apply mask_first|]. split; [reflexivity|apply mask_first].
Qed.
Example C170_channels_at : exists n, fst (init small 32 16 3 true) = Ok n /\ exists c, c = {| c_embed := 4; c_depth := 2; c_heads := fun i => S i; c_ratio := fun i => if i =? 0 then 1%Q else 3 # 2 |} /\ allowed n c = true /\
  embed_mask n c = [true; true; true; true; false; false] /\
  mid_mask floors n c 0 = Ok (repeat true 4 ++ repeat false 5) /\ mid_mask floors n c 1 = Ok (repeat true 6 ++ repeat false 3) /\ q_mask n c 0 = Ok (repeat true 64 ++ repeat false 64).
Proof. eexists. split; [reflexivity|]. eexists. split; [reflexivity|]. repeat split; vm_compute; reflexivity. Qed.

(** A list with a zero among the numbers of heads: a choice fails on every image that fits exactly when one of the layers up to its depth has no heads. *)
Lemma encoder_none rmul n c i : n_reg_heads n = n_max_heads n -> c_heads c i = 0 -> encoder rmul n c i (width n c) = Raise ZeroDivisionError.
Proof.
  intros RH H0. unfold encoder. rewrite norm_same. cbn [bind]. unfold attention, q_mask. rewrite RH, container_all. cbn [bind].
  replace (Nat.min (width n c) (n_width n)) with (width n c) by (rewrite width_min; lia). rewrite linear_refl. cbn [bind]. rewrite H0, Nat.eqb_refl. reflexivity.
Qed.
Lemma run_none rmul n c : forall l i, (forall j, i <= j -> j < i + l -> encoder rmul n c j (width n c) = if c_heads c j =? 0 then Raise ZeroDivisionError else Ok (width n c)) ->
  (exists j, i <= j /\ j < i + l /\ c_heads c j = 0) -> run_layers rmul n c l i (width n c) = Raise ZeroDivisionError.
Proof.
  induction l as [|l IH]; intros i H [j [J1 [J2 J3]]]; cbn [run_layers]; [lia|]. rewrite H by lia.
  destruct (Nat.eqb_spec (c_heads c i) 0) as [Z|Z]; cbn [bind]; [reflexivity|]. apply IH; [intros k K1 K2; apply H; lia|].
  exists j. split; [|split; [lia|exact J3]]. destruct (Nat.eq_dec i j); [subst; contradiction|lia].
Qed.
Theorem C170_heads : forall rmul a img p ch fn D W H R n, grows rmul ->
  ends_with_max (a_depth a) D -> ends_with_max (a_embed a) W -> ends_with_max (a_heads a) H -> ends_with_maxQ (a_ratios a) R ->
  fst (init a img p ch fn) = Ok n -> forall c, allowed n c = true -> forall ch' h w, fits ch ((img / p) * (img / p)) ch' h w ->
  ((exists i, i < c_depth c /\ c_heads c i = 0) -> forward rmul n c ch' h w = Raise ZeroDivisionError) /\
  ((forall i, i < c_depth c -> c_heads c i <> 0) -> forward rmul n c ch' h w = Ok (c_embed c)).
Proof.
  intros rmul a img p ch fn D W H R n G MD MW MH MR N.
  destruct (init_inv _ _ _ _ _ _ N) as [d [D1 [W1 [X [LD [NC [ND [NH [NR [NI [_ [NP [NN I]]]]]]]]]]]]].
  destruct MD as [[pd ED] LDm]. rewrite ED, last_of_app in D1. apply Ok_inj in D1. subst d.
  destruct MW as [[pw EW] LW]. rewrite EW, last_of_app in W1. apply Ok_inj in W1.
  intros c C ch' h w F. destruct (allowed_inv _ _ C) as [C1 [C2 C3]]. rewrite NC, sort_in in C1. apply LW in C1. rewrite ND in C2. apply LDm in C2.
  assert (WC : width n c = c_embed c) by (rewrite width_min; lia).
  assert (E : forall j, j < c_depth c -> encoder rmul n c j (width n c) = if c_heads c j =? 0 then Raise ZeroDivisionError else Ok (width n c)).
  { intros j J. destruct (C3 j ltac:(lia)) as [C4 _]. rewrite NH in C4.
    destruct (I ltac:(lia)) as [I1 [I2 [I3 I4]]]. destruct MH as [[ph EH] LH]. destruct MR as [[pr ER] LR].
    pose proof (max_of_spec _ _ I1) as [J1 J2]. pose proof (max_of_specQ _ _ I3) as [J3 J4].
    rewrite EH, last_of_app in I2. apply Ok_inj in I2. rewrite ER, last_of_app in I4. apply Ok_inj in I4.
    assert (RH : n_reg_heads n = n_max_heads n).
    { rewrite <- I2. apply Nat.le_antisymm; [apply J2; rewrite EH; apply in_or_app; right; left; reflexivity|apply LH; exact J1]. }
    destruct (Nat.eqb_spec (c_heads c j) 0) as [Z|Z]; [apply encoder_none; assumption|]. apply encoder_same; [exact RH| |lia|apply J2; exact C4].
    rewrite <- I4. apply Nat.le_antisymm; apply G; try lia; [apply J4; rewrite ER; apply in_or_app; right; left; reflexivity|apply LR; exact J3]. }
  rewrite forward_in. rewrite <- NI, <- NP in F. destruct (gate n ch' h w F) as [G1 [t G2]]. rewrite G1, G2. cbn [bind].
  replace (Nat.min (c_depth c) (n_layers n)) with (c_depth c) by lia. split.
  - intros [i [I1 I2]]. rewrite run_none; [reflexivity| |].
    + intros j _ J. apply E; lia.
    + exists i. lia.
  - intros Z. rewrite run_same; [cbn [bind]; rewrite norm_same, WC; destruct (n_norm n); reflexivity|].
    intros j _ J. rewrite E by lia. destruct (Nat.eqb_spec (c_heads c j) 0) as [K|K]; [contradiction (Z j ltac:(lia) K)|reflexivity].
Qed.
Example C170_heads_at : exists n, fst (init {| a_ratios := [1]%Q; a_heads := [0; 1]; a_depth := [1; 2]; a_embed := [4] |} 16 16 3 true) = Ok n /\
  exists f, f = (fun d => {| c_embed := 4; c_depth := d; c_heads := fun i => if i =? 0 then 1 else 0; c_ratio := fun _ => 1%Q |}) /\ allowed n (f 1) = true /\ allowed n (f 2) = true /\
  forward floors n (f 1) 3 16 16 = Ok 4 /\ forward floors n (f 2) 3 16 16 = Raise ZeroDivisionError.
Proof. eexists. split; [reflexivity|]. eexists. split; [reflexivity|]. repeat split; vm_compute; reflexivity. Qed.

(** Whatever the lists: what a network returns has the chosen width, but never more than the last of the list. *)
Lemma encoder_width rmul n c i k : encoder rmul n c i (width n c) = Ok k -> k = width n c.
Proof.
  unfold encoder. rewrite norm_same. cbn [bind]. destruct (attention n c i (width n c)) as [x|] eqn:A; cbn [bind]; [|discriminate].
  assert (X : x = width n c).
  { revert A. unfold attention. destruct (q_mask n c i); cbn [bind]; [|discriminate]. destruct (linear _ _ _); cbn [bind]; [|discriminate].
    destruct (if _ =? 0 then Raise ZeroDivisionError else Ok tt); cbn [bind]; [|discriminate].
    destruct (_ * _ =? _); cbn [bind]; [|discriminate]. destruct (_ =? 64); cbn [bind]; [|discriminate].
    unfold linear. destruct (_ =? _); [|discriminate]. intros A. apply Ok_inj in A. rewrite <- A, width_min. lia. }
  subst x. rewrite badd_refl. cbn [bind]. rewrite norm_same. cbn [bind]. destruct (mid_mask rmul n c i); cbn [bind]; [|discriminate].
  destruct (masked _ _) as [m|]; cbn [bind]; [|discriminate]. rewrite embed_masked. cbn [bind]. rewrite linear_refl. cbn [bind]. rewrite linear_refl. cbn [bind]. rewrite badd_refl.
  intros K. apply Ok_inj in K. symmetry; exact K.
Qed.
Lemma run_width rmul n c k : forall l i, run_layers rmul n c l i (width n c) = Ok k -> k = width n c.
Proof.
  induction l as [|l IH]; intros i; cbn [run_layers]; [intros K; apply Ok_inj in K; symmetry; exact K|].
  destruct (encoder rmul n c i (width n c)) as [x|] eqn:E; cbn [bind]; [|discriminate]. apply encoder_width in E. subst x. apply IH.
Qed.
Theorem C170_width : forall rmul a img p ch fn n c ch' h w k, fst (init a img p ch fn) = Ok n -> forward rmul n c ch' h w = Ok k ->
  forall W, last_of (a_embed a) = Ok W -> k = Nat.min (c_embed c) W.
Proof.
  intros rmul a img p ch fn n c ch' h w k N F W LW. destruct (init_inv _ _ _ _ _ _ N) as [d [_ [W1 _]]]. rewrite LW in W1. apply Ok_inj in W1. subst W.
  rewrite forward_in in F. destruct (if _ : bool then Ok tt else Raise RuntimeError); cbn [bind] in F; [|discriminate F]. destruct (badd _ _); cbn [bind] in F; [|discriminate F].
  destruct (run_layers _ _ _ _ _ _) as [x|] eqn:E; cbn [bind] in F; [|discriminate F]. apply run_width in E. subst x. rewrite norm_same in F. rewrite <- width_min.
  destruct (n_norm n); apply Ok_inj in F; symmetry; exact F.
Qed.
Example C170_width_at : exists n, fst (init {| a_ratios := [1]%Q; a_heads := [1]; a_depth := [1]; a_embed := [6; 4] |} 16 16 3 false) = Ok n /\
  allowed n (pick 6 1 1 1%Q) = true /\ forward floors n (pick 6 1 1 1%Q) 3 16 16 = Ok 4.
Proof. eexists. split; [reflexivity|]. split; vm_compute; reflexivity. Qed.

(** ** C171 *)
(** Square images of the size the network was built for, divisible into patches of the size it was given, should be taken. *)
Definition C171_claim : Prop := forall rmul a img p ch fn D W H R n c, grows rmul ->
  ends_with_max (a_depth a) D -> ends_with_max (a_embed a) W -> ends_with_max (a_heads a) H -> ends_with_maxQ (a_ratios a) R ->
  (forall x, In x (a_heads a) -> 1 <= x) -> 1 <= p -> 16 <= img -> Nat.modulo img p = 0 ->
  fst (init a img p ch fn) = Ok n -> allowed n c = true -> exists k, forward rmul n c ch img img = Ok k.
(** Patches of 32 of images of 64: the positions are embedded for 4 patches, but there are 16. *)
Theorem C171_patch_refuted : ~ C171_claim.
Proof.
  intros K. destruct C170_small as [M1 [M2 [M3 [M4 [G _]]]]].
  specialize (K floors small 64 32 3 true 2 6 2 (3 # 2)%Q).
  destruct (fst (init small 64 32 3 true)) as [n|e] eqn:E; [|vm_compute in E; discriminate E].
  specialize (K n (pick 4 1 1 1%Q) G M1 M2 M3 M4). vm_compute in E. apply Ok_inj in E. subst n.
  destruct K as [k F]; try lia; try reflexivity; try (intros x [<-|[<-|[]]]; lia). vm_compute in F. discriminate F.
Qed.
(** Exactly when it works: the number of patches has to come out as with patches of 16, or as 0. *)
Theorem C171_patch_partial : forall rmul a img p ch fn D W H R, grows rmul ->
  ends_with_max (a_depth a) D -> ends_with_max (a_embed a) W -> ends_with_max (a_heads a) H -> ends_with_maxQ (a_ratios a) R ->
  (forall x, In x (a_heads a) -> 1 <= x) -> 1 <= p -> 16 <= img ->
  exists n, fst (init a img p ch fn) = Ok n /\
  forall c, allowed n c = true -> ((exists k, forward rmul n c ch img img = Ok k) <-> (img / p = img / 16 \/ img < p)).
Proof.
  intros rmul a img p ch fn D W H R G MD MW MH MR HP P I. destruct (C170_forward rmul a img p ch fn D W H R G MD MW MH MR HP P) as [n [N [_ F]]].
  exists n. split; [exact N|]. intros c C. destruct (F c C ch img img) as [F1 F2]. split.
  - intros [k K]. destruct (Nat.eq_dec (img / p) (img / 16)) as [E|E]; [left; exact E|]. destruct (Nat.lt_ge_cases img p) as [L|L]; [right; exact L|].
    assert (NF : ~ fits ch (img / p * (img / p)) ch img img).
    { intros [_ [_ [_ [Q1|Q1]]]].
      - apply E. revert Q1. generalize (img / p) (img / 16). intros u v Q1. clear - Q1. nia.
      - assert (1 <= img / p) by (apply Nat.div_le_lower_bound; lia). nia. }
    rewrite (F2 NF) in K. discriminate K.
  - intros E. exists (c_embed c). apply F1. split; [reflexivity|]. split; [exact I|]. split; [exact I|]. destruct E as [E|E]; [left; rewrite E; reflexivity|right].
    rewrite (Nat.div_small img p E). reflexivity.
Qed.
Example C171_small : (exists n, fst (init small 40 20 3 false) = Ok n /\ forward floors n (pick 4 2 2 (3 # 2)%Q) 3 40 40 = Ok 4) /\
  (exists n, fst (init small 40 10 3 false) = Ok n /\ forward floors n (pick 4 2 2 (3 # 2)%Q) 3 40 40 = Raise RuntimeError).
Proof. split; eexists; (split; [reflexivity|]); vm_compute; reflexivity. Qed.

(** ** C172 *)
(** The order of the lists should not matter: any network is built, runs for every choice and returns the chosen width. *)
Definition C172_claim : Prop := forall rmul a img ch fn, grows rmul ->
  a_depth a <> [] -> a_embed a <> [] -> a_heads a <> [] -> a_ratios a <> [] ->
  (forall x, In x (a_heads a) -> 1 <= x) -> 16 <= img ->
  exists n, fst (init a img 16 ch fn) = Ok n /\ forall c, allowed n c = true -> forward rmul n c ch img img = Ok (c_embed c).
Theorem C172_order_refuted : ~ C172_claim.
Proof.
  intros K. destruct (K floors {| a_ratios := [1]%Q; a_heads := [1]; a_depth := [1]; a_embed := [6; 4] |} 16 3 true floors_grows) as [n [N F]]; try discriminate.
  - intros x [<-|[]]; lia.
  - lia.
  - vm_compute in N. injection N as <-. specialize (F (pick 6 1 1 1%Q)). vm_compute in F. specialize (F eq_refl). discriminate F.
Qed.
(** A depth larger than the last: nothing is built. *)
Theorem C172_depth : forall a img p ch fn D x, last_of (a_depth a) = Ok D -> In x (a_depth a) -> D < x ->
  exists e, fst (init a img p ch fn) = Raise e.
Proof.
  intros a img p ch fn D x LD X L. destruct (fst (init a img p ch fn)) as [n|e] eqn:N; [|eexists; reflexivity].
  destruct (init_inv _ _ _ _ _ _ N) as [d [D1 [_ [M [E _]]]]]. rewrite LD in D1. apply Ok_inj in D1. subst d.
  apply max_of_spec in M. destruct M as [_ M]. specialize (M x X). lia.
Qed.
Example C172_depth_at : fst (init {| a_ratios := [1]%Q; a_heads := [1]; a_depth := [2; 1]; a_embed := [4] |} 16 16 3 true) = Raise IndexError.
Proof. reflexivity. Qed.

(** A number of heads larger than the last, at most 64 heads: every choice with a layer fails on every image. *)
Lemma first_layer rmul n c l x : (forall w, exists e, encoder rmul n c 0 w = Raise e) -> 1 <= l -> exists e, run_layers rmul n c l 0 x = Raise e.
Proof. intros H L. destruct l; [lia|]. cbn [run_layers]. destruct (H x) as [e E]. rewrite E. eexists; reflexivity. Qed.
Lemma forward_first rmul n c ch h w : (forall x, exists e, encoder rmul n c 0 x = Raise e) -> 1 <= Nat.min (c_depth c) (n_layers n) -> exists e, forward rmul n c ch h w = Raise e.
Proof.
  intros E L. rewrite forward_in. destruct (if _ : bool then Ok tt else Raise RuntimeError); cbn [bind]; [|eexists; reflexivity].
  destruct (badd _ _); cbn [bind]; [|eexists; reflexivity]. destruct (first_layer rmul n c _ (width n c) E L) as [e X]. rewrite X. eexists; reflexivity.
Qed.
Theorem C172_heads : forall rmul a img p ch fn n c H x, fst (init a img p ch fn) = Ok n -> allowed n c = true ->
  last_of (a_heads a) = Ok H -> In x (a_heads a) -> H < x -> (forall y, In y (a_heads a) -> 1 <= y <= 64) -> 1 <= c_depth c ->
  forall ch' h w, exists e, forward rmul n c ch' h w = Raise e.
Proof.
  intros rmul a img p ch fn n c H x N C LH X L B CD ch' h w. destruct (init_inv _ _ _ _ _ _ N) as [d [D1 [_ [M [LD [_ [ND [NH [_ [_ [_ [_ [_ I]]]]]]]]]]]]].
  destruct (allowed_inv _ _ C) as [_ [C2 C3]]. rewrite ND in C2. apply max_of_spec in M. destruct M as [_ M]. specialize (M _ C2).
  destruct (I ltac:(lia)) as [I1 [I2 _]]. rewrite LH in I2. apply Ok_inj in I2. apply max_of_spec in I1. destruct I1 as [I0 I1]. specialize (B _ I0) as B0. specialize (I1 x X) as I1x.
  destruct (C3 0 ltac:(lia)) as [C4 _]. rewrite NH in C4. specialize (I1 _ C4). specialize (B _ C4).
  apply forward_first; [|lia]. intros v. unfold encoder. destruct (norm n c v) as [v1|e]; cbn [bind]; [|eexists; reflexivity].
  assert (A : exists e, attention n c 0 v1 = Raise e).
  { unfold attention, q_mask, container. destruct (Nat.ltb_spec (64 * n_reg_heads n) (64 * n_max_heads n)) as [T|T]; [|lia].
    destruct (Nat.eqb_spec (Nat.max (64 * n_reg_heads n) (64 * n_max_heads n)) (64 * n_max_heads n)) as [T2|T2]; [|lia]. cbn [bind assert_].
    destruct (linear _ _ v1) as [q|e]; cbn [bind]; [|eexists; reflexivity].
    destruct (Nat.eqb_spec (c_heads c 0) 0) as [Z|Z]; [lia|]. cbn [bind]. destruct (_ =? q); cbn [bind]; [|eexists; reflexivity].
    rewrite count_true_app, count_mask, count_true_on.
    match goal with |- context [?a / c_heads c 0 =? 64] => set (act := a) end.
    assert (65 <= act / c_heads c 0) by (apply Nat.div_le_lower_bound; unfold act; lia).
    destruct (Nat.eqb_spec (act / c_heads c 0) 64) as [Q1|Q1]; [lia|]. cbn [bind]. eexists; reflexivity. }
  destruct A as [e A]. rewrite A. eexists; reflexivity.
Qed.
Example C172_heads_at : exists n, fst (init {| a_ratios := [1]%Q; a_heads := [2; 1]; a_depth := [1]; a_embed := [4] |} 16 16 3 true) = Ok n /\
  allowed n (pick 4 1 2 1%Q) = true /\ forward floors n (pick 4 1 2 1%Q) 3 16 16 = Raise RuntimeError /\
  allowed n (pick 4 1 1 1%Q) = true /\ forward floors n (pick 4 1 1 1%Q) 3 16 16 = Raise RuntimeError.
Proof. eexists. split; [reflexivity|]. repeat split; vm_compute; reflexivity. Qed.

(** A ratio larger than the last, which makes a difference at the full width: every choice with a layer fails on every image. *)
Theorem C172_ratios : forall rmul a img p ch fn n c W R x, grows rmul -> fst (init a img p ch fn) = Ok n -> allowed n c = true ->
  last_of (a_embed a) = Ok W -> last_of (a_ratios a) = Ok R -> In x (a_ratios a) -> rmul W R < rmul W x -> 1 <= c_depth c ->
  forall ch' h w, exists e, forward rmul n c ch' h w = Raise e.
Proof.
  intros rmul a img p ch fn n c W R x G N C LW LR X L CD ch' h w. destruct (init_inv _ _ _ _ _ _ N) as [d [D1 [W1 [M [LD [_ [ND [_ [_ [_ [_ [_ [_ I]]]]]]]]]]]]].
  rewrite LW in W1. apply Ok_inj in W1. subst W.
  destruct (allowed_inv _ _ C) as [_ [C2 _]]. rewrite ND in C2. apply max_of_spec in M. destruct M as [_ M]. specialize (M _ C2).
  destruct (I ltac:(lia)) as [_ [_ [I3 I4]]]. rewrite LR in I4. apply Ok_inj in I4. apply max_of_specQ in I3. destruct I3 as [_ I3]. specialize (I3 x X).
  assert (K : rmul (n_width n) x <= rmul (n_width n) (n_max_ratio n)) by (apply G; [lia|exact I3]). rewrite I4 in L.
  apply forward_first; [|lia]. intros v. unfold encoder. destruct (norm n c v) as [v1|e]; cbn [bind]; [|eexists; reflexivity].
  destruct (attention n c 0 v1) as [v2|e]; cbn [bind]; [|eexists; reflexivity]. destruct (badd v v2) as [v3|e]; cbn [bind]; [|eexists; reflexivity].
  destruct (norm n c v3) as [v4|e]; cbn [bind]; [|eexists; reflexivity]. unfold mid_mask, container.
  destruct (Nat.ltb_spec (rmul (n_width n) (n_reg_ratio n)) (rmul (n_width n) (n_max_ratio n))) as [T|T]; [|lia].
  destruct (Nat.eqb_spec (Nat.max (rmul (n_width n) (n_reg_ratio n)) (rmul (n_width n) (n_max_ratio n))) (rmul (n_width n) (n_max_ratio n))) as [T2|T2]; [|lia]. cbn [bind assert_].
  unfold masked at 1. rewrite app_length, length_mask, repeat_length. destruct (Nat.eqb_spec (rmul (n_width n) (n_max_ratio n) + (rmul (n_width n) (n_max_ratio n) - rmul (n_width n) (n_reg_ratio n))) (rmul (n_width n) (n_max_ratio n))) as [Q1|Q1]; [lia|].
  cbn [bind]. eexists; reflexivity.
Qed.
Example C172_ratios_at : exists n, fst (init {| a_ratios := [2; 1]%Q; a_heads := [1]; a_depth := [1]; a_embed := [4] |} 16 16 3 true) = Ok n /\
  allowed n (pick 4 1 1 1%Q) = true /\ floors 4 1%Q < floors 4 2%Q /\ forward floors n (pick 4 1 1 1%Q) 3 16 16 = Raise IndexError.
Proof. eexists. split; [reflexivity|]. repeat split; vm_compute; try reflexivity; repeat constructor. Qed.

(** The list of widths is left sorted, so building twice from the same settings should give the same network. *)
Definition C172_again_claim : Prop := forall a img p ch fn n, fst (init a img p ch fn) = Ok n ->
  fst (init {| a_ratios := a_ratios a; a_heads := a_heads a; a_depth := a_depth a; a_embed := snd (init a img p ch fn) |} img p ch fn) = Ok n.
Theorem C172_again_refuted : ~ C172_again_claim.
Proof.
  intros K. specialize (K {| a_ratios := [1]%Q; a_heads := [1]; a_depth := [1]; a_embed := [6; 4] |} 16 16 3 true _ eq_refl). vm_compute in K. discriminate K.
Qed.
(** It does when the list was sorted, which building leaves as it is. *)
Fixpoint ascending (l : list nat) : Prop := match l with [] => True | x :: r => (forall y, In y r -> x <= y) /\ ascending r end.
Lemma sort_ascending l : ascending (sort l).
Proof.
  induction l as [|x l IH]; cbn [sort fold_right]; [exact I|]. fold (sort l). revert IH. generalize (sort l) as s. induction s as [|y s IH]; intros A; cbn [insert].
  - cbn. tauto.
  - destruct (Nat.leb_spec x y) as [L|L]; cbn in A |- *; destruct A as [A1 A2].
    + split; [|split; assumption]. intros z [<-|Z]; [exact L|]. specialize (A1 z Z). lia.
    + split; [|apply IH; exact A2]. intros z Z. apply insert_in in Z. destruct Z as [->|Z]; [lia|apply A1; exact Z].
Qed.
Lemma sort_sorted l : ascending l -> sort l = l.
Proof.
  induction l as [|x l IH]; cbn [sort fold_right]; [reflexivity|]. fold (sort l). intros [A B]. rewrite (IH B). destruct l as [|y l]; [reflexivity|].
  cbn [insert]. destruct (Nat.leb_spec x y) as [L|L]; [reflexivity|]. specialize (A y (or_introl eq_refl)). lia.
Qed.
Theorem C172_again_partial : forall a img p ch fn, ascending (a_embed a) ->
  snd (init a img p ch fn) = a_embed a.
Proof.
  intros a img p ch fn A. unfold init. destruct (last_of (a_depth a)); [|reflexivity]. destruct (last_of (a_embed a)); [|reflexivity]. cbn [snd]. apply sort_sorted. exact A.
Qed.
(** From the second time on the network stays the same. *)
Theorem C172_settles : forall a img p ch fn n, fst (init a img p ch fn) = Ok n ->
  (forall x, In x (snd (init a img p ch fn)) <-> In x (a_embed a)) /\ ascending (snd (init a img p ch fn)) /\ n_cands n = snd (init a img p ch fn).
Proof.
  intros a img p ch fn n N. destruct (init_inv _ _ _ _ _ _ N) as [d [D1 [W1 [_ [_ [NC _]]]]]]. rewrite NC. unfold init. rewrite D1, W1. cbn [snd].
  split; [intros x; apply sort_in|]. split; [apply sort_ascending|reflexivity].
Qed.
Example C172_settles_at : snd (init {| a_ratios := [1]%Q; a_heads := [1]; a_depth := [1]; a_embed := [6; 4; 5] |} 16 16 3 true) = [4; 5; 6].
Proof. reflexivity. Qed.

Print Assumptions C170_forward.
Print Assumptions C170_channels.
Print Assumptions C170_heads.
Print Assumptions C170_width.
Print Assumptions C171_patch_refuted.
Print Assumptions C171_patch_partial.
Print Assumptions C172_order_refuted.
Print Assumptions C172_depth.
Print Assumptions C172_heads.
Print Assumptions C172_ratios.
Print Assumptions C172_again_refuted.
Print Assumptions C172_again_partial.
Print Assumptions C172_settles.
