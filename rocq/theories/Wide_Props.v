(** The shapes of a WideResNet (C212) and its options (C213). *)
From Coq Require Import String.
From Verif Require Import Prelude Wide_Model.
Local Open Scope string_scope.
Local Open Scope list_scope.
Local Open Scope Z_scope.

(** ** C212 *)
(** The size after strides: divided and rounded up each time. *)
Definition ceil_div (h s : Z) : Z := - ((- h) / s).
Definition strided (h : Z) (strides : list Z) : Z := fold_left ceil_div strides h.
(** A network that could be built maps images of any size to its feature channels, which double with each stage, at the strided size. *)
Definition right_shapes (m : net) (in_channels first : Z) (strides : list Z) : Prop :=
  n_feat m = first * 2 ^ (Z.of_nat (length (n_layers m)) - 1) /\
  forall h w, 1 <= h -> 1 <= w -> wide_forward m (in_channels, h, w) = Ok (n_feat m, strided h (firstn (length (n_layers m)) strides), strided w (firstn (length (n_layers m)) strides)).
Definition C212_claim : Prop := forall n depth widen_factor in_channels stem_channels base_channels num_stages strides dilations m,
  wide n depth widen_factor in_channels stem_channels base_channels None num_stages strides dilations (-1) = Ok m ->
  Forall (fun s => 1 <= s) strides -> Forall (fun d => 1 <= d) dilations -> right_shapes m in_channels (base_channels * widen_factor) strides.
(** With another norm layer than batch norm no image can be processed. *)
Theorem C212_norm_refuted : ~ C212_claim.
Proof.
  intros H. specialize (H GN 10 4 3 16 16 3 [1; 2; 2] [1; 1; 1] _ eq_refl ltac:(repeat constructor; lia) ltac:(repeat constructor; lia)). destruct H as [_ H]. specialize (H 32 32 ltac:(lia) ltac:(lia)). discriminate H.
Qed.
Lemma ceil_up h s : 1 <= h -> 1 <= s -> (h - 1) / s + 1 = ceil_div h s.
Proof.
  intros H S. unfold ceil_div. pose proof (Z.div_mod h s ltac:(lia)) as D. pose proof (Z.mod_pos_bound h s ltac:(lia)) as B. set (q := h / s) in *. set (r := h mod s) in *. clearbody q r. destruct (Z.eq_dec r 0) as [Z0|N].
  - assert (E1 : (h - 1) / s = q - 1) by (symmetry; apply (Z.div_unique (h - 1) s (q - 1) (s - 1)); [left; lia|lia]). assert (E2 : (- h) / s = - q) by (symmetry; apply (Z.div_unique (- h) s (- q) 0); [left; lia|lia]). lia.
  - assert (E1 : (h - 1) / s = q) by (symmetry; apply (Z.div_unique (h - 1) s q (r - 1)); [left; lia|lia]). assert (E2 : (- h) / s = - q - 1) by (symmetry; apply (Z.div_unique (- h) s (- q - 1) (s - r)); [left; lia|lia]). lia.
Qed.
Lemma ceil_pos h s : 1 <= h -> 1 <= s -> 1 <= ceil_div h s.
Proof. intros H S. rewrite <- ceil_up by assumption. assert (0 <= (h - 1) / s) by (apply Z.div_pos; lia). lia. Qed.
Lemma conv_same cin cout k s p d h w : 1 <= h -> 1 <= w -> 2 * p = d * (k - 1) -> 1 <= s -> conv cin cout k s p d (cin, h, w) = Ok (cout, ceil_div h s, ceil_div w s).
Proof.
  intros H W P S. unfold conv. rewrite Z.eqb_refl. cbn [negb]. rewrite (proj2 (Z.ltb_ge _ _)) by lia. rewrite (proj2 (Z.ltb_ge _ _)) by lia. cbn [orb].
  replace (h + 2 * p - d * (k - 1) - 1) with (h - 1) by lia. replace (w + 2 * p - d * (k - 1) - 1) with (w - 1) by lia. rewrite !ceil_up by assumption. reflexivity.
Qed.
Lemma ceil_1 h : ceil_div h 1 = h.
Proof. unfold ceil_div. rewrite Z.div_1_r. lia. Qed.
Definition block_ok (b : block) : Prop := (b_norm b = BN \/ b_norm b = SyncBN) /\ 1 <= b_stride b /\ 1 <= b_dilation b /\ (b_down b = Some (b_stride b) \/ (b_down b = None /\ b_stride b = 1 /\ b_in b = b_out b)).
Lemma block_shape b h w : block_ok b -> 1 <= h -> 1 <= w -> block_forward b (b_in b, h, w) = Ok (b_out b, ceil_div h (b_stride b), ceil_div w (b_stride b)).
Proof.
  intros (N & S & D & B) H W. unfold block_forward. assert (E : (abbr (b_norm b) ++ "1" =? "bn1")%string = true) by (destruct N as [-> | ->]; reflexivity). rewrite E. cbn [bind norm]. rewrite Z.eqb_refl. cbn [bind].
  rewrite conv_same by lia. cbn [bind norm]. rewrite Z.eqb_refl. cbn [bind]. pose proof (ceil_pos h (b_stride b) H S). pose proof (ceil_pos w (b_stride b) W S). rewrite conv_same by lia. cbn [bind]. rewrite !ceil_1. destruct B as [-> | (-> & S1 & IO)].
  - rewrite conv_same by lia. cbn [bind]. unfold iadd, fits. rewrite !Z.eqb_refl. reflexivity.
  - rewrite S1, IO, !ceil_1. unfold iadd, fits. rewrite !Z.eqb_refl. reflexivity.
Qed.
Lemma run_app : forall a b x, run_blocks (a ++ b) x = do y <- run_blocks a x; run_blocks b y.
Proof. induction a as [|k a IH]; intros b x; [reflexivity|]. cbn [app run_blocks]. destruct (block_forward k x); [|reflexivity]. cbn [bind]. apply IH. Qed.
Lemma layer_shape n k cin cout r s d h w : (n = BN \/ n = SyncBN) -> 1 <= s -> 1 <= d -> 1 <= h -> 1 <= w ->
  run_blocks (res_layer n k cin cout r s d) (cin, h, w) = Ok (cout, ceil_div h s, ceil_div w s).
Proof.
  intros N S D H W. unfold res_layer. cbn [run_blocks]. set (b := {| b_in := cin |}). assert (B : block_ok b). { unfold block_ok, b. cbn. split; [exact N|]. split; [exact S|]. split; [exact D|]. destruct (Z.eqb_spec s 1), (Z.eqb_spec cin cout); cbn; auto. }
  pose proof (block_shape b h w B H W) as E. cbn [b_in b_out b_stride b] in E. rewrite E. cbn [bind]. clear E B b. pose proof (ceil_pos h s H S) as H2. pose proof (ceil_pos w s W S) as W2. revert H2 W2. generalize (ceil_div h s) (ceil_div w s). intros h' w' H2 W2.
  generalize (seq 1 (k - 1)). intros l. induction l as [|x l IH]; [reflexivity|]. cbn [map run_blocks]. set (b := {| b_in := cout |}). assert (B : block_ok b) by (unfold block_ok, b; cbn; repeat split; auto; lia).
  pose proof (block_shape b h' w' B H2 W2) as E. cbn [b_in b_out b_stride b] in E. rewrite E. cbn [bind]. rewrite !ceil_1. exact IH.
Qed.
Lemma skipn_nth {A} (l : list A) : forall i x, nth_error l i = Some x -> skipn i l = x :: skipn (S i) l.
Proof. induction l as [|a l IH]; intros [|i] x H; try discriminate H; [injection H as ->; reflexivity|]. cbn [skipn]. rewrite (IH i x H). destruct l; reflexivity. Qed.
Lemma stages_shape n strides dilations : (n = BN \/ n = SyncBN) -> Forall (fun s => 1 <= s) strides -> Forall (fun d => 1 <= d) dilations -> forall blocks i cin cout x,
  stages n blocks i strides dilations cin cout = Ok x -> length (fst x) = length blocks /\ snd x = cout * 2 ^ Z.of_nat (length blocks) /\
  (forall h w, 1 <= h -> 1 <= w -> run_blocks (concat (fst x)) (cin, h, w) =
    Ok (match blocks with [] => cin | _ => cout * 2 ^ (Z.of_nat (length blocks) - 1) end, strided h (firstn (length blocks) (skipn i strides)), strided w (firstn (length blocks) (skipn i strides)))).
Proof.
  intros N ST DI. induction blocks as [|k r IH]; intros i cin cout x H; cbn [stages] in H.
  - apply Ok_inj in H. subst x. cbn [fst snd length concat run_blocks]. split; [reflexivity|]. split; [cbn; lia|]. intros h w _ _. reflexivity.
  - destruct (nth_error strides i) as [s|] eqn:SS; [|discriminate H]. destruct (nth_error dilations i) as [d|] eqn:D; [|discriminate H]. destruct (stages n r _ _ _ _ _) as [y|] eqn:Y; [|discriminate H]. cbn [bind] in H. apply Ok_inj in H. subst x. cbn [fst snd].
    apply IH in Y as (L & C & F). assert (S1 : 1 <= s) by (rewrite Forall_forall in ST; apply ST; eapply nth_error_In; exact SS). assert (D1 : 1 <= d) by (rewrite Forall_forall in DI; apply DI; eapply nth_error_In; exact D).
    split; [cbn [length]; congruence|]. split; [rewrite C; cbn [length]; rewrite Nat2Z.inj_succ, Z.pow_succ_r by lia; lia|].
    intros h w H W. cbn [concat]. rewrite run_app, layer_shape by assumption. cbn [bind]. rewrite F by (apply ceil_pos; assumption). rewrite (skipn_nth _ _ _ SS). cbn [length firstn strided fold_left]. f_equal. f_equal. f_equal.
    destruct r as [|k' r']; [cbn; lia|]. cbn [length]. replace (Z.of_nat (S (S (length r'))) - 1) with (Z.succ (Z.of_nat (S (length r')) - 1)) by lia. rewrite Z.pow_succ_r by lia. lia.
Qed.
Lemma rev_last {A} (l : list A) x r : rev l = x :: r -> l = rev r ++ [x].
Proof. intros H. rewrite <- (rev_involutive l), H. reflexivity. Qed.
Lemma layer_last n k cin cout r s d b t : rev (res_layer n k cin cout r s d) = b :: t -> b_out b = cout.
Proof.
  intros H. assert (I0 : In b (res_layer n k cin cout r s d)) by (apply in_rev; rewrite H; left; reflexivity). unfold res_layer in I0. destruct I0 as [<-|I0]; [reflexivity|]. apply in_map_iff in I0 as (? & <- & _). reflexivity.
Qed.
Lemma stages_last n strides dilations : forall blocks i cin cout x l t b u, stages n blocks i strides dilations cin cout = Ok x -> rev (fst x) = l :: t -> rev l = b :: u -> b_out b = cout * 2 ^ (Z.of_nat (length blocks) - 1).
Proof.
  induction blocks as [|k r IH]; intros i cin cout x l t b u H L B; cbn [stages] in H.
  - apply Ok_inj in H. subst x. discriminate L.
  - destruct (nth_error strides i) as [s|]; [|discriminate H]. destruct (nth_error dilations i) as [d|]; [|discriminate H]. destruct (stages n r _ _ _ _ _) as [y|] eqn:Y; [|discriminate H]. cbn [bind] in H. apply Ok_inj in H. subst x. cbn [fst rev] in L.
    destruct r as [|k' r'].
    + cbn [stages] in Y. apply Ok_inj in Y. subst y. cbn [fst rev app] in L. injection L as <- _. apply layer_last in B. rewrite B. cbn. lia.
    + destruct (rev (fst y)) as [|l' t'] eqn:R.
      * exfalso. cbn [stages] in Y. destruct (nth_error strides (S i)); [|discriminate Y]. destruct (nth_error dilations (S i)); [|discriminate Y]. destruct (stages _ r' _ _ _ _ _) as [zz|]; [|discriminate Y]. cbn [bind] in Y. apply Ok_inj in Y. subst y. cbn [fst rev] in R. destruct (rev (fst zz)); discriminate R.
      * cbn [app] in L. injection L as <- _. rewrite (IH _ _ _ _ _ _ _ _ Y R B). cbn [length]. replace (Z.of_nat (S (S (length r'))) - 1) with (Z.succ (Z.of_nat (S (length r')) - 1)) by lia. rewrite Z.pow_succ_r by lia. lia.
Qed.
Lemma arch_cases depth bs : arch_setting depth = Some bs -> exists k, (1 <= k)%nat /\ bs = [k; k; k] /\ depth = 6 * Z.of_nat k + 4.
Proof.
  unfold arch_setting. destruct (Z.eqb_spec depth 10) as [->|_]; [intros [= <-]; exists 1%nat; repeat split; lia|]. destruct (Z.eqb_spec depth 16) as [->|_]; [intros [= <-]; exists 2%nat; repeat split; lia|]. destruct (Z.eqb_spec depth 22) as [->|_]; [intros [= <-]; exists 3%nat; repeat split; lia|].
  destruct (Z.eqb_spec depth 28) as [->|_]; [intros [= <-]; exists 4%nat; repeat split; lia|]. destruct (Z.eqb_spec depth 40) as [->|_]; [intros [= <-]; exists 6%nat; repeat split; lia|]. discriminate.
Qed.
(** With batch norm, for every network that could be built, with any expansion. *)
Theorem C212_shapes_partial : forall n depth widen_factor in_channels stem_channels base_channels expansion num_stages strides dilations frozen_stages m, n = BN \/ n = SyncBN ->
  wide n depth widen_factor in_channels stem_channels base_channels expansion num_stages strides dilations frozen_stages = Ok m ->
  Forall (fun s => 1 <= s) strides -> Forall (fun d => 1 <= d) dilations -> right_shapes m in_channels (base_channels * match expansion with Some e => e | None => widen_factor end) strides.
Proof.
  intros n depth wf ic stem base ex ns strides dil fs m N H ST DI. unfold wide in H. destruct (arch_setting depth) as [bs|]; [|discriminate H]. set (bl := firstn _ bs) in H. clearbody bl. destruct (get_expansion wf ex) as [e|] eqn:E; [|discriminate H]. cbn [bind] in H.
  assert (E2 : match ex with Some e => e | None => wf end = e). { unfold get_expansion in E. destruct ex as [e'|]; [destruct (assert_ _); [|discriminate E]; cbn [bind] in E|]; apply Ok_inj in E; exact E. } rewrite E2.
  destruct (stages n bl 0 strides dil stem (base * e)) as [x|] eqn:X; [|discriminate H]. cbn [bind] in H. destruct (0 <=? fs); [discriminate H|]. destruct (rev (fst x)) as [|l t] eqn:L; [discriminate H|]. destruct (rev l) as [|b u] eqn:B; [discriminate H|]. apply Ok_inj in H. subst m.
  pose proof (stages_last _ _ _ _ _ _ _ _ _ _ _ _ X L B) as BO. apply stages_shape in X as (LX & CX & FX); [|assumption..]. unfold right_shapes. cbn [n_feat n_layers]. rewrite LX. split; [exact BO|].
  intros h w H W. unfold wide_forward. cbn [n_in n_stem n_layers n_norm1]. rewrite conv_same by lia. cbn [bind]. rewrite !ceil_1, FX by assumption. cbn [bind]. destruct bl as [|k r]; [apply rev_last in L; rewrite L in LX; rewrite app_length in LX; cbn in LX; lia|].
  cbn [skipn]. unfold norm. rewrite BO, CX. replace (Z.of_nat (length (k :: r))) with (Z.succ (Z.of_nat (length (k :: r)) - 1)) at 2 by lia. rewrite Z.pow_succ_r by (cbn [length]; lia). replace (base * e * (2 * 2 ^ (Z.of_nat (length (k :: r)) - 1))) with (base * e * 2 ^ (Z.of_nat (length (k :: r)) - 1) * 2) by lia.
  rewrite Z.div_mul by lia. rewrite Z.eqb_refl. reflexivity.
Qed.
(** The convolutions of a network. *)
Definition convs (m : net) : Z := 1 + fold_right Z.add 0 (map (fun b => 2 + if b_down b then 1 else 0) (concat (n_layers m))).
Lemma convs_layer n k cin cout r s d : (1 <= k)%nat -> cin <> cout -> fold_right Z.add 0 (map (fun b => 2 + if b_down b then 1 else 0) (res_layer n k cin cout r s d)) = 2 * Z.of_nat k + 1.
Proof.
  intros K C. unfold res_layer. cbn [map fold_right b_down]. rewrite (proj2 (Z.eqb_neq cin cout) C), Bool.orb_true_r. cbn [b_down]. rewrite map_map. cbn [b_down].
  assert (E : forall l : list nat, fold_right Z.add 0 (map (fun _ => 2 + 0) l) = 2 * Z.of_nat (length l)) by (induction l as [|a l IH]; [reflexivity|cbn [map fold_right length]; lia]). rewrite E, seq_length. lia.
Qed.
Lemma sum_app a b : fold_right Z.add 0 (a ++ b) = fold_right Z.add 0 a + fold_right Z.add 0 b.
Proof. induction a as [|x a IH]; [reflexivity|]. cbn [app fold_right]. lia. Qed.
(** The depth is the number of convolutions of the whole network, when the first stage widens. *)
Theorem C212_depth : forall n depth widen_factor in_channels stem_channels base_channels num_stages strides dilations m,
  wide n depth widen_factor in_channels stem_channels base_channels None num_stages strides dilations (-1) = Ok m ->
  3 <= num_stages -> stem_channels <> base_channels * widen_factor -> base_channels * widen_factor <> 0 -> convs m = depth.
Proof.
  intros n depth wf ic stem base ns strides dil m H NS W1 W0. unfold wide in H. destruct (arch_setting depth) as [bs|] eqn:A; [|discriminate H]. apply arch_cases in A as (k & K & -> & ->). unfold slice_stop in H. rewrite (proj2 (Z.ltb_ge _ _)) in H by lia. rewrite Nat.min_l in H by (cbn [length]; lia). cbn [length firstn get_expansion bind stages] in H.
  destruct (nth_error strides 0); [|discriminate H]. destruct (nth_error dil 0); [|discriminate H]. destruct (nth_error strides 1); [|discriminate H]. destruct (nth_error dil 1); [|discriminate H]. destruct (nth_error strides 2); [|discriminate H]. destruct (nth_error dil 2); [|discriminate H].
  cbn [bind fst snd] in H. change (0 <=? -1) with false in H. cbv iota in H. cbn [rev app] in H. destruct (rev (res_layer _ _ _ _ _ _ _)) as [|b u]; [discriminate H|]. apply Ok_inj in H. subst m. unfold convs. cbn [n_layers concat]. rewrite !map_app, !sum_app, !convs_layer by (try assumption; lia). cbn [map fold_right]. lia.
Qed.
(** What is built: for the known depths, at most three stages, counted from the end if the number is negative. *)
Theorem C212_built : forall n depth widen_factor in_channels stem_channels base_channels num_stages strides dilations,
  (3 <= length strides)%nat -> (3 <= length dilations)%nat ->
  ((exists m, wide n depth widen_factor in_channels stem_channels base_channels None num_stages strides dilations (-1) = Ok m) <-> In depth [10; 16; 22; 28; 40] /\ num_stages <> 0 /\ -3 < num_stages) /\
  (forall m, wide n depth widen_factor in_channels stem_channels base_channels None num_stages strides dilations (-1) = Ok m -> Z.of_nat (length (n_layers m)) = if num_stages <? 0 then 3 + num_stages else Z.min 3 num_stages).
Proof.
  intros n depth wf ic stem base ns strides dil LS LD.
  assert (G : forall k, (1 <= k)%nat -> forall j, (j <= 3)%nat -> exists x, stages n (firstn j [k; k; k]) 0 strides dil stem (base * wf) = Ok x /\ length (fst x) = j /\ (j <> 0%nat -> exists l t b u, rev (fst x) = l :: t /\ rev l = b :: u)).
  { intros k K j J. destruct strides as [|s0 [|s1 [|s2 sr]]]; try (cbn in LS; lia). destruct dil as [|d0 [|d1 [|d2 dr]]]; try (cbn in LD; lia).
    assert (R : forall n k a b c d e, exists x y, rev (res_layer n k a b c d e) = x :: y) by (intros; unfold res_layer; cbn [rev]; destruct (rev (map _ _)); cbn; eauto).
    destruct j as [|[|[|[|j]]]]; try lia; cbn [firstn stages nth_error bind fst snd]; eexists; (split; [reflexivity|]); cbn [fst length]; (split; [reflexivity|]); intros NZ; try congruence; cbn [rev app]; match goal with |- exists l t b u, res_layer ?p ?q ?a ?b0 ?c ?d ?e :: ?T = _ /\ _ => destruct (R p q a b0 c d e) as (x0 & y0 & E0); exists (res_layer p q a b0 c d e), T, x0, y0; split; [reflexivity|exact E0] end. }
  unfold wide. destruct (arch_setting depth) as [bs|] eqn:A.
  - pose proof A as A2. apply arch_cases in A2 as (k & K & -> & _). cbn [get_expansion bind length]. unfold slice_stop. set (j := if ns <? 0 then Z.to_nat (Z.of_nat 3 + ns) else Nat.min 3 (Z.to_nat ns)). assert (J : (j <= 3)%nat) by (unfold j; destruct (Z.ltb_spec ns 0); lia).
    destruct (G k K j J) as (x & X & LX & RX). rewrite X. cbn [bind]. change (0 <=? -1) with false. cbv iota.
    assert (D : In depth [10; 16; 22; 28; 40]). { unfold arch_setting in A. cbn. destruct (Z.eqb_spec depth 10); [lia|]. destruct (Z.eqb_spec depth 16); [lia|]. destruct (Z.eqb_spec depth 22); [lia|]. destruct (Z.eqb_spec depth 28); [lia|]. destruct (Z.eqb_spec depth 40); [lia|]. discriminate A. }
    destruct (Nat.eq_dec j 0) as [J0|J0].
    + rewrite J0 in LX. apply length_zero_iff_nil in LX. rewrite LX. cbn [rev]. split; [|intros m; discriminate]. split; [intros [m M]; discriminate M|]. intros (_ & N1 & N2). unfold j in J0. destruct (Z.ltb_spec ns 0); lia.
    + destruct (RX J0) as (l & t & b & u & L & B). rewrite L, B. split.
      * split; [intros _|intros _; eexists; reflexivity]. split; [exact D|]. unfold j in J0. destruct (Z.ltb_spec ns 0); lia.
      * intros m M. apply Ok_inj in M. subst m. cbn [n_layers]. rewrite LX. unfold j in *. destruct (Z.ltb_spec ns 0); lia.
  - split; [|intros m; discriminate]. split; [intros [m M]; discriminate M|]. intros (D & _). exfalso. cbn in D. unfold arch_setting in A. destruct D as [<-|[<-|[<-|[<-|[<-|[]]]]]]; discriminate A.
Qed.
(** WRN-16-4 on an odd size. *)
Example C212_example : exists m, wide BN 16 4 3 16 16 None 3 [1; 2; 2] [1; 1; 1] (-1) = Ok m /\ wide_forward m (3, 33, 20) = Ok (256, 9, 5) /\ n_feat m = 256 /\ convs m = 16.
Proof. eexists. repeat split; reflexivity. Qed.

(** ** C213 *)
(** A network can be built with frozen stages. *)
Definition C213_claim : Prop := forall n depth widen_factor in_channels stem_channels base_channels num_stages strides dilations frozen_stages m,
  wide n depth widen_factor in_channels stem_channels base_channels None num_stages strides dilations (-1) = Ok m -> -1 <= frozen_stages <= Z.of_nat (length (n_layers m)) ->
  exists m', wide n depth widen_factor in_channels stem_channels base_channels None num_stages strides dilations frozen_stages = Ok m'.
Theorem C213_frozen_refuted : ~ C213_claim.
Proof. intros H. destruct (H BN 10 4 3 16 16 3 [1; 2; 2] [1; 1; 1] 0 _ eq_refl ltac:(cbn; lia)) as [m M]. discriminate M. Qed.
(** Never, in fact, not even to freeze the stem. *)
Theorem C213_never_frozen : forall n depth widen_factor in_channels stem_channels base_channels expansion num_stages strides dilations frozen_stages m,
  wide n depth widen_factor in_channels stem_channels base_channels expansion num_stages strides dilations frozen_stages = Ok m -> frozen_stages < 0.
Proof.
  intros n depth wf ic stem base ex ns strides dil fs m H. unfold wide in H. destruct (arch_setting depth); [|discriminate H]. destruct (get_expansion wf ex); [|discriminate H]. cbn [bind] in H. destruct (stages _ _ _ _ _ _ _); [|discriminate H]. cbn [bind] in H. destruct (Z.leb_spec 0 fs); [discriminate H|assumption].
Qed.
(** The blocks of a layer drop as configured. *)
Definition C213_drop_claim : Prop := forall n k cin cout droprate stride dilation b, In b (res_layer n k cin cout droprate stride dilation) -> b_drop b = droprate.
Theorem C213_drop_refuted : ~ C213_drop_claim.
Proof. intros H. specialize (H BN 1%nat 16 16 300 1 1 _ (or_introl eq_refl)). discriminate H. Qed.
(** Every block is told its dilation, and only the first one has the stride. *)
Theorem C213_blocks : forall n k cin cout droprate stride dilation, (1 <= k)%nat -> let l := res_layer n k cin cout droprate stride dilation in
  length l = k /\ Forall (fun b => b_dilation b = dilation /\ b_out b = cout /\ b_norm b = n) l /\ map b_stride l = stride :: repeat 1 (k - 1) /\ map b_in l = cin :: repeat cout (k - 1).
Proof.
  intros n k cin cout r s d K. cbv zeta. unfold res_layer. cbn [length map b_stride b_in]. rewrite map_length, seq_length, !map_map. cbn [b_stride b_in]. split; [lia|]. split.
  - constructor; [repeat split|]. apply Forall_forall. intros b B. apply in_map_iff in B as (x & <- & _). repeat split.
  - assert (R : forall (v : Z) (l : list nat), map (fun _ => v) l = repeat v (length l)) by (intros v l; induction l as [|a l IH]; [reflexivity|cbn; congruence]). rewrite !R, !seq_length. auto.
Qed.
(** zero_init_residual makes a block without downsampling the identity (and one with it the downsampling), unless the weights are pretrained. *)
Theorem C213_identity : forall (V : Type) (zero : V) (bn1 conv1 conv2 relu dropout normalize : V -> V) (scale : Z -> V -> V) (const : Z -> V) (add : V -> V -> V),
  (forall v, scale 0 v = zero) -> const 0 = zero -> (forall v, add zero v = v) -> relu zero = zero -> dropout zero = zero -> conv2 zero = zero ->
  forall wb x, (forall down, block_value bn1 conv1 conv2 relu dropout normalize scale const add (init_norm2 false true wb) down x = match down with Some f => f (relu (bn1 x)) | None => x end) /\
  init_norm2 true true wb = wb /\ init_norm2 false false wb = wb.
Proof.
  intros V zero bn1 conv1 conv2 relu dropout normalize scale const add S C A R D L wb x. split; [|split; reflexivity]. intros down. unfold block_value, bn2, init_norm2. cbn [fst snd]. rewrite S, C, A, R, D, L. destruct down; apply A.
Qed.
Example C213_example : block_value (fun x => x - 3) (fun x => x * 2) (fun x => x * 5) (Z.max 0) (fun x => x) (fun x => x) Z.mul (fun b => b) Z.add (init_norm2 false true (1, 0)) None 7 = 7 /\
  block_value (fun x => x - 3) (fun x => x * 2) (fun x => x * 5) (Z.max 0) (fun x => x) (fun x => x) Z.mul (fun b => b) Z.add (1, 0) None 7 = 47 /\
  map b_stride (res_layer BN 3 16 32 0 2 1) = [2; 1; 1].
Proof. repeat split; reflexivity. Qed.

Print Assumptions C212_norm_refuted.
Print Assumptions C212_shapes_partial.
Print Assumptions C212_depth.
Print Assumptions C212_built.
Print Assumptions C213_frozen_refuted.
Print Assumptions C213_never_frozen.
Print Assumptions C213_drop_refuted.
Print Assumptions C213_blocks.
Print Assumptions C213_identity.

(** A block without downsampling needs as many channels as it makes (a single one is repeated). *)
Theorem C212_residual : forall b x y, b_down b = None -> block_forward b x = Ok y -> (b_in b = b_out b \/ b_in b = 1) /\ fst (fst y) = b_out b /\ fst (fst x) = b_in b.
Proof.
  intros b [[c h] w] y D E. unfold block_forward in E. rewrite D in E. destruct (String.eqb _ _); [| discriminate E]. cbn [bind] in E. unfold norm at 1 in E. destruct (c =? b_in b) eqn:Ec; [| discriminate E]. cbn [bind] in E.
  apply Z.eqb_eq in Ec. subst c. destruct (conv (b_in b) (b_out b) 3 _ _ _ _) as [[[c1 h1] w1] |] eqn:E1; [| discriminate E]. cbn [bind] in E. unfold norm in E. destruct (c1 =? b_out b); [| discriminate E]. cbn [bind] in E.
  destruct (conv (b_out b) (b_out b) 3 1 1 1 _) as [[[c2 h2] w2] |] eqn:E2; [| discriminate E]. cbn [bind] in E. unfold iadd in E. destruct (fits c2 (b_in b)) eqn:F; [| discriminate E]. cbn [andb] in E.
  destruct (fits h2 h); [| discriminate E]. cbn [andb] in E. destruct (fits w2 w); [| discriminate E]. apply Ok_inj in E. subst y.
  assert (Hc2 : c2 = b_out b) by (unfold conv in E2; repeat (match type of E2 with (if ?t then _ else _) = _ => destruct t; [discriminate E2 |] | bind ?t _ = _ => destruct t; [| discriminate E2]; cbn [bind] in E2 end); apply Ok_inj in E2; congruence).
  subst c2. cbn. split; [| auto]. unfold fits in F. apply orb_prop in F as [F | F]; apply Z.eqb_eq in F; auto.
Qed.
Example C212_residual_example : let b i := {| b_in := i; b_out := 8; b_stride := 1; b_dilation := 1; b_drop := 0; b_norm := BN; b_down := None |} in
  block_forward (b 8) (8, 5, 6) = Ok (8, 5, 6) /\ block_forward (b 1) (1, 5, 6) = Ok (8, 5, 6) /\ block_forward (b 4) (4, 5, 6) = Raise RuntimeError.
Proof. repeat split. Qed.
Print Assumptions C212_residual.
