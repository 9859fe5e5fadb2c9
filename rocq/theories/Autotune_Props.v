(** What the autotuner runs (C217), what it does to the tensors (C218) and which configurations it tries (C219). *)
From Coq Require Import String QArith Lqa Permutation Sorting.Sorted.
From Verif Require Import Prelude Autotune_Model.
Local Open Scope string_scope.
Local Open Scope list_scope.
Local Open Scope Z_scope.

(** ** C217 *)
(** Times, None being infinite. *)
Definition time_le (a b : option Q) : Prop := match b with None => True | Some y => match a with Some x => (x <= y)%Q | None => False end end.
Definition time_lt (a b : option Q) : Prop := match a with None => False | Some x => match b with Some y => (x < y)%Q | None => True end end.
(** The first of the fastest. *)
Definition fastest (time : config -> option Q) (l : list config) (c : config) : Prop :=
  exists l1 l2, l = l1 ++ c :: l2 /\ (forall x, In x l1 -> time_lt (time c) (time x)) /\ (forall x, In x l2 -> time_le (time c) (time x)).
Lemma ltb_lt a b : time_ltb a b = true <-> time_lt a b.
Proof.
  destruct a as [x|], b as [y|]; cbn; try tauto; try (split; [discriminate|tauto]). rewrite Bool.negb_true_iff. split.
  - intros H. apply Qnot_le_lt. intros L. apply Qle_bool_iff in L. congruence.
  - intros H. apply Bool.not_true_is_false. intros L. apply Qle_bool_iff in L. lra.
Qed.
Lemma ltb_ge a b : time_ltb a b = false <-> time_le b a.
Proof.
  destruct a as [x|], b as [y|]; cbn; try tauto; try (split; [discriminate|tauto]). rewrite Bool.negb_false_iff. apply Qle_bool_iff.
Qed.
Lemma lt_le_trans a b c : time_lt a b -> time_le b c -> time_lt a c.
Proof. destruct a, b, c; cbn; try tauto. lra. Qed.
Lemma lt_le a b : time_lt a b -> time_le a b.
Proof. destruct a, b; cbn; try tauto. lra. Qed.
Lemma le_trans a b c : time_le a b -> time_le b c -> time_le a c.
Proof. destruct a, b, c; cbn; try tauto. lra. Qed.
Lemma argmin_fastest time : forall l pre best, (forall x, In x pre -> time_le (time best) (time x)) -> fastest time (pre ++ l) (argmin time best l) \/ (argmin time best l = best /\ forall x, In x l -> time_le (time best) (time x)).
Proof.
  induction l as [|c r IH]; intros pre best P; cbn [argmin]; [right; split; [reflexivity|intros x []]|]. destruct (time_ltb (time c) (time best)) eqn:L.
  - apply ltb_lt in L. destruct (IH (pre ++ [c]) c) as [F|[E F]].
    + intros x X. apply in_app_or in X as [X|[<-|[]]]; [apply lt_le; eapply lt_le_trans; [exact L|apply P; exact X]|]. destruct (time c); cbn; [lra|exact I].
    + left. rewrite <- app_assoc in F. exact F.
    + left. rewrite E. exists pre, r. split; [reflexivity|]. split; [|exact F]. intros x X. eapply lt_le_trans; [exact L|apply P; exact X].
  - apply ltb_ge in L. destruct (IH (pre ++ [c]) best) as [F|[E F]].
    + intros x X. apply in_app_or in X as [X|[<-|[]]]; [apply P; exact X|exact L].
    + left. rewrite <- app_assoc in F. exact F.
    + right. split; [exact E|]. intros x [<-|X]; [exact L|apply F; exact X].
Qed.
Lemma argmin_first time c r : fastest time (c :: r) (argmin time c r).
Proof.
  destruct (argmin_fastest time r [c] c) as [F|[E F]]; [intros x [<-|[]]; destruct (time c); cbn; [lra|exact I]|exact F|]. rewrite E. exists [], r. split; [reflexivity|]. split; [intros x []|exact F].
Qed.
Lemma key_eqb_eq : forall a b, key_eqb a b = true <-> a = b.
Proof. induction a as [|x a IH]; intros [|y b]; cbn [key_eqb]; try (split; (reflexivity || discriminate)). rewrite Bool.andb_true_iff, Z.eqb_eq, IH. split; [intros [-> ->]; reflexivity|intros [= -> ->]; auto]. Qed.
Lemma lookup_app ca k c : lookup ca k = None -> lookup (ca ++ [(k, c)]) k = Some c.
Proof. induction ca as [|[k' v] ca IH]; cbn [app lookup]; [intros _; rewrite (proj2 (key_eqb_eq k k) eq_refl); reflexivity|]. destruct (key_eqb k' k); [discriminate|exact IH]. Qed.
Lemma lookup_keep ca k c k' v : lookup ca k' = Some v -> lookup (ca ++ [(k, c)]) k' = Some v.
Proof. induction ca as [|[k0 v0] ca IH]; cbn [app lookup]; [discriminate|]. destruct (key_eqb k0 k'); [auto|exact IH]. Qed.
(** The first call of a key runs the first of the fastest configurations, all of which are tried. *)
Theorem C217_fastest : forall (T : Type) (kernel : config -> T -> T) zero reps t time meta args ca b ca' c b' key,
  run kernel zero reps t time meta args ca b = Ok (ca', c, b') -> (2 <= length (t_configs t))%nat -> call_key (t_idx t) (t_nearest t) args = Ok key -> lookup ca key = None ->
  exists s, prune_configs t = Ok s /\ fastest time (items s) c /\ lookup ca' key = Some c.
Proof.
  intros T kernel zero reps t time meta args ca b ca' c b' key H L K N. unfold run in H. rewrite (proj2 (Nat.ltb_lt 1 _)) in H by lia. rewrite K in H. cbn [bind] in H. rewrite N in H. destruct (prune_configs t) as [s|]; [|discriminate H]. cbn [bind] in H. destruct (bench_all _ _ _ _ _ _) as [b1|]; [|discriminate H]. cbn [bind] in H.
  exists s. split; [reflexivity|]. destruct (items s) as [|c0 r]; [discriminate H|]. apply Ok_inj in H. injection H as <- <- <-. split; [apply argmin_first|apply lookup_app; exact N].
Qed.
(** Afterwards the same key runs the same configuration once, whatever it would be measured at, and what was known before is kept. *)
Theorem C217_cached : forall (T : Type) (kernel : config -> T -> T) zero reps t time meta args ca b ca' c b', run kernel zero reps t time meta args ca b = Ok (ca', c, b') ->
  (forall time' meta' args' b2, call_key (t_idx t) (t_nearest t) args' = call_key (t_idx t) (t_nearest t) args -> run kernel zero reps t time' meta' args' ca' b2 = Ok (ca', c, kernel c b2)) /\
  (forall k v, lookup ca k = Some v -> lookup ca' k = Some v).
Proof.
  intros T kernel zero reps t time meta args ca b ca' c b' H. unfold run in *. destruct (1 <? length (t_configs t))%nat.
  - destruct (call_key (t_idx t) (t_nearest t) args) as [key|] eqn:K; [|discriminate H]. cbn [bind] in H. assert (LK : lookup ca' key = Some c /\ forall k v, lookup ca k = Some v -> lookup ca' k = Some v).
    { destruct (lookup ca key) as [c0|] eqn:LC; [apply Ok_inj in H; injection H as <- <- <-; auto|]. destruct (prune_configs t) as [s|]; [|discriminate H]. cbn [bind] in H. destruct (bench_all _ _ _ _ _ _) as [b1|]; [|discriminate H]. cbn [bind] in H. destruct (items s) as [|c0 r]; [discriminate H|]. apply Ok_inj in H. injection H as <- <- <-. split; [apply lookup_app; exact LC|intros; apply lookup_keep; assumption]. }
    destruct LK as [L1 L2]. split; [|exact L2]. intros time' meta' args' b2 K'. rewrite K'. cbn [bind]. rewrite L1. reflexivity.
  - destruct (t_configs t) as [|c0 r]; [discriminate H|]. apply Ok_inj in H. injection H as <- <- <-. split; auto.
Qed.
Definition cfg (i : nat) (m n k w : Z) : config := {| c_id := i; c_keys := []; c_m := m; c_n := n; c_k := k; c_group := 8; c_stages := 4; c_warps := w |}.
Definition two : tuner := {| t_configs := [cfg 0 64 64 32 2; cfg 1 128 64 32 4]; t_prune := None; t_nearest := true; t_idx := [0%nat] |}.
Example C217_example : exists ca c b, run (fun c b => b + Z.of_nat (c_id c)) (fun _ => 0) (fun _ => 3%nat) two (fun c => if (c_id c =? 1)%nat then Some (1 # 2)%Q else None) [] [20; 7] [] 100 = Ok (ca, c, b) /\ c_id c = 1%nat /\ b = 1 /\ map fst ca = [[16]].
Proof. eexists _, _, _. repeat split. Qed.

(** ** C218 *)
(** With reset_to_zero the kernel starts from zero tensors. *)
Definition C218_claim : Prop := forall (T : Type) (kernel : config -> T -> T) zero reps t time meta args ca b ca' c b',
  (forall x y, zero x = zero y) -> run kernel zero reps t time meta args ca b = Ok (ca', c, b') -> b' = kernel c (zero b).
(** Once tuned, it does not: an accumulating kernel adds to what was there. *)
Theorem C218_cached_refuted : ~ C218_claim.
Proof.
  intros H. specialize (H Z (fun c b => b + 1) (fun _ => 0) (fun _ => 1%nat) two (fun _ => None) [] [16] [([16], cfg 0 64 64 32 2)] 5 _ _ _ ltac:(reflexivity) eq_refl). discriminate H.
Qed.
(** On the first call of a key; and always, for kernels that overwrite. *)
Theorem C218_reset_partial : forall (T : Type) (kernel : config -> T -> T) zero reps t time meta args ca b ca' c b', (forall x y, zero x = zero y) -> run kernel zero reps t time meta args ca b = Ok (ca', c, b') ->
  (ca' = ca /\ b' = kernel c b) \/ (length ca' = S (length ca) /\ b' = kernel c (zero b)).
Proof.
  intros T kernel zero reps t time meta args ca b ca' c b' Z0 H. unfold run in H. destruct (1 <? length (t_configs t))%nat.
  - destruct (call_key _ _ _) as [key|]; [|discriminate H]. cbn [bind] in H. destruct (lookup ca key) as [c0|]; [apply Ok_inj in H; injection H as <- <- <-; auto|]. destruct (prune_configs t) as [s|]; [|discriminate H]. cbn [bind] in H. destruct (bench_all _ _ _ _ _ _) as [b1|]; [|discriminate H]. cbn [bind] in H.
    destruct (items s) as [|c0 r]; [discriminate H|]. apply Ok_inj in H. injection H as <- <- <-. right. rewrite app_length. cbn [length]. split; [lia|]. f_equal. apply Z0.
  - destruct (t_configs t) as [|c0 r]; [discriminate H|]. apply Ok_inj in H. injection H as <- <- <-. auto.
Qed.
Theorem C218_overwrite : forall (T : Type) (kernel : config -> T -> T) zero reps t time meta args ca b ca' c b', (forall c x y, kernel c x = kernel c y) -> run kernel zero reps t time meta args ca b = Ok (ca', c, b') -> b' = kernel c b.
Proof.
  intros T kernel zero reps t time meta args ca b ca' c b' O H. unfold run in H. destruct (1 <? length (t_configs t))%nat.
  - destruct (call_key _ _ _) as [key|]; [|discriminate H]. cbn [bind] in H. destruct (lookup ca key) as [c0|]; [apply Ok_inj in H; injection H as <- <- <-; reflexivity|]. destruct (prune_configs t) as [s|]; [|discriminate H]. cbn [bind] in H. destruct (bench_all _ _ _ _ _ _) as [b1|]; [|discriminate H]. cbn [bind] in H.
    destruct (items s) as [|c0 r]; [discriminate H|]. apply Ok_inj in H. injection H as <- <- <-. apply O.
  - destruct (t_configs t) as [|c0 r]; [discriminate H|]. apply Ok_inj in H. injection H as <- <- <-. reflexivity.
Qed.
(** Meta-parameters that a tried configuration sets may not be given; nothing else makes measuring fail. *)
Theorem C218_conflict : forall (T : Type) (kernel : config -> T -> T) zero reps meta l b,
  ((exists b', bench_all kernel zero reps meta l b = Ok b') <-> forall c k, In c l -> In k (c_keys c) -> ~ In k meta) /\ (forall e, bench_all kernel zero reps meta l b = Raise e -> e = ValueError).
Proof.
  intros T kernel zero reps meta l. induction l as [|c r IH]; intros b; cbn [bench_all].
  - split; [|discriminate]. split; [intros _ c k []|intros _; eauto].
  - unfold bench. destruct (existsb _ meta) eqn:E.
    + cbn [bind]. split; [|intros e H; congruence]. split; [intros [b' H]; discriminate H|]. intros H. apply existsb_exists in E as (k & K & E). apply existsb_exists in E as (k' & K' & E). apply String.eqb_eq in E. subst k'. destruct (H c k (or_introl eq_refl) K' K).
    + cbn [bind]. destruct (IH (times (reps c) (fun b => kernel c (zero b)) b)) as [I1 I2]. split; [|exact I2]. rewrite I1. split.
      * intros H c' k [<-|C] K M; [|exact (H c' k C K M)]. assert (X : existsb (fun k => existsb (String.eqb k) (c_keys c)) meta = true); [|congruence]. apply existsb_exists. exists k. split; [exact M|]. apply existsb_exists. exists k. rewrite String.eqb_refl. auto.
      * intros H c' k C. apply H. right. exact C.
Qed.
Example C218_example : exists ca c, run (fun c b => b + 1) (fun _ => 0) (fun _ => 40%nat) two (fun _ => Some 1%Q) ["BLOCK"] [16] [] 5 = Ok (ca, c, 1) /\
  run (fun c b => b + 1) (fun _ => 0) (fun _ => 40%nat) two (fun _ => Some 1%Q) [] [16] ca 1 = Ok (ca, c, 2).
Proof. eexists _, _. split; reflexivity. Qed.

(** ** C219 *)
(** The sizes of a block for a dimension: a power of two that is at least 16 and at least the dimension, but no more than needed. *)
Definition block_bound (d m : Z) : Prop := (exists k, 0 <= k /\ m = 2 ^ k) /\ 16 <= m /\ d <= m /\ (m = 16 \/ m < 2 * d).
Lemma next_bound d m : next_pow2 d = Ok m -> 1 <= d /\ block_bound d m.
Proof.
  unfold next_pow2. destruct (Z.leb_spec d 0); [discriminate|]. intros H0. apply Ok_inj in H0. subst m. split; [lia|]. pose proof (Z.log2_up_nonneg d) as NN. assert (U : d <= 2 ^ Z.log2_up d) by (destruct (Z.eq_dec d 1) as [->|]; [cbn; lia|apply Z.log2_up_spec; lia]).
  assert (L : 2 ^ Z.log2_up d < 2 * d). { destruct (Z.eq_dec d 1) as [->|]; [cbn; lia|]. pose proof (Z.log2_up_spec d ltac:(lia)) as [A _]. replace (Z.log2_up d) with (Z.succ (Z.pred (Z.log2_up d))) by lia. rewrite Z.pow_succ_r; [lia|]. pose proof (Z.log2_up_pos d ltac:(lia)). lia. }
  unfold block_bound. split; [|lia]. destruct (Z.max_spec (2 ^ Z.log2_up d) 16) as [[_ ->]|[_ ->]]; [exists 4; split; [lia|reflexivity]|eexists; split; [|reflexivity]; lia].
Qed.
Lemma existsb_key k l : existsb (key_eqb k) l = true <-> In k l.
Proof. rewrite existsb_exists. split; [intros (x & X & E); apply key_eqb_eq in E; subst; exact X|intros X; exists k; rewrite (proj2 (key_eqb_eq k k) eq_refl); auto]. Qed.
Lemma dedup_spec : forall l used, NoDup (map tuple_of (dedup used l)) /\ (forall c, In c (dedup used l) -> In c l /\ ~ In (tuple_of c) used) /\ (forall c, In c l -> In (tuple_of c) used \/ In (tuple_of c) (map tuple_of (dedup used l))).
Proof.
  induction l as [|c r IH]; intros used; cbn [dedup]; [split; [constructor|split; [intros c []|intros c []]]|]. destruct (existsb (key_eqb (tuple_of c)) used) eqn:E.
  - apply existsb_key in E. destruct (IH used) as (A & B & C). split; [exact A|]. split; [intros x X; destruct (B x X); split; [right|]; assumption|]. intros x [<-|X]; auto.
  - assert (N : ~ In (tuple_of c) used) by (rewrite <- existsb_key; congruence). destruct (IH (tuple_of c :: used)) as (A & B & C). cbn [map]. split; [constructor; [|exact A]|split].
    + intros X. apply in_map_iff in X as (y & Y & X). apply B in X as [_ X]. apply X. left. symmetry. exact Y.
    + intros x [<-|X]; [split; [left; reflexivity|exact N]|]. apply B in X as [X1 X2]. split; [right; exact X1|intros U; apply X2; right; exact U].
    + intros x [<-|X]; [right; left; reflexivity|]. destruct (C x X) as [[D|D]|D]; [right; left; exact D|left; exact D|right; right; exact D].
Qed.
(** The pruner gives each shrunk configuration once. *)
Theorem C219_pruner : forall M N K configs, 1 <= M -> 1 <= N -> 1 <= K -> exists l m n k, matmul_pruner M N K configs = Ok (AGenerator l) /\ block_bound M m /\ block_bound N n /\ block_bound K k /\ NoDup (map tuple_of l) /\
  forall x, In x (map tuple_of l) <-> exists c, In c configs /\ x = [Z.min m (c_m c); Z.min n (c_n c); Z.min k (c_k c); c_group c; c_stages c; c_warps c].
Proof.
  intros M N K configs HM HN HK. assert (G : forall d, 1 <= d -> exists m, next_pow2 d = Ok m) by (intros d D; unfold next_pow2; destruct (Z.leb_spec d 0); [lia|eauto]).
  destruct (G M HM) as [m Em], (G N HN) as [n En], (G K HK) as [k Ek]. unfold matmul_pruner. rewrite Em, En, Ek. cbn [bind]. exists (dedup [] (map (shrink m n k) configs)), m, n, k. apply next_bound in Em as [_ Em], En as [_ En], Ek as [_ Ek].
  split; [reflexivity|]. repeat (split; [assumption|]). destruct (dedup_spec (map (shrink m n k) configs) []) as (A & B & C). split; [exact A|]. intros x. split.
  - intros X. apply in_map_iff in X as (y & <- & Y). apply B in Y as [Y _]. apply in_map_iff in Y as (c & <- & Y). exists c. split; [exact Y|reflexivity].
  - intros (c & I0 & ->). destruct (C (shrink m n k c)) as [[]|D]; [apply in_map; exact I0|exact D].
Qed.
Theorem C219_pruner_raises : forall M N K configs, M <= 0 \/ N <= 0 \/ K <= 0 -> matmul_pruner M N K configs = Raise ValueError.
Proof. intros M N K configs H. unfold matmul_pruner, next_pow2. destruct (Z.leb_spec M 0); [reflexivity|]. cbn [bind]. destruct (Z.leb_spec N 0); [reflexivity|]. cbn [bind]. destruct (Z.leb_spec K 0); [reflexivity|lia]. Qed.
(** A rounded key is a power of two within a factor of the square root of two. *)
Theorem C219_nearest : forall x p, nearest_pow2 x = Ok p -> (exists k, 0 <= k /\ p = 2 ^ k) /\ p * p <= 2 * (x * x) /\ x * x < 2 * (p * p).
Proof.
  intros x p. unfold nearest_pow2. destruct (Z.leb_spec x 0); [discriminate|]. intros E. apply Ok_inj in E. subst p. set (y := 2 * x * x). assert (Y : 0 < y) by (unfold y; nia). pose proof (Z.log2_spec y Y) as [A B]. pose proof (Z.log2_nonneg y) as NN. set (g := Z.log2 y) in *.
  pose proof (Z.div_mod g 2 ltac:(lia)) as D. pose proof (Z.mod_pos_bound g 2 ltac:(lia)) as MB. assert (K0 : 0 <= g / 2) by (apply Z.div_pos; lia). set (k := g / 2) in *. split; [exists k; split; [exact K0|reflexivity]|]. rewrite <- !Z.pow_add_r by lia.
  assert (P1 : 2 ^ (k + k) <= 2 ^ g) by (apply Z.pow_le_mono_r; lia). assert (P2 : 2 ^ Z.succ g <= 2 ^ (k + k + 2)) by (apply Z.pow_le_mono_r; lia). rewrite (Z.pow_add_r 2 (k + k) 2) in P2 by lia. change (2 ^ 2) with 4 in P2. unfold y in *. lia.
Qed.
(** The documentation calls early_config_prune optional, and a number of configurations to try never stops the kernel. *)
Definition C219_optional_claim : Prop := forall configs f n nearest idx, exists t, make configs (Some {| p_model := Some f; p_top := TopInt n; p_early := None |}) nearest idx = Ok t.
Theorem C219_optional_refuted : ~ C219_optional_claim.
Proof. intros H. destruct (H [] (fun _ => 0%Q) 1 false []) as [t E]. discriminate E. Qed.
Definition C219_fraction_claim : Prop := forall configs p q nearest idx t l, p_top p = TopFloat q -> (0 < q)%Q -> p_early p = Some (fun l => Ok (AList l)) -> make configs (Some p) nearest idx = Ok t -> prune_configs t = Ok (AList l) -> l <> [].
Theorem C219_fraction_refuted : ~ C219_fraction_claim.
Proof.
  intros H. apply (H [cfg 0 64 64 32 2; cfg 1 128 64 32 4] {| p_model := Some (fun _ => 1%Q); p_top := TopFloat (1 # 4); p_early := Some (fun l => Ok (AList l)) |} (1 # 4)%Q false [] _ [] eq_refl eq_refl eq_refl eq_refl); reflexivity.
Qed.
(** A model cannot be combined with the pruner of this file, which is a generator. *)
Theorem C219_generator : forall t p f M N K, t_prune t = Some p -> p_model p = Some f -> p_early p = Some (matmul_pruner M N K) -> 1 <= M -> 1 <= N -> 1 <= K -> prune_configs t = Raise TypeError.
Proof.
  intros t p f M N K P F E HM HN HK. unfold prune_configs. rewrite P, E, F. destruct (C219_pruner M N K (t_configs t) HM HN HK) as (l & m & n & k & -> & _). reflexivity.
Qed.
Lemma insert_perm f x l : Permutation (x :: l) (insert f x l).
Proof. induction l as [|y r IH]; cbn [insert]; [reflexivity|]. destruct (Qle_bool (f x) (f y)); [reflexivity|]. rewrite perm_swap. constructor. exact IH. Qed.
Lemma sort_perm f l : Permutation l (sort_by f l).
Proof. induction l as [|x l IH]; [constructor|]. cbn [sort_by fold_right]. etransitivity; [constructor; exact IH|apply insert_perm]. Qed.
Lemma insert_sorted f x l : StronglySorted (fun a b => (f a <= f b)%Q) l -> StronglySorted (fun a b => (f a <= f b)%Q) (insert f x l).
Proof.
  induction l as [|y r IH]; intros H; cbn [insert]; [repeat constructor|]. inversion H as [|a b HS HF]; subst. destruct (Qle_bool (f x) (f y)) eqn:E.
  - apply Qle_bool_iff in E. constructor; [exact H|]. constructor; [exact E|]. eapply Forall_impl; [|exact HF]. intros z Z0. cbn in Z0. lra.
  - assert (L : (f y <= f x)%Q). { destruct (Qlt_le_dec (f x) (f y)) as [X|X]; [|exact X]. apply Qlt_le_weak, Qle_bool_iff in X. congruence. } constructor; [apply IH; exact HS|]. eapply Permutation_Forall; [apply insert_perm|]. constructor; assumption.
Qed.
Lemma sort_sorted f l : StronglySorted (fun a b => (f a <= f b)%Q) (sort_by f l).
Proof. induction l as [|x l IH]; [constructor|]. cbn [sort_by fold_right]. apply insert_sorted. exact IH. Qed.
Lemma sorted_app {A} (P : A -> A -> Prop) : forall a b, StronglySorted P (a ++ b) -> forall x y, In x a -> In y b -> P x y.
Proof. induction a as [|z a IH]; intros b H x y X Y; [destruct X|]. inversion H as [|u v HS HF]; subst. destruct X as [<-|X]; [rewrite Forall_forall in HF; apply HF; apply in_or_app; auto|apply (IH b HS x y X Y)]. Qed.
(** With a model, as many as asked are tried, those estimated fastest. *)
Theorem C219_top : forall t p f n l, t_prune t = Some p -> p_model p = Some f -> p_top p = TopInt n -> 0 <= n -> (forall g, p_early p = Some g -> g (t_configs t) = Ok (AList l)) -> (p_early p = None -> l = t_configs t) ->
  exists kept dropped, prune_configs t = Ok (AList kept) /\ Permutation l (kept ++ dropped) /\ Z.of_nat (length kept) = Z.min n (Z.of_nat (length l)) /\ forall x y, In x kept -> In y dropped -> (f x <= f y)%Q.
Proof.
  intros t p f n l P F TN N E1 E2. unfold prune_configs. rewrite P, F, TN. assert (E : match p_early p with Some g => g (t_configs t) | None => Ok (AList (t_configs t)) end = Ok (AList l)) by (destruct (p_early p) as [g|]; [apply E1; reflexivity|rewrite <- E2; reflexivity]). rewrite E. cbn [bind].
  destruct (Z.ltb_spec n (Z.of_nat (length l))) as [L|L].
  - set (s := slice_stop (length l) n). exists (firstn s (sort_by f l)), (skipn s (sort_by f l)). rewrite firstn_skipn. split; [reflexivity|]. split; [apply sort_perm|]. split.
    + rewrite firstn_length, <- (Permutation_length (sort_perm f l)). unfold s, slice_stop. rewrite (proj2 (Z.ltb_ge _ _)) by lia. lia.
    + apply (sorted_app (fun a b => (f a <= f b)%Q)). rewrite firstn_skipn. apply sort_sorted.
  - exists l, []. rewrite app_nil_r. split; [reflexivity|]. split; [reflexivity|]. split; [lia|intros x y _ []].
Qed.
Example C219_example : (exists l, matmul_pruner 5 200 32 [cfg 0 64 256 32 2; cfg 1 128 256 32 2; cfg 2 64 64 64 4] = Ok (AGenerator l) /\ map tuple_of l = [[16; 256; 32; 8; 4; 2]; [16; 64; 32; 8; 4; 4]]) /\
  nearest_pow2 22 = Ok 16 /\ nearest_pow2 23 = Ok 32.
Proof. split; [eexists; split; reflexivity|split; reflexivity]. Qed.

Example C219_cases : let t early := {| t_configs := [cfg 0 64 64 32 2; cfg 1 128 64 32 4; cfg 2 256 64 32 4]; t_nearest := true; t_idx := [0%nat];
    t_prune := Some {| p_model := Some (fun c => (inject_Z (128 - c_m c) * inject_Z (128 - c_m c))%Q); p_top := TopInt 2; p_early := Some early |} |} in
  prune_configs (t (fun l => Ok (AList l))) = Ok (AList [cfg 1 128 64 32 4; cfg 0 64 64 32 2]) /\ prune_configs (t (matmul_pruner 64 64 64)) = Raise TypeError /\
  matmul_pruner 0 64 64 [] = Raise ValueError.
Proof. repeat split; vm_compute; reflexivity. Qed.

Print Assumptions C217_fastest.
Print Assumptions C217_cached.
Print Assumptions C218_cached_refuted.
Print Assumptions C218_reset_partial.
Print Assumptions C218_overwrite.
Print Assumptions C218_conflict.
Print Assumptions C219_pruner.
Print Assumptions C219_pruner_raises.
Print Assumptions C219_nearest.
Print Assumptions C219_optional_refuted.
Print Assumptions C219_fraction_refuted.
Print Assumptions C219_generator.
Print Assumptions C219_top.

(** The key of a call: the sizes asked for, rounded if that is on. *)
Theorem C217_key : forall idx nearest args key, call_key idx nearest args = Ok key ->
  Forall2 (fun i p => exists a, nth_error args i = Some a /\ (if nearest then nearest_pow2 a = Ok p else p = a)) idx key.
Proof.
  intros idx nearest args key E. unfold call_key in E.
  assert (G : forall idx k, mapM (fun i => match nth_error args i with Some a => Ok a | None => Raise IndexError end) idx = Ok k -> Forall2 (fun i a => nth_error args i = Some a) idx k).
  { clear. induction idx as [| i idx IH]; intros k E; cbn in E; [apply Ok_inj in E; subst; constructor |]. destruct (nth_error args i) as [a |] eqn:Ea; [| discriminate E]. cbn [bind] in E.
    destruct (mapM _ idx) as [k' |] eqn:Ek; [| discriminate E]. apply Ok_inj in E. subst k. constructor; auto. }
  destruct (mapM _ idx) as [k |] eqn:Ek; [| discriminate E]. cbn [bind] in E. specialize (G idx k Ek). clear Ek. destruct nearest.
  - revert key E. induction G as [| i a idx k Ha G IH]; intros key E; cbn in E; [apply Ok_inj in E; subst; constructor |]. destruct (nearest_pow2 a) as [p |] eqn:Ep; [| discriminate E]. cbn [bind] in E.
    destruct (mapM nearest_pow2 k) as [ps |] eqn:Eps; [| discriminate E]. apply Ok_inj in E. subst key. constructor; eauto.
  - apply Ok_inj in E. subst key. clear -G. induction G; constructor; eauto.
Qed.
(** Without configurations there is a default one, which runs without being measured. *)
Theorem C217_default : forall (T : Type) (kernel : config -> T -> T) zero reps nearest idx t time meta args ca b, make [] None nearest idx = Ok t ->
  exists c, run kernel zero reps t time meta args ca b = Ok (ca, c, kernel c b) /\ c_keys c = [] /\ c_warps c = 4 /\ c_stages c = 2.
Proof. intros T kernel zero reps nearest idx t time meta args ca b E. apply Ok_inj in E. subst t. eexists. split; [reflexivity |]. auto. Qed.
(** A share is one of all configurations, not of those left after pruning. *)
Theorem C219_share : forall t p f q l, t_prune t = Some p -> p_model p = Some f -> p_top p = TopFloat q -> (0 <= q <= 1)%Q -> (forall g, p_early p = Some g -> g (t_configs t) = Ok (AList l)) -> (p_early p = None -> l = t_configs t) ->
  exists kept dropped, prune_configs t = Ok (AList kept) /\ Permutation l (kept ++ dropped) /\
    Z.of_nat (length kept) = Z.min (Qtrunc (inject_Z (Z.of_nat (length (t_configs t))) * q)) (Z.of_nat (length l)) /\ forall x y, In x kept -> In y dropped -> (f x <= f y)%Q.
Proof.
  intros t p f q l Hp Hf Hq [H0 H1] He Hn. set (n := Qtrunc (inject_Z (Z.of_nat (length (t_configs t))) * q)).
  set (p' := {| p_model := p_model p; p_top := TopInt n; p_early := p_early p |}). set (t' := {| t_configs := t_configs t; t_prune := Some p'; t_nearest := t_nearest t; t_idx := t_idx t |}).
  assert (E : prune_configs t = prune_configs t').
  { unfold prune_configs, t', p'. rewrite Hp, Hf, Hq. cbn [t_prune p_early p_model p_top t_configs]. rewrite (proj2 (Qle_bool_iff q 1) H1). reflexivity. }
  assert (Hn0 : 0 <= n).
  { unfold n, Qtrunc. apply Z.quot_pos; [| pose proof (Pos2Z.is_pos (Qden (inject_Z (Z.of_nat (length (t_configs t))) * q))); lia]. unfold Qle in H0. cbn in *. nia. }
  rewrite E. apply (C219_top t' p' f n l); auto.
Qed.
Example C219_share_example : call_key [0%nat; 2%nat] true [5; 6; 100] = Ok [4; 128] /\ call_key [0%nat; 2%nat] false [5; 6; 100] = Ok [5; 100].
Proof. split; reflexivity. Qed.
Print Assumptions C217_key.
Print Assumptions C217_default.
Print Assumptions C219_share.
