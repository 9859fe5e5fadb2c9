(** Properties of Support_Model: log levels, the fast-stop hook, registration of torch classes,
    gradients and devices of modules. *)
From Coq Require Import String Ascii Lia.
From Verif Require Import Prelude Support_Model.
Open Scope list_scope.
Open Scope Z_scope.

(** * C243: log levels *)
(** Two strings that differ in the case of ASCII letters only. *)
Inductive same_letter : ascii -> ascii -> Prop :=
| SL_same c : same_letter c c
| SL_low c d : (97 <= nat_of_ascii c <= 122)%nat -> (nat_of_ascii c = nat_of_ascii d + 32)%nat -> same_letter c d.
Inductive lower_of : string -> string -> Prop :=
| LO_nil : lower_of EmptyString EmptyString
| LO_cons c d s t : same_letter c d -> lower_of s t -> lower_of (String c s) (String d t).
(** The levels of the standard library. *)
Inductive std_level : string -> Z -> Prop :=
| L_critical : std_level "CRITICAL" 50 | L_fatal : std_level "FATAL" 50 | L_error : std_level "ERROR" 40
| L_warn : std_level "WARN" 30 | L_warning : std_level "WARNING" 30 | L_info : std_level "INFO" 20
| L_debug : std_level "DEBUG" 10 | L_notset : std_level "NOTSET" 0.

Lemma upper_char_same : forall c, same_letter c (upper_char c).
Proof.
  intros c. unfold upper_char.
  destruct ((97 <=? nat_of_ascii c) && (nat_of_ascii c <=? 122))%nat eqn:B; [|constructor].
  apply andb_prop in B. destruct B as [B1 B2]. apply Nat.leb_le in B1. apply Nat.leb_le in B2.
  apply SL_low; [lia|]. rewrite nat_ascii_embedding by lia. lia.
Qed.
Lemma upper_lower_of : forall s, lower_of s (upper s).
Proof. induction s as [|c s IH]; cbn [upper]; constructor; auto using upper_char_same. Qed.
Definition capital (c : ascii) : Prop := (65 <= nat_of_ascii c <= 90)%nat.
Lemma same_letter_capital : forall c d, same_letter c d -> capital d -> upper_char c = d.
Proof.
  intros c d H K. unfold capital in K. unfold upper_char. destruct H as [c|c d A B].
  - replace ((97 <=? nat_of_ascii c)%nat) with false by (symmetry; apply Nat.leb_gt; lia). reflexivity.
  - replace ((97 <=? nat_of_ascii c)%nat) with true by (symmetry; apply Nat.leb_le; lia).
    replace ((nat_of_ascii c <=? 122)%nat) with true by (symmetry; apply Nat.leb_le; lia).
    cbn [andb]. rewrite B. replace (nat_of_ascii d + 32 - 32)%nat with (nat_of_ascii d) by lia.
    apply ascii_nat_embedding.
Qed.
Fixpoint capitals (s : string) : Prop :=
  match s with EmptyString => True | String c r => capital c /\ capitals r end.
Lemma lower_of_upper : forall s t, lower_of s t -> capitals t -> upper s = t.
Proof.
  intros s t H. induction H as [|c d s t A B IH]; intros K; cbn [upper]; [reflexivity|].
  destruct K as [K1 K2]. rewrite (same_letter_capital _ _ A K1), (IH K2). reflexivity.
Qed.
Lemma lookup_std : forall s z, lookup s name_to_level = Some z <-> std_level s z.
Proof.
  intros s z. unfold name_to_level. cbn [lookup]. split.
  - repeat (match goal with |- context [String.eqb ?k s] =>
      destruct (String.eqb_spec k s); [subst; intros H; injection H as <-; constructor|] end).
    intros H. discriminate H.
  - intros H. destruct H; reflexivity.
Qed.
Lemma std_capitals : forall s z, std_level s z -> capitals s.
Proof. intros s z H. destruct H; cbn [capitals]; unfold capital; repeat split; apply Nat.leb_le; reflexivity. Qed.

Theorem C243_level_of_a_name : forall s z,
  get_level (LStr s) = Ok z <-> exists t, lower_of s t /\ std_level t z.
Proof.
  intros s z. cbn [get_level]. split.
  - destruct (lookup (upper s) name_to_level) as [z'|] eqn:E; intros H; [|discriminate H].
    apply Ok_inj in H. subst z'. exists (upper s). split; [apply upper_lower_of|apply lookup_std; exact E].
  - intros (t & A & B). rewrite (lower_of_upper _ _ A (std_capitals _ _ B)).
    apply lookup_std in B. rewrite B. reflexivity.
Qed.
Example C243_name_ex : get_level (LStr "Warn") = Ok 30 /\ exists t, lower_of "Warn" t /\ std_level t 30.
Proof. split; [reflexivity|]. apply C243_level_of_a_name. reflexivity. Qed.

Theorem C243_other_levels : forall a,
  (forall s, a = LStr s -> (forall t z, lower_of s t -> ~ std_level t z) -> get_level a = Raise AssertionError)
  /\ (forall z, a = LInt z -> get_level a = Ok z)
  /\ (a = LOther -> get_level a = Raise NotImplementedError).
Proof.
  intros a. repeat split; intros; subst; try reflexivity.
  cbn [get_level]. destruct (lookup (upper s) name_to_level) as [z|] eqn:E; [|reflexivity].
  apply lookup_std in E. exfalso. exact (H0 _ _ (upper_lower_of s) E).
Qed.
Example C243_other_ex : get_level (LStr "verbose") = Raise AssertionError /\ get_level (LInt 7) = Ok 7.
Proof. split; reflexivity. Qed.

(** Printing from [world] processes: with the default a message is printed once, by process 0. *)
Definition printed_by (world : nat) (a : larg) (only : bool) (r : nat) : Prop :=
  (r < world)%nat /\ exists l, print_log (Some r) a only = Ok (Some l) /\ get_level a = Ok l.
Theorem C243_printed_once : forall world a l, (0 < world)%nat -> get_level a = Ok l ->
  (forall r, printed_by world a true r <-> r = 0%nat)
  /\ (forall r, (r < world)%nat -> printed_by world a false r)
  /\ forall only, print_log None a only = Ok (Some l).
Proof.
  intros world a l W G. unfold printed_by. split; [|split].
  - intros r. split.
    + intros (_ & k & H & _). unfold print_log in H. destruct (Nat.eqb_spec r 0); [assumption|discriminate H].
    + intros ->. split; [exact W|]. exists l. unfold print_log. cbn [Nat.eqb]. rewrite G. split; reflexivity.
  - intros r Hr. split; [exact Hr|]. exists l. unfold print_log. rewrite G. split; reflexivity.
  - intros only. unfold print_log. rewrite G. destruct only; reflexivity.
Qed.
Example C243_once_ex : print_log (Some 0%nat) (LStr "info") true = Ok (Some 20) /\ print_log (Some 3%nat) (LStr "info") true = Ok None.
Proof. split; reflexivity. Qed.

(** All processes should agree on whether a call with a wrong level fails. *)
Definition C243_claim : Prop := forall a r1 r2 only e,
  print_log (Some r1) a only = Raise e -> print_log (Some r2) a only = Raise e.
Theorem C243_bad_level_agrees_refuted : ~ C243_claim.
Proof.
  intros H. specialize (H (LStr "verbose") 0%nat 1%nat true AssertionError eq_refl). discriminate H.
Qed.
Theorem C243_bad_level_agrees_partial : forall a r1 r2 e,
  print_log (Some r1) a false = Raise e -> print_log (Some r2) a false = Raise e.
Proof. intros a r1 r2 e H. exact H. Qed.
Example C243_agrees_ex : print_log (Some 4%nat) (LStr "x") false = Raise AssertionError.
Proof. reflexivity. Qed.

Theorem C243_set_log_level : forall hs own a,
  match set_log_level hs own a with
  | (hs', own', Ok _) => exists l old rest, get_level a = Ok l /\ own' = l /\ hs = old :: rest /\ hs' = l :: rest
  | (hs', own', Raise e) => hs' = hs /\ own' = own /\ (get_level a = Raise e \/ (hs = [] /\ e = IndexError))
  end.
Proof.
  intros hs own a. unfold set_log_level. destruct (get_level a) as [l|e].
  - destruct hs as [|h r]; [auto|]. exists l, h, r. auto.
  - auto.
Qed.
Example C243_set_ex : set_log_level [20; 40] 20 (LStr "debug") = ([10; 40], 10, Ok tt).
Proof. reflexivity. Qed.

(** * C244: the fast-stop hook *)
Lemma run_iters_spec : forall h n it,
  (save_ckpt h && by_epoch h = true -> run_iters h n it = (it + n, false)%nat)
  /\ (save_ckpt h && by_epoch h = false -> (it <= Z.to_nat (stop_at h))%nat ->
      run_iters h n it = if (it + n <=? Z.to_nat (stop_at h))%nat then (it + n, false)%nat
                         else (S (Z.to_nat (stop_at h)), true)).
Proof.
  intros h n. induction n as [|n IH]; intros it; (split; [intros A|intros A B]).
  - cbn [run_iters]. f_equal. lia.
  - cbn [run_iters]. replace (it + 0)%nat with it by lia.
    replace ((it <=? Z.to_nat (stop_at h))%nat) with true by (symmetry; apply Nat.leb_le; exact B). reflexivity.
  - cbn [run_iters]. unfold stop_iter. rewrite A. destruct (IH (S it)) as [I _]. rewrite (I A). f_equal. lia.
  - cbn [run_iters]. unfold stop_iter at 1. rewrite A. destruct (IH (S it)) as [_ I].
    destruct (Z.leb_spec (stop_at h) (Z.of_nat it)).
    + replace ((it + S n <=? Z.to_nat (stop_at h))%nat) with false by (symmetry; apply Nat.leb_gt; lia).
      f_equal. lia.
    + rewrite I by (try exact A; lia). replace (S it + n)%nat with (it + S n)%nat by lia. reflexivity.
Qed.

(** Where training ends: after one iteration more than asked (never if checkpoints are wanted and
    training is by epoch), or after as many epochs as asked, at least one. *)
Definition iter_end (h : fast_stop) : option nat :=
  if save_ckpt h && by_epoch h then None else Some (S (Z.to_nat (stop_at h))).
Definition epoch_end (h : fast_stop) : nat := Nat.max 1 (Z.to_nat (stop_at h)).
Definition upto (a : nat) (b : option nat) : nat := match b with None => a | Some b => Nat.min a b end.

Lemma run_epochs_spec : forall h n E ep it, it = (ep * n)%nat -> (ep < epoch_end h)%nat ->
  match iter_end h with None => True | Some k => (it < k)%nat end ->
  run_epochs h n E ep it =
    (upto (Nat.min (ep + E) (epoch_end h) * n) (iter_end h),
     (epoch_end h <=? ep + E)%nat || match iter_end h with None => false | Some k => (k <=? (ep + E) * n)%nat end).
Proof.
  intros h n E. induction E as [|E IH]; intros ep it Hit Hep Hk; cbn [run_epochs].
  - replace (Nat.min (ep + 0) (epoch_end h))%nat with ep by lia. rewrite <- Hit.
    replace ((epoch_end h <=? ep + 0)%nat) with false by (symmetry; apply Nat.leb_gt; lia).
    replace (ep + 0)%nat with ep by lia.
    destruct (iter_end h) as [k|]; cbn [upto orb]; [|reflexivity].
    rewrite <- Hit. replace ((k <=? it)%nat) with false by (symmetry; apply Nat.leb_gt; lia). f_equal. lia.
  - assert (HE : forall b, stop_epoch h ep = b -> b = (epoch_end h <=? S ep)%nat).
    { intros b <-. unfold stop_epoch, epoch_end.
      destruct (Z.leb_spec (stop_at h - 1) (Z.of_nat ep)); symmetry; [apply Nat.leb_le|apply Nat.leb_gt]; lia. }
    unfold iter_end in *. destruct (save_ckpt h && by_epoch h) eqn:C.
    + destruct (run_iters_spec h n it) as [I _]. rewrite (I C).
      destruct (stop_epoch h ep) eqn:S1; specialize (HE _ eq_refl); symmetry in HE.
      * apply Nat.leb_le in HE. cbn [upto].
        replace (Nat.min (ep + S E) (epoch_end h))%nat with (S ep) by lia.
        replace ((epoch_end h <=? ep + S E)%nat) with true by (symmetry; apply Nat.leb_le; lia).
        cbn [orb]. f_equal. cbn [Nat.mul]. lia.
      * apply Nat.leb_gt in HE. rewrite IH; [|cbn [Nat.mul]; lia|lia|exact Logic.I].
        replace (S ep + E)%nat with (ep + S E)%nat by lia. reflexivity.
    + destruct (run_iters_spec h n it) as [_ I]. rewrite (I C) by lia. clear I.
      set (k := Z.to_nat (stop_at h)) in *.
      destruct (Nat.leb_spec (it + n) k) as [L|L].
      * destruct (stop_epoch h ep) eqn:S1; specialize (HE _ eq_refl); symmetry in HE.
        -- apply Nat.leb_le in HE. cbn [upto].
           replace (Nat.min (ep + S E) (epoch_end h))%nat with (S ep) by lia.
           replace ((epoch_end h <=? ep + S E)%nat) with true by (symmetry; apply Nat.leb_le; lia).
           cbn [orb]. f_equal. cbn [Nat.mul]. lia.
        -- apply Nat.leb_gt in HE. rewrite IH; [|cbn [Nat.mul]; lia|lia|lia].
           replace (S ep + E)%nat with (ep + S E)%nat by lia. reflexivity.
      * cbn [upto].
        assert (M1 : (S ep * n <= Nat.min (ep + S E) (epoch_end h) * n)%nat) by (apply Nat.mul_le_mono_r; lia).
        assert (M2 : (S ep * n <= (ep + S E) * n)%nat) by (apply Nat.mul_le_mono_r; lia).
        cbn [Nat.mul] in M1, M2.
        replace ((S k <=? (ep + S E) * n)%nat) with true by (symmetry; apply Nat.leb_le; lia).
        rewrite orb_true_r. f_equal. lia.
Qed.

Theorem C244_iterations_trained : forall h n E,
  run_epochs h n E 0 0 =
    (upto (Nat.min E (epoch_end h) * n) (iter_end h),
     (epoch_end h <=? E)%nat || match iter_end h with None => false | Some k => (k <=? E * n)%nat end).
Proof.
  intros h n E. apply (run_epochs_spec h n E 0 0); [reflexivity|unfold epoch_end; lia|].
  unfold iter_end. destruct (save_ckpt h && by_epoch h); lia.
Qed.
Example C244_ex :
  run_epochs {| by_epoch := true; save_ckpt := true; stop_at := 2 |} 4 9 0 0 = (8%nat, true)
  /\ run_epochs {| by_epoch := true; save_ckpt := false; stop_at := 5 |} 4 9 0 0 = (6%nat, true)
  /\ run_epochs {| by_epoch := false; save_ckpt := false; stop_at := 5 |} 4 1 0 0 = (4%nat, false).
Proof. repeat split. Qed.

(** With checkpoints wanted in a training by epoch only whole epochs are trained, at least one. *)
Theorem C244_whole_epochs : forall h n E, save_ckpt h = true -> by_epoch h = true -> (0 < E)%nat ->
  exists e, (1 <= e <= E)%nat /\ fst (run_epochs h n E 0 0) = (e * n)%nat.
Proof.
  intros h n E A B P. rewrite C244_iterations_trained. unfold iter_end. rewrite A, B.
  cbn [andb upto fst]. exists (Nat.min E (epoch_end h)). unfold epoch_end. split; [lia|reflexivity].
Qed.
Example C244_whole_ex : run_epochs {| by_epoch := true; save_ckpt := true; stop_at := -3 |} 7 9 0 0 = (7%nat, true).
Proof. reflexivity. Qed.

(** A hook told to stop at iteration [k] should train at most [k] iterations. *)
Definition C244_claim : Prop := forall h n E, by_epoch h = false -> 0 < stop_at h ->
  Z.of_nat (fst (run_epochs h n E 0 0)) <= stop_at h.
Theorem C244_stops_at_refuted : ~ C244_claim.
Proof.
  intros H. specialize (H {| by_epoch := false; save_ckpt := false; stop_at := 5 |} 9%nat 1%nat eq_refl eq_refl).
  vm_compute in H. apply H. reflexivity.
Qed.
Theorem C244_stops_at_partial : forall h n E, by_epoch h = false -> 0 < stop_at h ->
  Z.of_nat (fst (run_epochs h n E 0 0)) <= stop_at h + 1.
Proof.
  intros h n E A P. rewrite C244_iterations_trained. unfold iter_end. rewrite A, andb_false_r. cbn [upto fst]. lia.
Qed.
Example C244_stops_ex : fst (run_epochs {| by_epoch := false; save_ckpt := true; stop_at := 3 |} 100 1 0 0) = 4%nat.
Proof. reflexivity. Qed.

(** * C245: registration of torch's classes *)
Definition hidden (nm : string) : Prop :=
  (exists t, nm = ("_" ++ t)%string) \/ exists t, nm = ("default" ++ t)%string.
(** The classes to be registered: public ones derived from the base. *)
Definition offered (attrs : list attribute) (nm : string) : Prop := In (nm, Some nm) attrs /\ ~ hidden nm.
(** Every class is bound to its own name. *)
Definition own_names (attrs : list attribute) : Prop := forall nm c, In (nm, Some c) attrs -> c = nm.

Lemma prefix_ex : forall p s, String.prefix p s = true <-> exists t, s = (p ++ t)%string.
Proof.
  induction p as [|c p IH]; intros s.
  - split; [intros _; exists s; reflexivity|destruct s; reflexivity].
  - destruct s as [|d s]; [split; [intros H; discriminate H|intros [t H]; discriminate H]|].
    change (String.prefix (String c p) (String d s)) with (if ascii_dec c d then String.prefix p s else false).
    destruct (ascii_dec c d) as [->|N].
    + rewrite IH. split; intros [t H]; exists t; cbn in *; [rewrite H; reflexivity|injection H as H; exact H].
    + split; [intros H; discriminate H|intros [t H]; injection H as H _; congruence].
Qed.
Lemma skipped_hidden : forall nm, skipped nm = true <-> hidden nm.
Proof.
  intros nm. unfold skipped, hidden. rewrite !orb_true_iff, !prefix_ex. split.
  - intros [[[t H]|H]|H]; [left; exists ("_" ++ t)%string; exact H|left; exact H|right; exact H].
  - intros [H|H]; [left; right; exact H|right; exact H].
Qed.
Lemma skipped_false : forall nm, skipped nm = false <-> ~ hidden nm.
Proof. intros nm. rewrite <- skipped_hidden. destruct (skipped nm); split; intros H; congruence. Qed.
Lemma known_in : forall reg nm, known reg nm = true <-> In nm reg.
Proof.
  intros reg nm. unfold known. rewrite existsb_exists. split.
  - intros (x & A & B). apply String.eqb_eq in B. subst x. exact A.
  - intros A. exists nm. split; [exact A|apply String.eqb_refl].
Qed.
Lemma known_out : forall reg nm, known reg nm = false <-> ~ In nm reg.
Proof. intros reg nm. rewrite <- known_in. destruct (known reg nm); split; intros H; congruence. Qed.

Lemma register_spec : forall attrs reg out, own_names attrs ->
  exists new, register attrs reg out = (reg ++ new, Ok (out ++ new)) /\ NoDup new
    /\ forall nm, In nm new <-> offered attrs nm /\ ~ In nm reg.
Proof.
  induction attrs as [|[nm cls] r IH]; intros reg out O; cbn [register].
  - exists []. rewrite !app_nil_r. split; [reflexivity|]. split; [constructor|].
    intros nm. split; [intros []|intros [[[] _] _]].
  - assert (O' : own_names r) by (intros a c H; apply O; right; exact H).
    assert (Skip : (forall a, offered ((nm, cls) :: r) a -> ~ In a reg -> offered r a) ->
      exists new, register r reg out = (reg ++ new, Ok (out ++ new)) /\ NoDup new
        /\ forall a, In a new <-> offered ((nm, cls) :: r) a /\ ~ In a reg).
    { intros K. destruct (IH reg out O') as (new & A & B & C). exists new. split; [exact A|]. split; [exact B|].
      intros a. rewrite C. split; intros [P Q].
      - split; [|exact Q]. destruct P as [P1 P2]. split; [right; exact P1|exact P2].
      - split; [apply K; assumption|exact Q]. }
    destruct (skipped nm) eqn:S1.
    { apply Skip. intros a [[P|P] Q] _; [|split; assumption].
      injection P as P1 _. subst a. apply skipped_hidden in S1. contradiction. }
    destruct cls as [c|].
    2:{ apply Skip. intros a [[P|P] Q] _; [discriminate P|split; assumption]. }
    assert (c = nm) by (apply O; left; reflexivity). subst c.
    destruct (known reg nm) eqn:K.
    { apply Skip. intros a [[P|P] Q] N; [|split; assumption].
      injection P as P1. subst a. apply known_in in K. contradiction. }
    destruct (IH (reg ++ [nm]) (out ++ [nm]) O') as (new & A & B & C).
    exists (nm :: new). rewrite A, <- !app_assoc. split; [reflexivity|].
    apply known_out in K. apply skipped_false in S1. split.
    + constructor; [|exact B]. intros H. apply C in H. destruct H as [_ H]. apply H.
      apply in_or_app. right. left. reflexivity.
    + intros a. cbn [In]. rewrite C. split.
      * intros [->|[[P Q] N]].
        -- split; [split; [left; reflexivity|exact S1]|exact K].
        -- split; [split; [right; exact P|exact Q]|]. intros H. apply N. apply in_or_app. left. exact H.
      * intros [[P Q] N]. destruct (string_dec nm a) as [->|D]; [left; reflexivity|right].
        destruct P as [P|P]; [injection P as P; contradiction|].
        split; [split; assumption|]. intros H. apply in_app_or in H. destruct H as [H|[H|[]]]; contradiction.
Qed.

Theorem C245_registers_the_offered : forall attrs reg, own_names attrs ->
  exists new, register attrs reg [] = (reg ++ new, Ok new) /\ NoDup new
    /\ forall nm, In nm new <-> offered attrs nm /\ ~ In nm reg.
Proof. intros attrs reg O. exact (register_spec attrs reg [] O). Qed.
Theorem C245_second_time_nothing : forall attrs reg reg' names, own_names attrs ->
  register attrs reg [] = (reg', Ok names) -> register attrs reg' [] = (reg', Ok []).
Proof.
  intros attrs reg reg' names O H.
  destruct (C245_registers_the_offered attrs reg O) as (new & A & _ & C).
  rewrite A in H. injection H as H1 H2. subst reg' names.
  destruct (C245_registers_the_offered attrs (reg ++ new) O) as (new2 & A2 & _ & C2).
  rewrite A2. destruct new2 as [|a l]; [rewrite app_nil_r; reflexivity|exfalso].
  destruct (proj1 (C2 a) (or_introl eq_refl)) as [P Q]. apply Q. apply in_or_app.
  destruct (in_dec string_dec a reg) as [I|I]; [left; exact I|right]. apply C. split; assumption.
Qed.
Example C245_ex :
  let attrs := [("HistogramObserver", Some "HistogramObserver"); ("_Private", Some "_Private"); ("default_observer", None);
                ("NoopObserver", Some "NoopObserver"); ("torch", None)]%string in
  register attrs ["NoopObserver"%string] [] = (["NoopObserver"; "HistogramObserver"]%string, Ok ["HistogramObserver"%string]).
Proof. reflexivity. Qed.

(** Registering should not fail whatever names the classes are bound to. *)
Definition C245_claim : Prop := forall attrs reg, exists names, snd (register attrs reg []) = Ok names.
Theorem C245_never_fails_refuted : ~ C245_claim.
Proof.
  intros H. specialize (H [("Alias", Some "Base"); ("Base", Some "Base"); ("Other", Some "Base")]%string []).
  destruct H as [names H]. discriminate H.
Qed.
Theorem C245_never_fails_partial : forall attrs reg, own_names attrs ->
  exists names, snd (register attrs reg []) = Ok names.
Proof. intros attrs reg O. destruct (C245_registers_the_offered attrs reg O) as (new & A & _). rewrite A. exists new. reflexivity. Qed.
(** What is registered before stays, and nothing private is registered under its own name. *)
Theorem C245_keeps_registry : forall attrs reg out,
  exists more, fst (register attrs reg out) = reg ++ more
    /\ forall c, In c more -> exists nm, In (nm, Some c) attrs /\ ~ hidden nm /\ ~ In c reg.
Proof.
  induction attrs as [|[nm cls] r IH]; intros reg out; cbn [register].
  - exists []. rewrite app_nil_r. split; [reflexivity|intros c []].
  - assert (Skip : exists more, fst (register r reg out) = reg ++ more
      /\ forall c, In c more -> exists a, In (a, Some c) ((nm, cls) :: r) /\ ~ hidden a /\ ~ In c reg).
    { destruct (IH reg out) as (more & A & B). exists more. split; [exact A|]. intros c H.
      destruct (B c H) as (a & P & Q). exists a. split; [right; exact P|exact Q]. }
    destruct (skipped nm) eqn:S1; [exact Skip|]. destruct cls as [c|]; [|exact Skip].
    destruct (known reg nm); [exact Skip|]. destruct (known reg c) eqn:K.
    { exists []. rewrite app_nil_r. split; [reflexivity|intros x []]. }
    apply known_out in K. apply skipped_false in S1.
    destruct (IH (reg ++ [c]) (out ++ [nm])) as (more & A & B). exists (c :: more).
    rewrite A, <- app_assoc. split; [reflexivity|]. intros x [<-|H].
    + exists nm. split; [left; reflexivity|split; assumption].
    + destruct (B x H) as (a & P & Q & N). exists a. split; [right; exact P|]. split; [exact Q|].
      intros I. apply N. apply in_or_app. left. exact I.
Qed.
Example C245_keeps_ex : fst (register [("A", Some "A"); ("B", Some "A")]%string ["M"%string] []) = ["M"; "A"]%string.
Proof. reflexivity. Qed.

(** * C246: gradients and devices *)
Definition in_nets (ns : nets) (p : nat) : Prop :=
  match ns with
  | OneNet n => exists ps, n = Some ps /\ In p ps
  | ManyNets l => exists ps, In (Some ps) l /\ In p ps
  end.
Lemma fold_params : forall flag ps (g : nat -> bool) q,
  (In q ps -> fold_left (fun g p => fun q => if Nat.eqb p q then flag else g q) ps g q = flag)
  /\ (~ In q ps -> fold_left (fun g p => fun q => if Nat.eqb p q then flag else g q) ps g q = g q).
Proof.
  intros flag ps. induction ps as [|p ps IH]; intros g q; cbn [fold_left In].
  - split; [intros []|reflexivity].
  - destruct (IH (fun q => if Nat.eqb p q then flag else g q) q) as [A B].
    destruct (in_dec Nat.eq_dec q ps) as [I|I].
    + split; [intros _; exact (A I)|intros N; exfalso; apply N; right; exact I].
    + rewrite (B I). destruct (Nat.eqb_spec p q) as [->|D].
      * split; [reflexivity|intros N; exfalso; apply N; left; reflexivity].
      * split; [intros [E|E]; contradiction|reflexivity].
Qed.
Lemma fold_nets : forall flag l (g : nat -> bool) q,
  ((exists ps, In (Some ps) l /\ In q ps) -> fold_left (set_params flag) l g q = flag)
  /\ ((~ exists ps, In (Some ps) l /\ In q ps) -> fold_left (set_params flag) l g q = g q).
Proof.
  intros flag l. induction l as [|n l IH]; intros g q; cbn [fold_left].
  - split; [intros (ps & [] & _)|reflexivity].
  - destruct (IH (set_params flag g n) q) as [A B].
    assert (D : (exists ps, In (Some ps) l /\ In q ps) \/ ~ exists ps, In (Some ps) l /\ In q ps).
    { clear. induction l as [|[ps|] l IH].
      - right. intros (ps & [] & _).
      - destruct (in_dec Nat.eq_dec q ps) as [I|I].
        + left. exists ps. split; [left; reflexivity|exact I].
        + destruct IH as [(x & P & Q)|N]; [left; exists x; split; [right; exact P|exact Q]|right].
          intros (x & [P|P] & Q); [injection P as P; subst x; contradiction|apply N; exists x; auto].
      - destruct IH as [(x & P & Q)|N]; [left; exists x; split; [right; exact P|exact Q]|right].
        intros (x & [P|P] & Q); [discriminate P|apply N; exists x; auto]. }
    destruct D as [D|D].
    + rewrite (A D). split; [reflexivity|]. intros N. exfalso. apply N.
      destruct D as (x & P & Q). exists x. split; [right; exact P|exact Q].
    + rewrite (B D). destruct n as [ps|]; cbn [set_params].
      * destruct (fold_params flag ps g q) as [F1 F2]. split.
        -- intros (x & [P|P] & Q); [injection P as P; subst x; exact (F1 Q)|exfalso; apply D; exists x; auto].
        -- intros N. apply F2. intros I. apply N. exists ps. split; [left; reflexivity|exact I].
      * split; [|reflexivity]. intros (x & [P|P] & Q); [discriminate P|exfalso; apply D; exists x; auto].
Qed.
Theorem C246_gradients : forall ns flag g p,
  (in_nets ns p -> set_requires_grad ns flag g p = flag)
  /\ (~ in_nets ns p -> set_requires_grad ns flag g p = g p).
Proof.
  intros ns flag g p. unfold set_requires_grad. destruct ns as [n|l]; cbn [in_nets].
  - destruct (fold_nets flag [n] g p) as [A B]. split.
    + intros (ps & -> & I). apply A. exists ps. split; [left; reflexivity|exact I].
    + intros N. apply B. intros (ps & [->|[]] & I). apply N. exists ps. auto.
  - apply fold_nets.
Qed.
Example C246_grad_ex :
  let g := set_requires_grad (ManyNets [Some [1; 2]; None; Some [2; 5]]%nat) false (fun _ => true) in
  map g [0; 1; 2; 3; 5]%nat = [true; false; false; true; false].
Proof. reflexivity. Qed.

Theorem C246_device : forall where_ ps d,
  (get_module_device where_ ps = Raise ValueError <-> ps = [])
  /\ (ps <> [] -> (forall p, In p ps -> where_ p = d) -> get_module_device where_ ps = Ok d).
Proof.
  intros where_ ps d. destruct ps as [|p ps]; cbn [get_module_device]; split.
  - split; reflexivity.
  - intros N. contradiction.
  - split; intros H; discriminate H.
  - intros _ A. rewrite (A p (or_introl eq_refl)). reflexivity.
Qed.
Example C246_device_ex : get_module_device (fun _ => Some 1%nat) [4; 7]%nat = Ok (Some 1%nat).
Proof. reflexivity. Qed.
(** Every parameter should be on the device reported. *)
Definition C246_claim : Prop := forall where_ ps d, get_module_device where_ ps = Ok d -> forall p, In p ps -> where_ p = d.
Theorem C246_one_device_refuted : ~ C246_claim.
Proof.
  intros H. specialize (H (fun p => if Nat.eqb p 0 then None else Some 0%nat) [0; 1]%nat None eq_refl 1%nat).
  discriminate H. right. left. reflexivity.
Qed.
Theorem C246_one_device_partial : forall where_ ps d, get_module_device where_ ps = Ok d ->
  exists p, hd_error ps = Some p /\ where_ p = d.
Proof. intros where_ [|p ps] d H; [discriminate H|]. apply Ok_inj in H. exists p. split; [reflexivity|exact H]. Qed.
Print Assumptions C243_level_of_a_name.
Print Assumptions C243_other_levels.
Print Assumptions C243_printed_once.
Print Assumptions C243_bad_level_agrees_refuted.
Print Assumptions C243_bad_level_agrees_partial.
Print Assumptions C243_set_log_level.
Print Assumptions C244_iterations_trained.
Print Assumptions C244_whole_epochs.
Print Assumptions C244_stops_at_refuted.
Print Assumptions C244_stops_at_partial.
Print Assumptions C245_registers_the_offered.
Print Assumptions C245_second_time_nothing.
Print Assumptions C245_never_fails_refuted.
Print Assumptions C245_never_fails_partial.
Print Assumptions C245_keeps_registry.
Print Assumptions C246_gradients.
Print Assumptions C246_device.
Print Assumptions C246_one_device_refuted.
Print Assumptions C246_one_device_partial.
