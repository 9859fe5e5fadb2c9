(** C39, C50, C51, C52, C54, C67-C71: loops, hooks and helpers of the engine. *)
From Coq Require Import Decimal DecimalString DecimalNat DecimalFacts Ascii Sorted.
From Verif Require Import Prelude Evolution_Model Evolution_Props Recorder_Model Distill_Props Engine_Model.
Open Scope Z_scope.

(** * C39: loaders of DARTS *)
Section C39.
  Variable B : Type.
  Lemma next_all_ok d : forall its, (forall l, In l its -> l <> []) -> next_all B its = (map (@tl B) its, Ok (map (hd d) its)).
  Proof.
    induction its as [|l r IH]; intros H; [reflexivity|]. destruct l as [|b t]; [exfalso; apply (H []); [left; reflexivity|reflexivity]|].
    cbn [next_all]. rewrite IH by (intros l Hl; apply H; right; exact Hl). reflexivity.
  Qed.
  Lemma next_all_stop : forall its, In [] its -> exists its', next_all B its = (its', Raise StopIteration) /\ In [] its'.
  Proof.
    induction its as [|l r IH]; intros H; [destruct H|]. destruct l as [|b t].
    - exists ([] :: r). split; [reflexivity|left; reflexivity].
    - destruct H as [H|H]; [discriminate|]. destruct (IH H) as (i & E & I). exists (t :: i). cbn [next_all]. rewrite E.
      split; [reflexivity|right; exact I].
  Qed.
  (** The shortest loader has [m] batches. *)
  Definition shortest (loaders : list (list B)) (m : nat) := (exists l, In l loaders /\ length l = m) /\ forall l, In l loaders -> (m <= length l)%nat.
  (** The [k]-th batches of all loaders. *)
  Definition tuple_at (d : B) (loaders : list (list B)) (k : nat) : list B := map (fun l => nth k l d) loaders.

  Lemma shortest_nonempty its m : shortest its (S m) -> forall l, In l its -> l <> [].
  Proof. intros [_ H] l Hl E. subst. specialize (H _ Hl). cbn in H. lia. Qed.
  Lemma shortest_tl its m : shortest its (S m) -> shortest (map (@tl B) its) m.
  Proof.
    intros [(l & Hl & E) H]. split.
    - exists (tl l). split; [apply in_map; exact Hl|]. destruct l; cbn in *; lia.
    - intros l' Hl'. apply in_map_iff in Hl'. destruct Hl' as (x & <- & Hx). specialize (H _ Hx). destruct x; cbn in *; lia.
  Qed.
  Lemma shortest_0 its : shortest its 0 -> In [] its.
  Proof. intros [(l & Hl & E) _]. destruct l; [exact Hl|discriminate]. Qed.
  Lemma tuple_0 d its : tuple_at d its 0 = map (hd d) its.
  Proof. unfold tuple_at. apply map_ext. intros [|]; reflexivity. Qed.
  Lemma tuple_S d its k : tuple_at d (map (@tl B) its) k = tuple_at d its (S k).
  Proof. unfold tuple_at. rewrite map_map. apply map_ext. intros [|x r]; [destruct k; reflexivity|reflexivity]. Qed.

  Lemma iter_run_gen d loaders : forall m n its x e, shortest its m ->
    iter_run B loaders n {| iter_loaders := its; iter_loader := x; m_epoch := e |}
      = (map (tuple_at d its) (seq 0 (Nat.min n m)), if (n <=? m)%nat then None else Some StopIteration).
  Proof.
    induction m as [|m IH]; intros n its x e H; (destruct n as [|n]; [reflexivity|]).
    - apply shortest_0 in H. destruct (next_all_stop _ H) as (i & E & I). destruct (next_all_stop _ I) as (i2 & E2 & _).
      cbn [iter_run]. unfold iter_next. cbn [iter_loaders]. rewrite E, E2. reflexivity.
    - cbn [iter_run]. unfold iter_next. cbn [iter_loaders]. rewrite (next_all_ok d) by (eapply shortest_nonempty; exact H).
      cbn [iter_loader m_epoch]. rewrite (IH n _ _ _ (shortest_tl _ _ H)).
      rewrite <- Nat.succ_min_distr. cbn [seq map]. rewrite tuple_0. f_equal. f_equal.
      rewrite <- seq_shift, map_map. apply map_ext. intros k. apply tuple_S.
  Qed.
  Lemma epoch_gen d : forall m fuel its, shortest its m -> (m < fuel)%nat -> epoch_loop B fuel its = map (tuple_at d its) (seq 0 m).
  Proof.
    induction m as [|m IH]; intros fuel its H F; (destruct fuel as [|f]; [lia|]); cbn [epoch_loop].
    - apply shortest_0 in H. destruct (next_all_stop _ H) as (i & E & I). rewrite E. reflexivity.
    - rewrite (next_all_ok d) by (eapply shortest_nonempty; exact H). rewrite (IH f _ (shortest_tl _ _ H)) by lia.
      cbn [seq map]. rewrite tuple_0. f_equal. rewrite <- seq_shift, map_map. apply map_ext. intros k. apply tuple_S.
  Qed.
End C39.

(** The full claim. *)
Definition C39_claim : Prop :=
  forall (B : Type) (loaders : list (list B)) (n : nat), (forall l, In l loaders -> l <> []) ->
    let '(delivered, e) := iter_run B loaders n (iter_init B loaders) in length delivered = n /\ e = None.
Theorem C39_restart_refuted : ~ C39_claim.
Proof.
  intros H. specialize (H nat [[1;2]; [3]]%nat 2%nat). cbn in H.
  destruct H as [_ H]; [|discriminate]. intros l [<-|[<-|[]]]; discriminate.
Qed.
(** Exactly: as many iterations as the shortest loader has batches, each with the next batch of
    every loader; one more raises StopIteration. *)
Theorem C39_one_pass_partial :
  forall (B : Type) (d : B) (loaders : list (list B)) (m n : nat), shortest B loaders m ->
    iter_run B loaders n (iter_init B loaders)
      = (map (tuple_at B d loaders) (seq 0 (Nat.min n m)), if (n <=? m)%nat then None else Some StopIteration).
Proof. intros. apply iter_run_gen. assumption. Qed.
Example C39_one_pass_ex :
  shortest nat [[1;2]; [3;4;5]]%nat 2 /\
  iter_run nat [[1;2]; [3;4;5]]%nat 3 (iter_init nat [[1;2]; [3;4;5]]%nat) = ([[1;3]; [2;4]]%nat, Some StopIteration).
Proof.
  split; [|reflexivity]. split.
  - exists [1;2]%nat. split; [left; reflexivity|reflexivity].
  - intros l [<-|[<-|[]]]; cbn; lia.
Qed.
(** The epoch-based loop trains on exactly the batches of the shortest loader. *)
Theorem C39_epoch :
  forall (B : Type) (d : B) (loaders : list (list B)) (m : nat), shortest B loaders m ->
    run_epoch B loaders = map (tuple_at B d loaders) (seq 0 m).
Proof.
  intros B d loaders m H. apply epoch_gen; [exact H|]. destruct H as [(l & Hl & <-) _].
  induction loaders as [|x r IH]; [destruct Hl|]. cbn [map fold_right]. destruct Hl as [->|Hl]; [lia|].
  specialize (IH Hl). lia.
Qed.
Example C39_epoch_ex : run_epoch nat [[1;2]; [3;4;5]]%nat = [[1;3]; [2;4]]%nat.
Proof. reflexivity. Qed.

(** * C50: building twice *)
Lemma cfg_ind2 (P : cfg -> Prop) : (forall p t r ns, Forall P ns -> P (Cfg p t r ns)) -> forall c, P c.
Proof.
  intros H. fix IH 1. intros [p t r ns]. apply H. induction ns as [|c ns IHn]; constructor; [apply IH|exact IHn].
Qed.
(** The object that a configuration describes if nothing asks for the bare architecture. *)
Fixpoint full (c : cfg) : built := match c with Cfg p t _ ns => if p && negb t then Hub else Razor (map full ns) end.
(** Nothing that is built from this configuration asks for the bare architecture. *)
Fixpoint unflagged (c : cfg) : Prop :=
  match c with
  | Cfg p t ret ns => p && negb t = true \/ (ret <> Some true /\ fold_right (fun c P => unflagged c /\ P) True ns)
  end.
Lemma unflagged_all ns : fold_right (fun c P => unflagged c /\ P) True ns <-> Forall unflagged ns.
Proof. induction ns as [|c r IH]; cbn; [split; [constructor|auto]|]. rewrite IH. split; [intros []; constructor; assumption|intros H; inversion H; auto]. Qed.
Lemma build_unflagged c : unflagged c -> build c = (full c, c).
Proof.
  induction c as [p t r ns IH] using cfg_ind2. cbn [unflagged build full]. intros [E|[E H]]; [rewrite E; reflexivity|].
  destruct (p && negb t); [reflexivity|].
  apply unflagged_all in H.
  assert (M : map build ns = map (fun c => (full c, c)) ns).
  { clear E. induction ns as [|c ns IHn]; [reflexivity|]. inversion IH; inversion H; subst. cbn [map]. rewrite IHn by assumption. f_equal. auto. }
  rewrite M, !map_map. cbn [fst snd]. rewrite map_id.
  destruct r as [[|]|]; [congruence|reflexivity|reflexivity].
Qed.
Lemma build_clears c : unflagged (snd (build c)) /\ full (snd (build c)) = full c.
Proof.
  induction c as [p t r ns IH] using cfg_ind2. cbn [build]. destruct (p && negb t) eqn:E; cbn [snd].
  - cbn [unflagged full]. rewrite E. auto.
  - cbn [unflagged full]. rewrite E. rewrite !map_map.
    assert (M : map (fun x => full (snd (build x))) ns = map full ns).
    { apply map_ext_in. intros c Hc. rewrite Forall_forall in IH. apply IH. exact Hc. }
    rewrite M. split; [|reflexivity]. right. split.
    + destruct r as [[|]|]; discriminate.
    + apply unflagged_all. apply Forall_forall. intros c Hc. apply in_map_iff in Hc. destruct Hc as (x & <- & Hx).
      rewrite Forall_forall in IH. apply IH. exact Hx.
Qed.
(** The full claim. *)
Definition C50_claim : Prop := forall c n, build_again n c = build_again 0 c.
Theorem C50_consumed_refuted : ~ C50_claim.
Proof. intros H. specialize (H (Cfg false true (Some true) []) 1%nat). discriminate H. Qed.
(** Configurations that never ask for the bare architecture can be built any number of times. *)
Theorem C50_unflagged_partial : forall c n, unflagged c -> build_again n c = full c /\ snd (build c) = c.
Proof.
  intros c n H. pose proof (build_unflagged _ H) as E. rewrite E. split; [|reflexivity].
  induction n as [|n IH]; cbn [build_again]; rewrite E; [reflexivity|exact IH].
Qed.
Example C50_unflagged_ex : unflagged (Cfg false true (Some false) [Cfg true false None []]) /\
  build_again 3 (Cfg false true (Some false) [Cfg true false None []]) = Razor [Hub].
Proof. split; [|reflexivity]. cbn. right. split; [discriminate|]. auto. Qed.
(** From the second build on, the whole algorithm is returned whatever the configuration asked
    for. *)
Theorem C50_second_build : forall c n, (1 <= n)%nat -> build_again n c = full c.
Proof.
  intros c n H. destruct n as [|n]; [lia|]. cbn [build_again]. destruct (build_clears c) as [U F].
  rewrite <- F. apply (C50_unflagged_partial _ n U).
Qed.
Example C50_second_ex :
  let c := Cfg false true None [Cfg false true (Some true) [Cfg false true None []]] in
  build_again 0 c = Razor [Arch [Razor []]] /\ build_again 1 c = Razor [Razor [Razor []]].
Proof. split; reflexivity. Qed.

(** * C51: dumped subnets *)
(** When a subnet is due after step [i]. *)
Definition due (c : dump_cfg) (last i : Z) : Prop :=
  (0 < interval c /\ (interval c | i)) \/ (save_last c = true /\ i = last).
Lemma dump_now_due c last i : dump_now c last i = true <-> due c last i.
Proof.
  unfold dump_now, every_n, due. rewrite Bool.orb_true_iff, Bool.andb_true_iff, Z.eqb_eq.
  destruct (Z.gtb_spec (interval c) 0) as [H|H].
  - rewrite Z.eqb_eq. rewrite Z.mod_divide by lia. intuition lia.
  - intuition (try discriminate; lia).
Qed.
Lemma dump_run_gen c ep last : forall n from files,
  (Sorted Z.lt files /\ forall x, In x files -> x < from) ->
  let r := dump_run c ep last from n files in
  Sorted Z.lt r /\ forall i, In i r <-> In i files \/ (by_epoch c = ep /\ from <= i < from + Z.of_nat n /\ due c last i).
Proof.
  induction n as [|n IH]; intros from files [S0 B0]; cbn [dump_run].
  - split; [exact S0|]. intros i. split; [auto|]. intros [H|H]; [exact H|lia].
  - set (f := after_step c ep last from files).
    assert (F : Sorted Z.lt f /\ (forall x, In x f <-> In x files \/ (by_epoch c = ep /\ x = from /\ due c last from))).
    { unfold f, after_step. destruct (Bool.eqb (by_epoch c) ep) eqn:E.
      - apply Bool.eqb_prop in E. destruct (dump_now c last from) eqn:D.
        + apply dump_now_due in D. split.
          * clear -S0 B0. induction files as [|a l IHl]; [constructor; constructor|]. cbn [app]. inversion S0; subst. constructor.
            -- apply IHl; [assumption|]. intros x Hx. apply B0. right. exact Hx.
            -- destruct l as [|b l]; cbn [app]; constructor; [apply B0; left; reflexivity|inversion H2; assumption].
          * intros x. rewrite in_app_iff. cbn [In]. intuition congruence.
        + split; [exact S0|]. intros x. split; [auto|]. intros [H|(_ & _ & H)]; [exact H|]. apply dump_now_due in H. congruence.
      - apply Bool.eqb_false_iff in E. split; [exact S0|]. intuition congruence. }
    destruct F as [FS FI]. destruct (IH (from + 1) f) as [RS RI].
    { split; [exact FS|]. intros x Hx. apply FI in Hx. destruct Hx as [Hx|(_ & -> & _)]; [apply B0 in Hx; lia|lia]. }
    split; [exact RS|]. intros i. rewrite RI, FI. split.
    + intros [[H|(H1 & -> & H2)]|(H1 & H2 & H3)]; [auto|right; repeat split; auto; lia|right; repeat split; auto; lia].
    + intros [H|(H1 & H2 & H3)]; [auto|]. destruct (Z.eq_dec i from) as [->|N]; [auto|]. right. repeat split; auto; lia.
Qed.
(** Full claim: at most max_keep_subnets files are kept, unless it is -1. *)
Definition C51_claim : Prop :=
  forall c last n, 0 <= max_keep_subnets c -> Z.of_nat (length (dump_run c (by_epoch c) last 1 n [])) <= max_keep_subnets c.
Theorem C51_limit_refuted : ~ C51_claim.
Proof.
  intros H. specialize (H {| interval := 1; by_epoch := true; max_keep_subnets := 2; save_last := true |} 3 3%nat). cbn in H. lia.
Qed.
(** All subnets that were due are kept, whatever the limit; in particular this is what
    max_keep_subnets = -1 promises.  The files are listed in the order in which they were
    written, each once; a hook counting epochs writes none after iterations and vice versa. *)
Theorem C51_keeps_all_partial :
  forall c ep last n, let r := dump_run c ep last 1 n [] in
    Sorted Z.lt r /\ forall i, In i r <-> by_epoch c = ep /\ 1 <= i <= Z.of_nat n /\ due c last i.
Proof.
  intros c ep last n. destruct (dump_run_gen c ep last n 1 []) as [S I]; [split; [constructor|intros x []]|].
  split; [exact S|]. intros i. rewrite I. cbn [In]. intuition lia.
Qed.
Example C51_keeps_all_ex : dump_run {| interval := 2; by_epoch := true; max_keep_subnets := 1; save_last := true |} true 5 1 5 [] = [2; 4; 5]
  /\ dump_run {| interval := 2; by_epoch := true; max_keep_subnets := 1; save_last := true |} false 5 1 5 [] = [].
Proof. split; reflexivity. Qed.

(** * C52: resuming LSQ training *)
Section C52.
  Variables (B : Type) (estimate : B -> Q) (learn : Q -> B -> Q) (clamp : Q -> Q).
  Notation run := (lsq_run B estimate learn clamp).
  Definition learned (s : Q) (batches : list B) : Q := fold_left (fun s b => learn (clamp s) b) batches s.
  Lemma lsq_iters : forall batches f, static_enabled f = false -> learning_enabled f = true ->
    let r := fold_left (lsq_iter B estimate learn clamp) batches (f, false) in
    scale (fst r) = learned (scale f) batches /\ snd r = false /\ static_enabled (fst r) = false /\ learning_enabled (fst r) = true.
  Proof.
    induction batches as [|b r IH]; intros f S L; [cbn; auto|]. cbn [fold_left lsq_iter learned].
    destruct (IH (train_iter B estimate learn clamp f b)) as (H1 & H2 & H3 & H4); [exact S|exact L|].
    split; [|auto]. rewrite H1. unfold train_iter. cbn [scale]. rewrite S, L. reflexivity.
  Qed.
  Lemma lsq_epochs : forall epochs f,
    scale (fst (run (f, false) epochs)) = learned (scale f) (concat epochs) /\ snd (run (f, false) epochs) = false.
  Proof.
    induction epochs as [|e r IH]; intros f; [cbn; auto|]. unfold lsq_run in *. cbn [fold_left concat]. unfold lsq_epoch at 2 4. cbn [fst snd].
    destruct (lsq_iters e (enable_param_learning f)) as (H1 & H2 & _); [reflexivity|reflexivity|].
    destruct (fold_left (lsq_iter B estimate learn clamp) e (enable_param_learning f, false)) as [g b]. cbn [fst snd] in H1, H2. subst b.
    destruct (IH (enable_val g)) as [I1 I2]. split; [|exact I2]. rewrite I1. unfold learned. rewrite fold_left_app.
    cbn [enable_val scale]. rewrite H1. reflexivity.
  Qed.
  Lemma lsq_first : forall epochs f b rest, concat epochs = b :: rest ->
    scale (fst (run (f, true) epochs)) = learned (estimate b) rest /\ snd (run (f, true) epochs) = false.
  Proof.
    induction epochs as [|e r IH]; intros f b rest E; [discriminate|]. unfold lsq_run in *. cbn [fold_left]. cbn [concat] in E.
    destruct e as [|b0 e].
    - unfold lsq_epoch at 2 4. cbn [fold_left fst snd]. apply IH. exact E.
    - cbn [app] in E. injection E as -> <-. unfold lsq_epoch at 2 4. cbn [fst snd fold_left lsq_iter].
      destruct (lsq_iters e (enable_param_learning (train_iter B estimate learn clamp (enable_static_estimate (enable_param_learning f)) b))) as (H1 & H2 & _); [reflexivity|reflexivity|].
      destruct (fold_left (lsq_iter B estimate learn clamp) e _) as [g g2]. cbn [fst snd] in H1, H2. subst g2.
      destruct (lsq_epochs r (enable_val g)) as [I1 I2]. unfold lsq_run in *. split; [|exact I2]. rewrite I1.
      cbn [enable_val scale]. rewrite H1. unfold learned. rewrite fold_left_app. reflexivity.
  Qed.
End C52.
(** The full claim: a run that is interrupted after the epochs [done] and resumed from the
    checkpoint ends with the scale of the uninterrupted run. *)
Definition C52_claim : Prop :=
  forall (B : Type) (estimate : B -> Q) (learn : Q -> B -> Q) (clamp : Q -> Q) (f : fake_quant) (done todo : list (list B)),
    let checkpoint := fst (lsq_run B estimate learn clamp (f, true) done) in
    (scale (fst (lsq_run B estimate learn clamp (lsq_resume checkpoint) todo))
      == scale (fst (lsq_run B estimate learn clamp (f, true) (done ++ todo))))%Q.
Definition fq0 : fake_quant := {| scale := 1; static_enabled := true; learning_enabled := false; fq_enabled := true |}.
Theorem C52_resume_refuted : ~ C52_claim.
Proof.
  intros H. specialize (H Q (fun b => b) (fun s b => s + 1)%Q (fun s => s) fq0 [[1; 1]]%Q [[1; 1]]%Q). vm_compute in H. discriminate H.
Qed.
(** A resumed run throws the scale of the checkpoint away: whatever was learned, it continues
    from the estimate on its first batch. *)
Theorem C52_resume_forgets :
  forall (B : Type) (estimate : B -> Q) (learn : Q -> B -> Q) (clamp : Q -> Q) (checkpoint : fake_quant) (todo : list (list B)) b rest,
    concat todo = b :: rest ->
    scale (fst (lsq_run B estimate learn clamp (lsq_resume checkpoint) todo)) = fold_left (fun s b => learn (clamp s) b) rest (estimate b).
Proof. intros. apply lsq_first. assumption. Qed.
(** Without an interruption, the scale is estimated on the first batch of the first non-empty
    epoch and learned on every later batch. *)
Theorem C52_uninterrupted_partial :
  forall (B : Type) (estimate : B -> Q) (learn : Q -> B -> Q) (clamp : Q -> Q) (f : fake_quant) (epochs more : list (list B)) b rest,
    concat epochs = b :: rest ->
    scale (fst (lsq_run B estimate learn clamp (f, true) (epochs ++ more)))
      = fold_left (fun s b => learn (clamp s) b) (rest ++ concat more) (estimate b).
Proof.
  intros B estimate learn clamp f epochs more b rest E. apply lsq_first. rewrite concat_app, E. reflexivity.
Qed.
Example C52_ex :
  concat [[]; [1; 3]]%Q = 1%Q :: [3%Q] /\
  scale (fst (lsq_run Q (fun b => b) (fun s b => s + b)%Q (fun s => s) (fq0, true) ([[]; [1; 3]] ++ [[5]])%Q)) = (1 + 3 + 5)%Q /\
  scale (fst (lsq_run Q (fun b => b) (fun s b => s + b)%Q (fun s => s) (lsq_resume (fst (lsq_run Q (fun b => b) (fun s b => s + b)%Q (fun s => s) (fq0, true) [[1; 3]]%Q))) [[5]]%Q)) = 5%Q.
Proof. repeat split; reflexivity. Qed.

(** * C68: quantization-aware training *)
Lemma qat_run_spec dob fbb : forall n epoch m e m1 m2, In (e, m1, m2) (qat_run dob fbb epoch n m) ->
  epoch <= e < epoch + Z.of_nat n /\
  q_fake_quant m1 = true /\ q_fake_quant m2 = true /\ q_observer m2 = false /\ q_bn_frozen m2 = q_bn_frozen m1 /\
  (q_observer m1 = true <-> ~ (0 < dob <= e + 1)) /\
  (q_bn_frozen m1 = true <-> q_bn_frozen m = true \/ 0 < fbb <= e + 1).
Proof.
  induction n as [|n IH]; intros epoch m e m1 m2 H; [destruct H|]. cbn [qat_run] in H. destruct H as [H|H].
  - injection H as <- <- <-. unfold prepare_for_val, prepare_for_run_epoch. cbn [q_fake_quant q_observer q_bn_frozen].
    split; [lia|]. split; [reflexivity|]. split; [reflexivity|]. split; [reflexivity|]. split; [reflexivity|]. split.
    + destruct (Z.gtb_spec dob 0); destruct (Z.geb_spec (epoch + 1) dob); cbn; intuition (try discriminate; lia).
    + destruct (Z.gtb_spec fbb 0); destruct (Z.geb_spec (epoch + 1) fbb); cbn; intuition (try discriminate; lia).
  - apply IH in H. cbn [prepare_for_val prepare_for_run_epoch q_bn_frozen] in H.
    destruct H as (H1 & H2 & H3 & H4 & H5 & H6 & H7). split; [lia|]. split; [exact H2|]. split; [exact H3|]. split; [exact H4|]. split; [exact H5|].
    split; [exact H6|]. rewrite H7.
    destruct (Z.gtb_spec fbb 0); destruct (Z.geb_spec (epoch + 1) fbb); cbn; intuition (try discriminate; lia).
Qed.
(** In the epoch numbered [e] (from 0): fake quantization is on; observers are on unless
    disable_observer_begin is positive and reached; batch norm is frozen from freeze_bn_begin on.
    After the epoch, when checkpoints are written and validation runs, observers are off. *)
Theorem C68_switches :
  forall dob fbb n e m1 m2 m, q_bn_frozen m = false -> In (e, m1, m2) (qat_run dob fbb 0 n m) ->
    0 <= e < Z.of_nat n /\
    q_fake_quant m1 = true /\ q_fake_quant m2 = true /\ q_observer m2 = false /\ q_bn_frozen m2 = q_bn_frozen m1 /\
    (q_observer m1 = true <-> ~ (0 < dob <= e + 1)) /\ (q_bn_frozen m1 = true <-> 0 < fbb <= e + 1).
Proof.
  intros dob fbb n e m1 m2 m F H. apply qat_run_spec in H. rewrite F in H. intuition (try discriminate; lia).
Qed.
Lemma qat_run_ext dob fbb epoch n m m' :
  (q_bn_frozen m = q_bn_frozen m' \/ 0 < fbb <= epoch + 1) -> qat_run dob fbb epoch n m = qat_run dob fbb epoch n m'.
Proof.
  intros H. destruct n as [|n]; [reflexivity|]. cbn [qat_run].
  assert (E : prepare_for_run_epoch dob fbb epoch m = prepare_for_run_epoch dob fbb epoch m').
  { unfold prepare_for_run_epoch. f_equal. destruct H as [->|H]; [reflexivity|].
    destruct (Z.gtb_spec fbb 0); [|lia]. destruct (Z.geb_spec (epoch + 1) fbb); [reflexivity|lia]. }
  rewrite E. reflexivity.
Qed.
Lemma qat_run_skip dob fbb : forall k n epoch m, q_bn_frozen m = false ->
  skipn k (qat_run dob fbb epoch (k + n) m) = qat_run dob fbb (epoch + Z.of_nat k) n m.
Proof.
  assert (G : forall k n epoch m m', q_bn_frozen m' = false -> (q_bn_frozen m = false \/ 0 < fbb <= epoch + 1) ->
    skipn k (qat_run dob fbb epoch (k + n) m) = qat_run dob fbb (epoch + Z.of_nat k) n m').
  { induction k as [|k IH]; intros n epoch m m' F H.
    - cbn [skipn Nat.add]. rewrite Z.add_0_r. apply qat_run_ext. rewrite F. exact H.
    - cbn [Nat.add qat_run skipn]. rewrite (IH n _ _ m' F).
      + f_equal. lia.
      + cbn [prepare_for_val prepare_for_run_epoch q_bn_frozen].
        destruct (Z.gtb_spec fbb 0); destruct (Z.geb_spec (epoch + 1) fbb); cbn; destruct H; auto; right; lia. }
  intros k n epoch m F. apply G; auto.
Qed.
(** Resuming at any epoch with a freshly built model sets the same switches as the
    uninterrupted run. *)
Theorem C68_resume :
  forall dob fbb k n m, q_bn_frozen m = false -> skipn k (qat_run dob fbb 0 (k + n) m) = qat_run dob fbb (Z.of_nat k) n m.
Proof. intros dob fbb k n m F. apply (qat_run_skip dob fbb k n 0 m F). Qed.
Example C68_ex :
  map (fun x => (q_observer (snd (fst x)), q_bn_frozen (snd (fst x)), q_observer (snd x)))
      (qat_run 2 3 0 3 {| q_fake_quant := true; q_observer := true; q_bn_frozen := false |})
  = [(true, false, false); (false, false, false); (false, true, false)].
Proof. reflexivity. Qed.

(** * C69: post-training quantization *)
Lemma take_until_spec B : forall (l : list B) steps idx, 0 <= idx ->
  take_until B steps idx l = if steps <? idx then l else firstn (Z.to_nat (steps - idx)) l.
Proof.
  induction l as [|b r IH]; intros steps idx H; cbn [take_until].
  - destruct (steps <? idx); [reflexivity|]. rewrite firstn_nil. reflexivity.
  - destruct (Z.eqb_spec idx steps) as [->|N].
    + rewrite Z.sub_diag, Z.ltb_irrefl. reflexivity.
    + rewrite IH by lia. destruct (Z.ltb_spec steps (idx + 1)); destruct (Z.ltb_spec steps idx); try lia; [reflexivity|].
      replace (Z.to_nat (steps - idx)) with (S (Z.to_nat (steps - (idx + 1)))) by lia. reflexivity.
Qed.
(** Observers see exactly the first calibrate_steps calibration batches (all of them if there
    are fewer or if the number is negative), none if only_val; every evaluation batch is
    evaluated once, with fake quantization on. *)
Theorem C69_calibration :
  forall (B : Type) only_val steps (calibration evaluation : list B),
    let r := ptq_run B only_val steps calibration evaluation in
    map (p_batch B) (filter (p_observer B) r)
      = (if only_val then [] else if steps <? 0 then calibration else firstn (Z.to_nat steps) calibration) /\
    map (p_batch B) (filter (fun p => negb (calibrate B p)) r) = evaluation /\
    forall p, In p r -> p_fake_quant B p = true /\ p_observer B p = calibrate B p.
Proof.
  intros B only_val steps calibration evaluation. cbn zeta. unfold ptq_run.
  assert (F : forall c fq ob l, map (p_batch B) (filter (p_observer B) (passes B c fq ob l)) = if ob then l else []).
  { intros c fq ob l. unfold passes. induction l as [|b r IH]; cbn; [destruct ob; reflexivity|]. destruct ob; cbn; [rewrite IH; reflexivity|exact IH]. }
  assert (G : forall c fq ob l, map (p_batch B) (filter (fun p => negb (calibrate B p)) (passes B c fq ob l)) = if c then [] else l).
  { intros c fq ob l. unfold passes. induction l as [|b r IH]; cbn; [destruct c; reflexivity|]. destruct c; cbn; [exact IH|rewrite IH; reflexivity]. }
  assert (E : forall steps, take_until B steps 0 calibration = if steps <? 0 then calibration else firstn (Z.to_nat steps) calibration).
  { intros s. rewrite take_until_spec by lia. rewrite Z.sub_0_r. reflexivity. }
  split; [|split].
  - rewrite filter_app, map_app, F, app_nil_r. destruct only_val; [reflexivity|]. rewrite F, E. reflexivity.
  - rewrite filter_app, map_app, G. destruct only_val; [reflexivity|]. rewrite G. reflexivity.
  - intros p H. apply in_app_or in H.
    assert (P : forall c fq ob l, In p (passes B c fq ob l) -> p_fake_quant B p = fq /\ p_observer B p = ob /\ calibrate B p = c).
    { intros c fq ob l I. apply in_map_iff in I. destruct I as (b & <- & _). auto. }
    destruct H as [H|H]; [destruct only_val; [destruct H|]|]; apply P in H; intuition congruence.
Qed.
Example C69_ex : map (p_batch nat) (filter (p_observer nat) (ptq_run nat false 2 [1;2;3]%nat [7;8]%nat)) = [1;2]%nat.
Proof. reflexivity. Qed.

(** * C70: metrics of quantized models *)
Lemma prefixed_get p m k : NoDup (map fst m) -> dget (prefixed p m) (p ++ k) = dget m k.
Proof.
  intros H. unfold prefixed. rewrite dupdate_get.
  - cbn [dget]. induction m as [|[k0 v] r IH]; [reflexivity|]. cbn [map dget fst snd]. inversion H; subst.
    destruct (String.eqb_spec k0 k) as [->|N].
    + rewrite String.eqb_refl. reflexivity.
    + destruct (String.eqb_spec (p ++ k0) (p ++ k)) as [E|_]; [apply append_inj in E; contradiction|]. apply IH. assumption.
  - rewrite map_map. cbn [fst]. rewrite <- (map_map fst (append p)). apply FinFun.Injective_map_NoDup; [|exact H].
    intros a b. apply append_inj.
Qed.
(** Full claim: run() returns the metrics of the quantized model (which PTQLoop hands to its
    own hooks and returns). *)
Definition C70_claim : Prop :=
  forall quantized original k v, dget quantized k = Some v -> dget (snd (qat_val quantized original)) ("qat." ++ k) = Some v.
Theorem C70_returned_refuted : ~ C70_claim.
Proof. intros H. specialize (H [("acc", "0.5")]%string [("acc", "0.9")]%string "acc"%string _ eq_refl). discriminate H. Qed.
(** The validation hooks get both; the returned dictionary is that of the original model. *)
Theorem C70_hooks_partial :
  forall quantized original, NoDup (map fst quantized) -> NoDup (map fst original) ->
    exists q o, qat_val quantized original = ([q; o], o) /\
      (forall k, dget q ("qat." ++ k) = dget quantized k) /\ (forall k, dget o ("original." ++ k) = dget original k).
Proof.
  intros q o Hq Ho. exists (prefixed "qat." q), (prefixed "original." o). split; [reflexivity|]. split; intros k; apply prefixed_get; assumption.
Qed.
Example C70_ex : qat_val [("acc", "0.5")]%string [("acc", "0.9")]%string = ([[("qat.acc", "0.5")]; [("original.acc", "0.9")]], [("original.acc", "0.9")])%string.
Proof. reflexivity. Qed.

(** * C71: metrics of several subnets *)
Fixpoint no_char (a : ascii) (s : string) : Prop := match s with EmptyString => True | String c r => c <> a /\ no_char a r end.
Lemma dot_inj : forall p q a b, no_char "." p -> no_char "." q -> (p ++ "." ++ a = q ++ "." ++ b)%string -> p = q /\ a = b.
Proof.
  induction p as [|c p IH]; intros [|c' q] a b Hp Hq E; cbn in *.
  - injection E as E. auto.
  - injection E as E _. destruct Hq. congruence.
  - injection E as E _. destruct Hp. congruence.
  - injection E as -> E. destruct (IH q a b) as [-> ->]; [apply Hp|apply Hq|exact E|auto].
Qed.
Lemma no_char_app a s t : no_char a (s ++ t) <-> no_char a s /\ no_char a t.
Proof. induction s as [|c r IH]; cbn; [tauto|]. rewrite IH. tauto. Qed.
Lemma digits_no_char a : (forall n, (n < 10)%nat -> a <> ascii_of_nat (48 + n)) -> forall u, no_char a (NilEmpty.string_of_uint u).
Proof.
  intros H. induction u; cbn [NilEmpty.string_of_uint no_char]; try exact I; (split; [|assumption]); intros E.
  - apply (H 0%nat); [lia|symmetry; exact E].
  - apply (H 1%nat); [lia|symmetry; exact E].
  - apply (H 2%nat); [lia|symmetry; exact E].
  - apply (H 3%nat); [lia|symmetry; exact E].
  - apply (H 4%nat); [lia|symmetry; exact E].
  - apply (H 5%nat); [lia|symmetry; exact E].
  - apply (H 6%nat); [lia|symmetry; exact E].
  - apply (H 7%nat); [lia|symmetry; exact E].
  - apply (H 8%nat); [lia|symmetry; exact E].
  - apply (H 9%nat); [lia|symmetry; exact E].
Qed.
Lemma digits_no_char0 a : (forall n, (n < 10)%nat -> a <> ascii_of_nat (48 + n)) -> forall u, no_char a (NilZero.string_of_uint u).
Proof.
  intros H u. destruct u; [cbn; split; [intros E; apply (H 0%nat); [lia|symmetry; exact E]|exact I]|..]; apply (digits_no_char a H).
Qed.
Lemma not_digit a : (nat_of_ascii a < 48 \/ 58 <= nat_of_ascii a)%nat -> forall n, (n < 10)%nat -> a <> ascii_of_nat (48 + n).
Proof. intros H n Hn E. subst. rewrite nat_ascii_embedding in H by lia. lia. Qed.
Lemma decimal_inj i j : decimal i = decimal j -> i = j.
Proof.
  unfold decimal. intros E.
  assert (P : forall n, NilZero.uint_of_string (NilZero.string_of_uint (Nat.to_uint n)) = Some (Nat.to_uint n)).
  { intros n. apply NilZero.usu. rewrite <- (Unsigned.of_to n), Unsigned.to_of. apply DecimalFacts.unorm_nonnil. }
  pose proof (P i) as Pi. rewrite E, P in Pi. injection Pi as Pi. apply Unsigned.to_uint_inj. symmetry. exact Pi.
Qed.
Lemma decimal_dot n : no_char "." (decimal n).
Proof. apply digits_no_char0. apply not_digit. left. apply Nat.ltb_lt. reflexivity. Qed.
(** An update with the metrics under a prefix only changes the keys with this prefix. *)
Lemma update_prefix acc p m k : NoDup (map fst m) -> dget (dupdate acc (add_prefix p m)) (p ++ "." ++ k) = match dget m k with Some v => Some v | None => dget acc (p ++ "." ++ k)%string end.
Proof. intros H. rewrite dupdate_get by (apply prefix_nodup; exact H). rewrite prefix_get. reflexivity. Qed.
Lemma update_prefix_other acc p m k : NoDup (map fst m) -> (forall a, k <> (p ++ "." ++ a)%string) -> dget (dupdate acc (add_prefix p m)) k = dget acc k.
Proof. intros H N. rewrite dupdate_get by (apply prefix_nodup; exact H). rewrite prefix_get_other by exact N. reflexivity. Qed.

Section C71.
  Variable C : Type.
  Variable evaluate : C -> subnet.
  Hypothesis keys : forall c, NoDup (map fst (evaluate c)).
  Definition subnet_key (i : nat) (k : string) : string := (("subnet_" ++ decimal i) ++ "." ++ k)%string.
  Lemma subnet_dot i : no_char "." ("subnet_" ++ decimal i).
  Proof. apply no_char_app. split; [cbn; repeat split; discriminate|apply decimal_dot]. Qed.
  Lemma subnet_key_inj i j a b : subnet_key i a = subnet_key j b -> i = j /\ a = b.
  Proof.
    intros E. apply dot_inj in E; [|apply subnet_dot|apply subnet_dot]. destruct E as [E ->].
    apply append_inj in E. apply decimal_inj in E. auto.
  Qed.
  Lemma slimmable_gen : forall l i acc,
    (forall j k, (j < i)%nat -> dget (slimmable_from C evaluate i l acc) (subnet_key j k) = dget acc (subnet_key j k)) /\
    ((forall j k, (i <= j)%nat -> dget acc (subnet_key j k) = None) ->
     forall j k, (i <= j)%nat -> dget (slimmable_from C evaluate i l acc) (subnet_key j k) = match nth_error l (j - i) with Some c => dget (evaluate c) k | None => None end) /\
    (forall key, (forall j k, key <> subnet_key j k) -> dget (slimmable_from C evaluate i l acc) key = dget acc key).
  Proof.
    induction l as [|c r IH]; intros i acc; cbn [slimmable_from].
    - split; [auto|]. split; [|auto]. intros H j k L. rewrite H by exact L. destruct (j - i)%nat; reflexivity.
    - destruct (IH (1 + i)%nat (dupdate acc (add_prefix ("subnet_" ++ decimal i) (evaluate c)))) as (H1 & H2 & H3). split; [|split].
      + intros j k L. rewrite H1 by lia. apply update_prefix_other; [apply keys|]. intros a E. apply (subnet_key_inj j i) in E. lia.
      + intros N j k L. destruct (Nat.eq_dec j i) as [->|D].
        * rewrite H1 by lia. rewrite Nat.sub_diag. cbn [nth_error]. unfold subnet_key. rewrite update_prefix by apply keys.
          pose proof (N i k (le_n i)) as Ni. unfold subnet_key in Ni. rewrite Ni. destruct (dget (evaluate c) k); reflexivity.
        * rewrite H2.
          -- replace (j - i)%nat with (S (j - (1 + i)))%nat by lia. reflexivity.
          -- intros j' k' L'. rewrite update_prefix_other; [apply N; lia|apply keys|]. intros a E. apply (subnet_key_inj j' i) in E. lia.
          -- lia.
      + intros key N. rewrite H3 by exact N. apply update_prefix_other; [apply keys|]. intros a. apply (N i a).
  Qed.
End C71.
(** The validation of a slimmable network reports, for every subnet number [i] and every metric
    [k], the value of that subnet under subnet_<i>.<k>, and nothing else. *)
Theorem C71_slimmable :
  forall (C : Type) (evaluate : C -> subnet) (subnets : list C), (forall c, NoDup (map fst (evaluate c))) ->
    (forall i k, dget (slimmable_val C evaluate subnets) (("subnet_" ++ decimal i) ++ "." ++ k)
       = match nth_error subnets i with Some c => dget (evaluate c) k | None => None end) /\
    (forall key, (forall i k, key <> (("subnet_" ++ decimal i) ++ "." ++ k)%string) -> dget (slimmable_val C evaluate subnets) key = None).
Proof.
  intros C evaluate subnets K. destruct (slimmable_gen C evaluate K subnets 0 []) as (_ & H2 & H3). split.
  - intros i k. pose proof (H2 (fun _ _ _ => eq_refl) i k (Nat.le_0_l i)) as E. rewrite Nat.sub_0_r in E. exact E.
  - intros key N. apply (H3 key N).
Qed.
Example C71_slimmable_ex :
  slimmable_val nat (fun c => [("acc", decimal c)]%string) [7; 42]%nat = [("subnet_0.acc", "7"); ("subnet_1.acc", "42")]%string.
Proof. reflexivity. Qed.
(** Metrics of the subnets of the given kinds: max, min, and the kinds that contain "random"
    are reported under <kind>_subnet.<metric>; other kinds are silently skipped. *)
Definition subnet_of (C : Type) (max_choice min_choice : C) (sample : nat -> C) (i : nat) (kind : string) : option C :=
  if String.eqb kind "max" then Some max_choice else if String.eqb kind "min" then Some min_choice
  else if contains "random" kind then Some (sample i) else None.
Lemma str_app_length : forall s t, String.length (s ++ t) = (String.length s + String.length t)%nat.
Proof. induction s as [|c r IH]; intros t; cbn; [reflexivity|]. rewrite IH. reflexivity. Qed.
Lemma append_inj_r : forall a b s, (a ++ s = b ++ s)%string -> a = b.
Proof.
  induction a as [|c r IH]; intros [|c' r'] s E; [reflexivity|..].
  - apply (f_equal String.length) in E. rewrite str_app_length in E. cbn in E. rewrite ?str_app_length in E. lia.
  - apply (f_equal String.length) in E. rewrite str_app_length in E. cbn in E. rewrite ?str_app_length in E. lia.
  - cbn in E. injection E as -> E. f_equal. eapply IH. exact E.
Qed.
Definition kind_key (kind k : string) : string := ((kind ++ "_subnet") ++ "." ++ k)%string.
Lemma kind_key_inj k1 k2 a b : no_char "." k1 -> no_char "." k2 -> kind_key k1 a = kind_key k2 b -> k1 = k2 /\ a = b.
Proof.
  intros N1 N2 E. apply dot_inj in E.
  - destruct E as [E ->]. apply append_inj_r in E. auto.
  - apply no_char_app. split; [exact N1|cbn; repeat split; discriminate].
  - apply no_char_app. split; [exact N2|cbn; repeat split; discriminate].
Qed.
Lemma subnet_step C (evaluate : C -> subnet) mx mn sample i k r acc :
  subnet_from C evaluate mx mn sample i (k :: r) acc
  = subnet_from C evaluate mx mn sample (1 + i) r
      (match subnet_of C mx mn sample i k with Some c => dupdate acc (add_prefix (k ++ "_subnet") (evaluate c)) | None => acc end).
Proof.
  cbn [subnet_from]. unfold subnet_of. f_equal.
  destruct (String.eqb_spec k "max") as [->|_]; [reflexivity|]. destruct (String.eqb_spec k "min") as [->|_]; [reflexivity|].
  destruct (contains "random" k); reflexivity.
Qed.
Lemma subnet_gen C (evaluate : C -> subnet) mx mn sample : (forall c, NoDup (map fst (evaluate c))) ->
  forall kinds i acc, Forall (no_char ".") kinds -> NoDup kinds ->
  (forall kind k, no_char "." kind -> ~ In kind kinds -> dget (subnet_from C evaluate mx mn sample i kinds acc) (kind_key kind k) = dget acc (kind_key kind k)) /\
  ((forall kind k, In kind kinds -> dget acc (kind_key kind k) = None) ->
   forall n kind k, nth_error kinds n = Some kind ->
     dget (subnet_from C evaluate mx mn sample i kinds acc) (kind_key kind k)
       = match subnet_of C mx mn sample (i + n) kind with Some c => dget (evaluate c) k | None => None end).
Proof.
  intros K. induction kinds as [|k0 r IH]; intros i acc F ND.
  - split; [reflexivity|]. intros _ [|n] kind k E; discriminate.
  - rewrite subnet_step. inversion F; subst. inversion ND; subst.
    set (acc' := match subnet_of C mx mn sample i k0 with Some c => dupdate acc (add_prefix (k0 ++ "_subnet") (evaluate c)) | None => acc end).
    assert (A : forall kind k, no_char "." kind -> kind <> k0 -> dget acc' (kind_key kind k) = dget acc (kind_key kind k)).
    { intros kind k Nk D. unfold acc'. destruct (subnet_of C mx mn sample i k0) as [c|]; [|reflexivity].
      apply update_prefix_other; [apply K|]. intros a E. apply (kind_key_inj kind k0) in E; [|assumption|assumption]. intuition congruence. }
    destruct (IH (1 + i)%nat acc') as [I1 I2]; [assumption|assumption|]. split.
    + intros kind k Nk N. rewrite I1; [|exact Nk|intros X; apply N; right; exact X]. apply A; [exact Nk|]. intros ->. apply N. left. reflexivity.
    + intros Z0 [|n] kind k E.
      * cbn in E. injection E as <-. rewrite I1 by assumption. rewrite Nat.add_0_r. unfold acc'.
        pose proof (Z0 k0 k (or_introl eq_refl)) as Zk.
        destruct (subnet_of C mx mn sample i k0) as [c|]; [|exact Zk].
        unfold kind_key in *. rewrite update_prefix by apply K. rewrite Zk. destruct (dget (evaluate c) k); reflexivity.
      * cbn [nth_error] in E. rewrite (I2) with (n := n); [|clear E|exact E].
        -- replace (1 + i + n)%nat with (i + S n)%nat by lia. reflexivity.
        -- intros kind' k' I'. rewrite A; [apply Z0; right; exact I'| |intros ->; contradiction].
           match goal with H : Forall _ r |- _ => rewrite Forall_forall in H; apply H; exact I' end.
Qed.
Theorem C71_kinds :
  forall (C : Type) (evaluate : C -> subnet) max_choice min_choice sample kinds,
    (forall c, NoDup (map fst (evaluate c))) -> Forall (no_char ".") kinds -> NoDup kinds ->
    forall n kind k, nth_error kinds n = Some kind ->
      dget (subnet_val C evaluate max_choice min_choice sample kinds) ((kind ++ "_subnet") ++ "." ++ k)
        = match subnet_of C max_choice min_choice sample n kind with Some c => dget (evaluate c) k | None => None end.
Proof.
  intros C evaluate mx mn sample kinds K F ND n kind k E.
  apply (proj2 (subnet_gen C evaluate mx mn sample K kinds 0 [] F ND)); [reflexivity|exact E].
Qed.
Example C71_kinds_ex :
  Forall (no_char ".") ["max"; "random1"; "best"; "random2"]%string /\ NoDup ["max"; "random1"; "best"; "random2"]%string /\
  subnet_val nat (fun c => [("acc", decimal c)]%string) 9%nat 0%nat (fun i => i)%nat ["max"; "random1"; "best"; "random2"]%string
    = [("max_subnet.acc", "9"); ("random1_subnet.acc", "1"); ("random2_subnet.acc", "3")]%string.
Proof.
  split; [repeat constructor; cbn; repeat split; discriminate|]. split; [|reflexivity].
  repeat constructor; cbn; intuition discriminate.
Qed.
(** The distillation loop adds the metrics of the teacher under teacher.<metric> and leaves the
    others alone. *)
Theorem C71_teacher :
  forall student teacher, NoDup (map fst teacher) ->
    (forall k v, dget teacher k = Some v -> dget (teacher_val student teacher) ("teacher." ++ k) = Some v) /\
    (forall key, (forall k, key <> ("teacher." ++ k)%string) -> dget (teacher_val student teacher) key = dget student key).
Proof.
  intros s t H. assert (E : forall key, dget (teacher_val s t) key = match dget (add_prefix "teacher" t) key with Some v => Some v | None => dget s key end).
  { intros key. unfold teacher_val. rewrite dupdate_get; [reflexivity|]. apply (prefix_nodup "teacher" t H). }
  split.
  - intros k v G. rewrite E. pose proof (prefix_get "teacher" t k) as P. cbn in P. cbn. rewrite P, G. reflexivity.
  - intros key N. rewrite E. rewrite prefix_get_other; [reflexivity|]. intros a. apply (N a).
Qed.
Example C71_teacher_ex : teacher_val [("acc", "1")]%string [("acc", "2")]%string = [("acc", "1"); ("teacher.acc", "2")]%string.
Proof. reflexivity. Qed.

(** * C54: the latest checkpoint *)
Lemma split_no sep s : no_char sep s -> split sep s = [s].
Proof.
  induction s as [|c r IH]; intros H; [reflexivity|]. destruct H as [N H]. cbn [split].
  destruct (Ascii.eqb_spec c sep); [contradiction|]. rewrite IH by exact H. reflexivity.
Qed.
Lemma split_cons sep s : exists h t, split sep s = h :: t.
Proof. destruct s as [|c r]; cbn [split]; [eauto|]. destruct (Ascii.eqb c sep); [eauto|]. destruct (split sep r); eauto. Qed.
Lemma split_app sep : forall a b, split sep (a ++ String sep b) = split sep a ++ split sep b.
Proof.
  induction a as [|c r IH]; intros b; cbn [append split].
  - rewrite Ascii.eqb_refl. reflexivity.
  - rewrite IH. destruct (Ascii.eqb c sep); [reflexivity|]. destruct (split_cons sep r) as (h & t & ->). reflexivity.
Qed.
Lemma last_app A (d : A) : forall l m, m <> [] -> last (l ++ m) d = last m d.
Proof.
  induction l as [|x r IH]; intros m H; [reflexivity|]. cbn [app]. rewrite <- (IH m H). destruct (r ++ m) eqn:E; [|reflexivity].
  destruct r; [contradiction|discriminate].
Qed.
(** A name that ends in a number and an extension: [pre]_<digits>.[rest] or <digits>.[rest]. *)
Definition numbered (name : string) (n : Z) : Prop :=
  exists (u : Decimal.uint) rest,
    u <> Decimal.Nil /\ n = Z.of_uint u /\ no_char "_" rest /\
    (name = (NilZero.string_of_uint u ++ "." ++ rest)%string \/
     exists pre, name = (pre ++ "_" ++ NilZero.string_of_uint u ++ "." ++ rest)%string).
Lemma py_int_digits u : u <> Decimal.Nil -> py_int (NilZero.string_of_uint u) = Ok (Z.of_uint u).
Proof.
  intros N. pose proof (NilZero.usu u N) as E. unfold py_int.
  destruct (NilZero.string_of_uint u) as [|a r] eqn:S; [discriminate|].
  assert (D : no_char "-" (NilZero.string_of_uint u) /\ no_char "+" (NilZero.string_of_uint u)).
  { split; apply digits_no_char0; apply not_digit; left; apply Nat.ltb_lt; reflexivity. }
  rewrite S in D. cbn [no_char] in D. destruct D as [[D1 _] [D2 _]].
  assert (G : match NilZero.uint_of_string (String a r) with Some u0 => Ok (Z.of_uint u0) | None => Raise ValueError end = Ok (Z.of_uint u)) by (rewrite E; reflexivity).
  destruct a as [[] [] [] [] [] [] [] []]; try exact G; [exfalso; apply D2; reflexivity|exfalso; apply D1; reflexivity].
Qed.
Lemma checkpoint_numbered name n : numbered name n -> checkpoint_number name = Ok n.
Proof.
  intros (u & rest & N & -> & R & H). unfold checkpoint_number.
  assert (U : no_char "_" (NilZero.string_of_uint u ++ "." ++ rest)).
  { apply no_char_app. split; [apply digits_no_char0, not_digit; right; apply Nat.leb_le; reflexivity|]. cbn. split; [discriminate|exact R]. }
  assert (L : last (split "_" name) EmptyString = (NilZero.string_of_uint u ++ "." ++ rest)%string).
  { destruct H as [->|(pre & ->)].
    - rewrite split_no by exact U. reflexivity.
    - change (pre ++ "_" ++ NilZero.string_of_uint u ++ "." ++ rest)%string with (pre ++ String "_" (NilZero.string_of_uint u ++ "." ++ rest))%string.
      rewrite split_app, last_app by (destruct (split_cons "_" (NilZero.string_of_uint u ++ "." ++ rest)) as (h & t & ->); discriminate).
      rewrite split_no by exact U. reflexivity. }
  rewrite L. change (NilZero.string_of_uint u ++ "." ++ rest)%string with (NilZero.string_of_uint u ++ String "." rest)%string.
  rewrite split_app, split_no by (apply digits_no_char0, not_digit; left; apply Nat.ltb_lt; reflexivity).
  cbn [app hd]. apply py_int_digits. exact N.
Qed.
Lemma uint_nonneg u : 0 <= Z.of_uint u.
Proof. unfold Z.of_uint. lia. Qed.
Lemma latest_of_spec number : forall files latest path,
  (forall f, In f files -> checkpoint_number f = Ok (number f)) ->
  exists r, latest_of files latest path = Ok r /\
    ((r = path /\ forall f, In f files -> number f <= latest) \/
     (exists before f after, r = Some f /\ files = before ++ f :: after /\ latest < number f /\
        (forall g, In g before -> number g < number f) /\ (forall g, In g after -> number g <= number f))).
Proof.
  induction files as [|f fs IH]; intros latest path H.
  - exists path. split; [reflexivity|]. left. split; [reflexivity|intros f []].
  - cbn [latest_of]. rewrite (H f (or_introl eq_refl)). cbn [bind]. destruct (Z.gtb_spec (number f) latest) as [G|G].
    + destruct (IH (number f) (Some f)) as (r & E & R); [intros g Hg; apply H; right; exact Hg|]. exists r. split; [exact E|].
      right. destruct R as [(-> & R)|(b & x & a & -> & -> & R1 & R2 & R3)].
      * exists [], f, fs. repeat split; [exact G|intros g []|exact R].
      * exists (f :: b), x, a. repeat split; [lia| |exact R3]. intros g [<-|Hg]; [exact R1|apply R2; exact Hg].
    + destruct (IH latest path) as (r & E & R); [intros g Hg; apply H; right; exact Hg|]. exists r. split; [exact E|].
      destruct R as [(-> & R)|(b & x & a & -> & -> & R1 & R2 & R3)].
      * left. split; [reflexivity|]. intros g [<-|Hg]; [exact G|apply R; exact Hg].
      * right. exists (f :: b), x, a. repeat split; [exact R1| |exact R3]. intros g [<-|Hg]; [lia|apply R2; exact Hg].
Qed.
(** The files that glob('*.<suffix>') finds. *)
Definition checkpoint_file (suffix name : string) : Prop := ends_with ("." ++ suffix) name = true /\ prefix "." name = false.
(** Full claim: latest.<suffix> if it is there, otherwise a file with the largest number (files
    without a number cannot be the latest one), otherwise nothing. *)
Definition C54_claim : Prop :=
  forall names suffix,
    if existsb (String.eqb ("latest." ++ suffix)) names
    then find_latest_checkpoint (Some names) suffix = Ok (Some ("latest." ++ suffix)%string)
    else
      (exists f n, find_latest_checkpoint (Some names) suffix = Ok (Some f) /\ In f names /\ checkpoint_file suffix f /\ numbered f n /\
         forall g m, In g names -> checkpoint_file suffix g -> numbered g m -> m <= n) \/
      (find_latest_checkpoint (Some names) suffix = Ok None /\ forall g m, In g names -> checkpoint_file suffix g -> ~ numbered g m).
Theorem C54_other_names_refuted : ~ C54_claim.
Proof.
  intros H. specialize (H ["epoch_1.pth"; "best_acc.pth"]%string "pth"%string). vm_compute existsb in H. cbv iota in H.
  destruct H as [(f & n & H & _)|[H _]]; vm_compute in H; discriminate H.
Qed.
(** The claim holds if every checkpoint file is numbered; ties go to the first file. *)
Theorem C54_numbered_partial :
  forall names suffix, ~ In ("latest." ++ suffix)%string names ->
    (forall f, In f names -> checkpoint_file suffix f -> exists n, numbered f n) ->
    (find_latest_checkpoint (Some names) suffix = Ok None /\ forall f, In f names -> ~ checkpoint_file suffix f) \/
    (exists f n, find_latest_checkpoint (Some names) suffix = Ok (Some f) /\ In f names /\ checkpoint_file suffix f /\ numbered f n /\
       forall g m, In g names -> checkpoint_file suffix g -> numbered g m -> m <= n).
Proof.
  intros names suffix NL H. unfold find_latest_checkpoint.
  assert (X : existsb (String.eqb ("latest." ++ suffix)) names = false).
  { destruct (existsb _ names) eqn:E; [|reflexivity]. apply existsb_exists in E. destruct E as (x & I & E). apply String.eqb_eq in E. subst. contradiction. }
  rewrite X. set (files := filter _ names).
  assert (FI : forall f, In f files <-> In f names /\ checkpoint_file suffix f).
  { intros f. unfold files, checkpoint_file. rewrite filter_In, Bool.andb_true_iff, Bool.negb_true_iff. tauto. }
  set (number := fun f => match checkpoint_number f with Ok n => n | Raise _ => 0 end).
  assert (NO : forall f n, numbered f n -> number f = n).
  { intros f n Hn. unfold number. rewrite (checkpoint_numbered _ _ Hn). reflexivity. }
  destruct (latest_of_spec number files (-1) None) as (r & E & R).
  { intros f Hf. apply FI in Hf. destruct Hf as [I C]. destruct (H f I C) as (n & Hn). rewrite (NO _ _ Hn). apply checkpoint_numbered. exact Hn. }
  assert (P : forall f, In f files -> 0 <= number f).
  { intros f Hf. apply FI in Hf. destruct Hf as [I C]. destruct (H f I C) as (n & Hn). rewrite (NO _ _ Hn). destruct Hn as (u & _ & _ & -> & _). apply uint_nonneg. }
  destruct R as [(-> & R)|(b & f & a & -> & F & R1 & R2 & R3)].
  - left. split; [exact E|]. intros f I C. assert (J : In f files) by (apply FI; auto). specialize (P f J). specialize (R f J). lia.
  - right. assert (J : In f files) by (rewrite F; apply in_elt). pose proof (proj1 (FI f) J) as [I C]. destruct (H f I C) as (n & Hn).
    exists f, n. split; [exact E|]. split; [exact I|]. split; [exact C|]. split; [exact Hn|].
    intros g m Ig Cg Hg. rewrite <- (NO _ _ Hg), <- (NO _ _ Hn). assert (Jg : In g files) by (apply FI; auto). rewrite F in Jg.
    apply in_app_or in Jg. destruct Jg as [Jg|[->|Jg]]; [apply R2 in Jg; lia|lia|apply R3; exact Jg].
Qed.
Example C54_numbered_ex :
  find_latest_checkpoint (Some ["epoch_9.pth"; "log.txt"; "epoch_010.pth"; "10.pth"]%string) "pth" = Ok (Some "epoch_010.pth"%string) /\
  numbered "epoch_010.pth" 10.
Proof.
  split; [reflexivity|]. exists (Decimal.D0 (Decimal.D1 (Decimal.D0 Decimal.Nil))), "pth"%string.
  split; [discriminate|]. split; [reflexivity|]. split; [cbn; repeat split; discriminate|]. right. exists "epoch"%string. reflexivity.
Qed.
Theorem C54_latest_file :
  forall names suffix, In ("latest." ++ suffix)%string names ->
    find_latest_checkpoint (Some names) suffix = Ok (Some ("latest." ++ suffix)%string) /\ find_latest_checkpoint None suffix = Ok None.
Proof.
  intros names suffix H. split; [|reflexivity]. unfold find_latest_checkpoint.
  assert (X : existsb (String.eqb ("latest." ++ suffix)) names = true).
  { apply existsb_exists. exists ("latest." ++ suffix)%string. split; [exact H|]. apply String.eqb_refl. }
  rewrite X. reflexivity.
Qed.
Example C54_latest_ex : find_latest_checkpoint (Some ["best_acc.pth"; "latest.pth"]%string) "pth" = Ok (Some "latest.pth"%string).
Proof. reflexivity. Qed.

(** * C67: the subnets saved by DMCP *)
(** Within 5% of the target. *)
Definition fits (target x : Q) : Prop := (target * (95 # 100) <= x <= target * (105 # 100))%Q.
Lemma out_of_range_spec t x : out_of_range t x = false <-> fits t x.
Proof.
  unfold out_of_range, fits. rewrite Bool.orb_false_iff, !Bool.negb_false_iff, !Qle_bool_iff. tauto.
Qed.
Section C67.
  Variables (C : Type) (flops : C -> Q) (expected : C) (target : Q).
  Hypothesis positive : (0 < target)%Q.
  Definition good (s : C) : bool := negb (out_of_range target (flops s)).
  Lemma start_out : out_of_range target (target * 10) = true.
  Proof.
    destruct (out_of_range target (target * 10)) eqn:E; [reflexivity|]. apply out_of_range_spec in E. destruct E as [_ E].
    exfalso. rewrite (Qmult_comm target 10), (Qmult_comm target (105 # 100)) in E.
    apply (Qmult_lt_0_le_reg_r _ _ _ positive) in E. compute in E. apply E. reflexivity.
  Qed.
  (** The search for a fitting sample stops at the first one. *)
  Lemma draw_spec : forall draws x current, out_of_range target x = true ->
    match draw C flops target x current draws with
    | None => filter good draws = []
    | Some (s, r) => good s = true /\ filter good draws = s :: filter good r
    end.
  Proof.
    induction draws as [|s r IH]; intros x current H; cbn [draw]; rewrite H; [reflexivity|].
    cbn [filter]. destruct (good s) eqn:G.
    - unfold good in G. apply Bool.negb_true_iff in G. destruct r; cbn [draw]; rewrite G; (split; [unfold good; rewrite G; reflexivity|reflexivity]).
    - apply IH. unfold good in G. apply Bool.negb_false_iff in G. exact G.
  Qed.
  Lemma save_direct_spec : forall n current draws,
    match save_direct C flops target n current draws with
    | None => (length (filter good draws) < n)%nat
    | Some (l, c, r) => filter good draws = l ++ filter good r /\ length l = n
    end.
  Proof.
    induction n as [|n IH]; intros current draws; cbn [save_direct]; [split; reflexivity|].
    pose proof (draw_spec draws (target * 10)%Q current start_out) as D. destruct (draw C flops target (target * 10) current draws) as [[s r]|].
    - destruct D as [_ D]. rewrite D. specialize (IH s r). destruct (save_direct C flops target n s r) as [[[l c] r']|].
      + destruct IH as [-> <-]. split; reflexivity.
      + cbn. lia.
    - rewrite D. cbn. lia.
  Qed.
End C67.
(** The full claim: every saved subnet is within 5% of the FLOPs target. *)
Definition C67_claim : Prop :=
  forall (C : Type) (flops : C -> Q) expected target n current draws l e logged, (0 < target)%Q ->
    dmcp_after_run C flops expected target n current draws = Some (l, e, logged) ->
    (forall s, In s (l ++ [e]) -> fits target (flops s)) /\ logged = flops e.
Theorem C67_expected_refuted : ~ C67_claim.
Proof.
  intros H. destruct (H Q (fun q => q) 200%Q 100%Q 0%nat 0%Q [100]%Q [] 200%Q 100%Q) as [_ E]; [reflexivity|reflexivity|]. discriminate E.
Qed.
(** The directly sampled subnets are the first fitting draws, in order, and all within 5%; the
    hook finishes exactly if one more draw fits.  The last file holds the expected subnet, with
    no check, and the FLOPs logged for it are those of that extra draw. *)
Theorem C67_direct_partial :
  forall (C : Type) (flops : C -> Q) expected target n current draws, (0 < target)%Q ->
    let fitting := filter (good C flops target) draws in
    (forall s, In s fitting <-> In s draws /\ fits target (flops s)) /\
    dmcp_after_run C flops expected target n current draws
      = match nth_error fitting n with None => None | Some s => Some (firstn n fitting, expected, flops s) end.
Proof.
  intros C flops expected target n current draws P fitting. split.
  - intros s. unfold fitting. rewrite filter_In. unfold good. rewrite Bool.negb_true_iff, out_of_range_spec. tauto.
  - unfold dmcp_after_run, fitting. pose proof (save_direct_spec C flops target P n current draws) as S.
    destruct (save_direct C flops target n current draws) as [[[l c] r]|].
    + destruct S as [-> <-]. rewrite nth_error_app2, Nat.sub_diag by lia.
      pose proof (draw_spec C flops target r (target * 10)%Q c (start_out target P)) as D.
      destruct (draw C flops target (target * 10) c r) as [[s r']|].
      * destruct D as [_ ->]. cbn [nth_error]. rewrite firstn_app, Nat.sub_diag, firstn_all. cbn [firstn]. rewrite app_nil_r. reflexivity.
      * rewrite D. reflexivity.
    + assert (N : nth_error (filter (good C flops target) draws) n = None) by (apply nth_error_None; lia). rewrite N. reflexivity.
Qed.
Example C67_direct_ex : dmcp_after_run Q (fun q => q) 7%Q 100%Q 2 0%Q [50; 100; 300; 96; 105; 3]%Q = Some ([100; 96]%Q, 7%Q, 105%Q).
Proof. reflexivity. Qed.
(** A target of zero saves whatever subnet the model happens to hold. *)
Theorem C67_zero_target : forall (C : Type) (flops : C -> Q) expected current draws,
  dmcp_after_run C flops expected 0 1 current draws = Some ([current], expected, flops current).
Proof. intros. destruct draws; reflexivity. Qed.
Example C67_zero_target_ex : dmcp_after_run Q (fun q => q) 7%Q 0%Q 1 300%Q [50; 100]%Q = Some ([300]%Q, 7%Q, 300%Q).
Proof. reflexivity. Qed.

Print Assumptions C39_restart_refuted.
Print Assumptions C39_one_pass_partial.
Print Assumptions C39_epoch.
Print Assumptions C50_consumed_refuted.
Print Assumptions C50_unflagged_partial.
Print Assumptions C50_second_build.
Print Assumptions C51_limit_refuted.
Print Assumptions C51_keeps_all_partial.
Print Assumptions C52_resume_refuted.
Print Assumptions C52_resume_forgets.
Print Assumptions C52_uninterrupted_partial.
Print Assumptions C54_other_names_refuted.
Print Assumptions C54_numbered_partial.
Print Assumptions C54_latest_file.
Print Assumptions C67_expected_refuted.
Print Assumptions C67_direct_partial.
Print Assumptions C67_zero_target.
Print Assumptions C68_switches.
Print Assumptions C68_resume.
Print Assumptions C69_calibration.
Print Assumptions C70_returned_refuted.
Print Assumptions C70_hooks_partial.
Print Assumptions C71_slimmable.
Print Assumptions C71_kinds.
Print Assumptions C71_teacher.
