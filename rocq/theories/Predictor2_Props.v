(** Using a predictor in the evolutionary search (C175). *)
From Coq Require Import List Arith Bool Lia.
From Verif Require Import Prelude Predictor_Model.
Import ListNotations.
Local Open Scope nat_scope.

Arguments ByEvaluation {subnet_t}. Arguments ByPredictor {subnet_t}. Arguments Checkpoint {subnet_t}. Arguments Samples {subnet_t}. Arguments Random {subnet_t}.
Arguments l_use {subnet_t}. Arguments l_ready {subnet_t}. Arguments l_num {subnet_t}. Arguments l_pool {subnet_t}. Arguments l_scored {subnet_t}.
Arguments sample {subnet_t}. Arguments score {subnet_t}. Arguments init_predictor {subnet_t}. Arguments epochs {subnet_t}. Arguments start {subnet_t}.

(** ** Specification *)
Definition predicted {S} (x : scored S) : Prop := exists s, x = ByPredictor s.
Definition evaluated {S} (x : scored S) : Prop := exists s, x = ByEvaluation s.

(** ** Lemmas *)
(** Epochs add scores, all of the kind the loop is set to. *)
Lemma epochs_kind {S} pick next : forall n (s t : loop S), epochs n pick next s = Ok t ->
  exists new, l_scored t = l_scored s ++ new /\ Forall (fun x => if l_use s then predicted x else evaluated x) new.
Proof.
  induction n as [|n IH]; intros s t E; cbn [epochs] in E.
  - apply Ok_inj in E. subst. exists []. rewrite app_nil_r. split; [reflexivity|constructor].
  - unfold score in E. cbn [l_use l_ready l_num l_pool l_scored sample] in E.
    destruct (assert_ _); cbn [bind] in E; [|discriminate E]. apply IH in E. cbn [l_use l_scored] in E. destruct E as [new [E F]]. rewrite <- app_assoc in E.
    eexists. split; [exact E|]. apply Forall_app. split; [|exact F]. destruct (l_use s); apply Forall_forall; intros x X; apply in_map_iff in X; destruct X as [y [<- _]]; eexists; reflexivity.
Qed.
Lemma epochs_ok {S} pick next : forall n (s : loop S), l_ready s = true \/ l_use s = false -> exists t, epochs n pick next s = Ok t.
Proof.
  induction n as [|n IH]; intros s H; cbn [epochs]; [eexists; reflexivity|]. unfold score. cbn [l_use l_ready l_num l_pool l_scored sample].
  replace (negb (l_use s) || l_ready s) with true by (destruct (l_use s), (l_ready s); destruct H; try discriminate; reflexivity). cbn [orb assert_ bind]. apply IH. exact H.
Qed.
(** How many candidates an epoch scores. *)
Lemma sample_length {S} pick (s : loop S) : List.length (l_pool (sample pick s)) = Nat.max (l_num s) (List.length (l_pool s)).
Proof. cbn. rewrite app_length, map_length, seq_length. lia. Qed.

(** ** C175 *)
(** Once the predictor is prepared, the search should score all its candidates with it. *)
Definition C175_claim : Prop := forall S h cols (src : source S) pick next num n s t,
  init_predictor h cols src pick (start num) = Ok s -> epochs n pick next s = Ok t ->
  exists new, l_scored t = l_scored s ++ new /\ Forall predicted new.
(** With a checkpoint all candidates are evaluated, in every epoch: the loaded predictor is never asked. *)
Theorem C175_checkpoint : forall S h cols pick next num n (s : loop S), init_predictor h cols Checkpoint pick (start num) = Ok s ->
  exists t, epochs n pick next s = Ok t /\ Forall evaluated (l_scored t) /\ (1 <= n -> num <= List.length (l_scored t)).
Proof.
  intros S h cols pick next num n s E. cbn in E. apply Ok_inj in E. subst s.
  destruct (epochs_ok pick next n {| l_use := false; l_ready := true; l_num := num; l_pool := []; l_scored := [] |} (or_introl eq_refl)) as [t T].
  exists t. split; [exact T|]. destruct (epochs_kind _ _ _ _ _ T) as [new [E F]]. cbn in E. rewrite E. split; [exact F|].
  intros N. destruct n as [|n]; [lia|]. cbn [epochs] in T. unfold score in T. cbn [l_use l_ready l_num l_pool l_scored sample negb orb assert_ bind] in T.
  apply epochs_kind in T. destruct T as [new' [E' _]]. cbn [l_scored] in E'. rewrite <- E, E'. rewrite app_length. rewrite app_nil_l, map_length, app_length, map_length, seq_length. cbn. lia.
Qed.
Theorem C175_checkpoint_refuted : ~ C175_claim.
Proof.
  intros K. destruct (K nat OtherHandler 3 Checkpoint (fun i => i) (fun l => l) 1 1 _ _ eq_refl eq_refl) as [new [E F]]. cbn in E. rewrite <- E in F.
  inversion F as [|x l [s P] _]. discriminate P.
Qed.
(** Without a checkpoint they are, and the pool, its size and the scores used for training do not leak into the search. *)
Theorem C175_trained_partial : forall S h cols (src : source S) pick next num n s,
  src <> Checkpoint -> init_predictor h cols src pick (start num) = Ok s ->
  l_pool s = [] /\ l_num s = num /\ Forall evaluated (l_scored s) /\
  exists t new, epochs n pick next s = Ok t /\ l_scored t = l_scored s ++ new /\ Forall predicted new.
Proof.
  intros S h cols src pick next num n s NC E.
  assert (P : l_use s = true /\ l_ready s = true /\ l_pool s = [] /\ l_num s = num /\ Forall evaluated (l_scored s)).
  { unfold init_predictor in E. destruct src as [|l|k]; [contradiction NC; reflexivity| |].
    - cbn [bind] in E. destruct (fit _ _ _); cbn [bind] in E; [|discriminate E]. apply Ok_inj in E. subst s. cbn. repeat split. constructor.
    - unfold score in E. cbn [l_use l_ready l_num l_pool l_scored start sample negb assert_ bind orb app] in E. destruct (fit _ _ _); cbn [bind] in E; [|discriminate E]. apply Ok_inj in E. subst s. cbn [l_use l_ready l_pool l_num l_scored]. repeat split.
      apply Forall_forall. intros x X. apply in_map_iff in X. destruct X as [y [<- _]]. eexists; reflexivity. }
  destruct P as [P1 [P2 [P3 [P4 P5]]]]. split; [exact P3|]. split; [exact P4|]. split; [exact P5|].
  destruct (epochs_ok pick next n s (or_introl P2)) as [t T]. destruct (epochs_kind _ _ _ _ _ T) as [new [E2 F]]. rewrite P1 in F. exists t, new. split; [exact T|]. split; [exact E2|exact F].
Qed.
Example C175_trained_at : exists s t, init_predictor OtherHandler 3 (Random 2) (fun i => i) (start 1) = Ok s /\ epochs 2 (fun i => i) (fun l => l) s = Ok t /\
  l_scored t = [ByEvaluation 0; ByEvaluation 1; ByPredictor 0; ByPredictor 0].
Proof. eexists _, _. split; [reflexivity|]. split; reflexivity. Qed.

(** Training on random samples succeeds unless the handler is an RBF and the samples are no more than the entries of an encoded
    candidate: with the default of two samples, only for a single group. *)
Theorem C175_samples : forall S h cols k pick num,
  (exists s : loop S, init_predictor h cols (Random k) pick (start num) = Ok s) <-> (h = RBF -> cols < k).
Proof.
  intros S h cols k pick num. unfold init_predictor, score. cbn [l_use l_ready l_num l_pool l_scored start sample negb assert_ bind orb app List.length]. rewrite Nat.sub_0_r, map_length, seq_length.
  unfold fit. destruct h; [|split; [intros _ H; discriminate H|intros _; eexists; reflexivity]].
  destruct (Nat.leb_spec k cols) as [L|L]; cbn [bind]; split.
  - intros [s H]. discriminate H.
  - intros H. specialize (H eq_refl). lia.
  - intros _ _. exact L.
  - intros _. eexists; reflexivity.
Qed.
Example C175_samples_at : init_predictor RBF 3 (Random 2) (fun i => i) (start 50) = Raise ValueError /\ (exists s, init_predictor RBF 3 (Random 4) (fun i => i) (start 50) = Ok s).
Proof. split; [reflexivity|eexists; reflexivity]. Qed.
(** An RBF always gets normal vectors, whose length is the number of groups. *)
Theorem C175_encoding : forall h e r, encoding_of h e = Ok r -> (h = RBF -> r = Normal) /\ (h = OtherHandler -> e = Some r).
Proof. intros h [e|] r E; [|discriminate E]. cbn in E. apply Ok_inj in E. subst r. destruct h; split; intros H; try discriminate H; reflexivity. Qed.

(** What the epochs score: each the pool it is left with by the one before, filled up. *)
Definition subnet_of {S} (x : scored S) : S := match x with ByEvaluation s | ByPredictor s => s end.
Fixpoint pools {S} (n num : nat) (pick : nat -> S) (next : list S -> list S) (pool : list S) : list (list S) :=
  match n with
  | O => []
  | Datatypes.S n => let filled := pool ++ map pick (seq (List.length pool) (num - List.length pool)) in filled :: pools n num pick next (next filled)
  end.
Theorem C175_scored : forall S pick next n (s t : loop S), epochs n pick next s = Ok t -> map subnet_of (l_scored t) = map subnet_of (l_scored s) ++ concat (pools n (l_num s) pick next (l_pool s)).
Proof.
  intros S pick next. induction n as [|n IH]; intros s t E; cbn [epochs] in E.
  - apply Ok_inj in E. subst t. cbn. rewrite app_nil_r. reflexivity.
  - unfold score in E. cbn [l_use l_ready l_num l_pool l_scored sample] in E. destruct (assert_ _); cbn [bind] in E; [|discriminate E]. apply IH in E. cbn [l_scored l_num l_pool] in E. rewrite E. cbn [pools concat]. rewrite map_app, <- app_assoc. f_equal. f_equal. destruct (l_use s); rewrite map_map; apply map_id.
Qed.
Example C175_scored_at : exists t, epochs 2 (fun i => i) (map (fun x => x + 10)) (start 2) = Ok t /\ map subnet_of (l_scored t) = [0; 1; 10; 11].
Proof. eexists. split; reflexivity. Qed.
Print Assumptions C175_scored.
Print Assumptions C175_checkpoint.
Print Assumptions C175_checkpoint_refuted.
Print Assumptions C175_trained_partial.
Print Assumptions C175_samples.
Print Assumptions C175_encoding.
