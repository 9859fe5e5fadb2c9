(** DSNAS: the stages of the search (C137), which architecture parameters belong to a mutable (C138),
    the gradient they step with (C139) and mutables that reach their threshold (C140). *)
From Coq Require Import Reals Lra String Permutation.
From Verif Require Import Prelude Groups_Model Groups_Props Groups2_Props Darts_Model Dsnas_Model.
Local Open Scope string_scope.
Local Open Scope list_scope.
Local Open Scope nat_scope.

(** * Lemmas *)

Lemma last_group_spec i : forall gs n g, last_group i gs n = Some g ->
  n <= g /\ (exists l, nth_error gs (g - n) = Some l /\ In i l) /\ (forall k l, nth_error gs k = Some l -> In i l -> n + k <= g).
Proof.
  induction gs as [|l gs IH]; intros n g H; cbn [last_group] in H; [discriminate|].
  destruct (last_group i gs (S n)) as [k|] eqn:E.
  - injection H as <-. destruct (IH _ _ E) as (A & (l' & B1 & B2) & C). repeat split; [lia| |].
    + exists l'. replace (k - n) with (S (k - S n)) by lia. auto.
    + intros [|k'] l0 Hk Hi; [lia|]. specialize (C k' l0 Hk Hi). lia.
  - destruct (existsb (Nat.eqb i) l) eqn:X; [|discriminate]. injection H as <-. repeat split; [lia| |].
    + exists l. rewrite Nat.sub_diag. split; [reflexivity|]. apply existsb_exists in X. destruct X as (x & X1 & X2). apply Nat.eqb_eq in X2. subst. exact X1.
    + intros [|k'] l0 Hk Hi; [lia|]. exfalso. clear IH. revert k' Hk E. generalize (S n). induction gs as [|l1 gs IH]; intros n' k' Hk E; [destruct k'; discriminate|].
      cbn [last_group] in E. destruct (last_group i gs (S n')) eqn:E'; [discriminate|].
      destruct k' as [|k']; cbn [nth_error] in Hk; [|exact (IH _ _ Hk E')].
      injection Hk as ->. destruct (existsb (Nat.eqb i) l0) eqn:Y; [discriminate|].
      assert (existsb (Nat.eqb i) l0 = true) by (apply existsb_exists; exists i; split; [exact Hi|apply Nat.eqb_refl]). congruence.
Qed.
Lemma last_group_some i : forall gs n, (exists l, In l gs /\ In i l) -> exists g, last_group i gs n = Some g.
Proof.
  induction gs as [|l gs IH]; intros n (l0 & H & Hi); [destruct H|]. cbn [last_group].
  destruct (last_group i gs (S n)) as [k|] eqn:E; [eauto|].
  destruct H as [->|H].
  - assert (existsb (Nat.eqb i) l0 = true) as -> by (apply existsb_exists; exists i; split; [exact Hi|apply Nat.eqb_refl]). eauto.
  - destruct (IH (S n)) as [g Hg]; [eauto|]. congruence.
Qed.

(** Each gradient times its reward. *)
Definition times_rewards (rs : list R) (g g' : list vec) : Prop :=
  length g' = length g /\ forall k, k < length g -> nth k g' [] = match nth_error rs k with Some r => vscale r (nth k g []) | None => nth k g [] end.
Lemma store_len (h : list vec) : forall r v, length (store h r v) = length h.
Proof. induction h; intros [|r] v; cbn [store length]; auto. Qed.
Lemma nth_store_same (h : list vec) : forall r v, r < length h -> nth r (store h r v) [] = v.
Proof. induction h as [|x h IH]; intros [|r] v H; cbn [store length nth] in *; try (now apply Nat.nlt_0_r in H); [reflexivity|]. apply IH. now apply Nat.succ_lt_mono. Qed.
Lemma nth_store_other (h : list vec) : forall r j v, j <> r -> nth j (store h r v) [] = nth j h [].
Proof. induction h as [|x h IH]; intros [|r] [|j] v H; cbn [store nth]; try reflexivity; try congruence. apply IH. congruence. Qed.
Lemma rescale_length : forall rs k g, length (rescale rs k g) = length g.
Proof. induction rs as [|r rs IH]; intros k g; cbn [rescale]; [reflexivity|]. now rewrite IH, store_len. Qed.
Lemma rescale_nth : forall rs k g j, j < length g ->
  nth j (rescale rs k g) [] = if k <=? j then match nth_error rs (j - k) with Some r => vscale r (nth j g []) | None => nth j g [] end else nth j g [].
Proof.
  induction rs as [|r rs IH]; intros k g j Hj; cbn [rescale].
  - destruct (k <=? j); [|reflexivity]. now destruct (j - k).
  - rewrite IH by (now rewrite store_len). unfold deref. destruct (Nat.leb_spec k j) as [H|H]; destruct (Nat.leb_spec (S k) j) as [H'|H']; try lia.
    + rewrite nth_store_other by lia. now replace (j - k) with (S (j - S k)) by lia.
    + assert (j = k) as -> by lia. rewrite Nat.sub_diag. cbn [nth_error]. now apply nth_store_same.
    + apply nth_store_other. lia.
Qed.
Lemma rescale_times rs g : times_rewards rs g (rescale rs 0 g).
Proof.
  split; [apply rescale_length|]. intros k H. rewrite rescale_nth by exact H. cbn [Nat.leb]. now rewrite Nat.sub_0_r.
Qed.

Section Props.
Variables D W G SW SA : Type.
Variable gW : D -> W -> list string -> G.
Variable stepW : SW -> W -> G -> SW * W.
Variable gA : list vec -> list nat -> bool -> list vec.
Variable stepA : SA -> list vec -> list vec -> SA * list vec.
Variable rewards : D -> W -> list string -> list R.
Variable argmax : vec -> nat.
Variable fires : vec -> bool.
Variable subnet_flops : list string -> Z.
Variables (pretrain_epochs finetune_epochs : nat) (flops_constraints : Z).
Variable groups : list (list nat).
Variable to_none : bool.
Notation state := (dsnas W SW SA).
Notation step := (train_step D W G SW SA gW stepW gA stepA rewards argmax fires subnet_flops pretrain_epochs finetune_epochs flops_constraints groups to_none).
Notation run := (train_run D W G SW SA gW stepW gA stepA rewards argmax fires subnet_flops pretrain_epochs finetune_epochs flops_constraints groups to_none).
Notation muts := (n_muts W SW SA).
Notation arch := (n_a W SW SA).
Notation super := (n_super W SW SA).

(** * Specification *)

(** The epoch of a step. *)
Definition epoch_of (x : nat * D * (nat -> nat)) : nat := fst (fst x).
(** No mutable is fixed. *)
Definition searching (ms : list onehot) : Prop := forall m, In m ms -> u_fixed m = None.
(** The operations with the highest architecture parameters: those of the last group that has the mutable, of which
    the candidates of the first member count. *)
Definition best_op (a : list vec) (ms : list onehot) (i : nat) (c : string) : Prop :=
  exists g j l m, nth_error groups g = Some (j :: l) /\ In i (j :: l) /\ (forall g' l', nth_error groups g' = Some l' -> In i l' -> g' <= g) /\
    nth_error ms j = Some m /\ nth_error (u_all m) (argmax (nth g a [])) = Some c.
Definition best_ops (a : list vec) (ms : list onehot) (ops : list string) : Prop :=
  length ops = length ms /\ forall i c, nth_error ops i = Some c -> best_op a ms i c.

(** * Lemmas on the steps *)

Lemma run_op_all m a f c k m' : run_op fires m a f = Ok (c, k, m') -> u_all m' = u_all m /\ (u_fixed m <> None -> m' = m /\ u_fixed m = Some c).
Proof.
  unfold run_op. destruct (u_fixed m) as [x|].
  - destruct (existsb _ _); [|discriminate]. intros E. apply Ok_inj in E. injection E as <- <- <-. auto.
  - destruct (u_all m) as [|c0 [|c1 r]] eqn:U; try discriminate. destruct (fires a).
    + intros E. apply Ok_inj in E. injection E as <- <- <-. cbn. split; [congruence|congruence].
    + destruct (nth_error _ f); [|discriminate]. intros E. apply Ok_inj in E. injection E as <- <- <-. split; congruence.
Qed.
Lemma run_ops_fixed a f : forall ms i xs, run_ops fires groups a f i ms = Ok xs -> (forall m, In m ms -> u_fixed m <> None) ->
  map snd xs = ms /\ map (fun x => Some (fst (fst x))) xs = map u_fixed ms.
Proof.
  induction ms as [|m ms IH]; intros i xs E H; cbn [run_ops] in E.
  - apply Ok_inj in E. subst. auto.
  - destruct (run_op _ m _ _) as [[[c k] m']|] eqn:E1; cbn [bind] in E; [|discriminate].
    destruct (run_ops _ _ a f (S i) ms) as [ys|] eqn:E2; cbn [bind] in E; [|discriminate].
    apply Ok_inj in E. subst xs. destruct (run_op_all _ _ _ _ _ _ E1) as [_ F]. destruct (F (H m (or_introl eq_refl))) as [-> F'].
    destruct (IH _ _ E2) as [A B]; [intros; apply H; right; assumption|]. cbn [map snd fst]. rewrite A, B, F'. auto.
Qed.
Lemma run_ops_searching a f : (forall v, fires v = false) -> forall ms i xs, run_ops fires groups a f i ms = Ok xs -> searching ms -> map snd xs = ms.
Proof.
  intros N. induction ms as [|m ms IH]; intros i xs E H; cbn [run_ops] in E.
  - apply Ok_inj in E. subst. auto.
  - destruct (run_op _ m _ _) as [[[c k] m']|] eqn:E1; cbn [bind] in E; [|discriminate].
    destruct (run_ops _ _ a f (S i) ms) as [ys|] eqn:E2; cbn [bind] in E; [|discriminate].
    apply Ok_inj in E. subst xs. cbn [map snd]. rewrite (IH _ _ E2) by (intros x Hx; apply H; right; exact Hx). f_equal.
    unfold run_op in E1. rewrite (H m (or_introl eq_refl)), N in E1. destruct (u_all m) as [|c0 [|c1 r]]; try discriminate.
    destruct (nth_error _ (f i)); [|discriminate]. apply Ok_inj in E1. congruence.
Qed.
Lemma fix_from_spec cs : forall ms i ms', fix_from groups cs i ms = Ok ms' ->
  length ms' = length ms /\ map u_all ms' = map u_all ms /\ (forall m, In m ms' -> u_fixed m <> None) /\
  (searching ms -> forall k m, nth_error ms' k = Some m -> exists g c, last_group (i + k) groups 0 = Some g /\ nth_error cs g = Some c /\ u_fixed m = Some c).
Proof.
  induction ms as [|m ms IH]; intros i ms' E; cbn [fix_from] in E.
  - apply Ok_inj in E. subst. cbn. repeat split; auto. intros _ [|k] m; discriminate.
  - match type of E with bind ?x _ = _ => destruct x as [m1|] eqn:E1; cbn [bind] in E; [|discriminate] end.
    destruct (fix_from groups cs (S i) ms) as [r|] eqn:E2; cbn [bind] in E; [|discriminate]. apply Ok_inj in E. subst ms'.
    destruct (IH _ _ E2) as (A & B & C & F).
    assert (X : u_all m1 = u_all m /\ u_fixed m1 <> None /\ (u_fixed m = None -> exists g c, last_group i groups 0 = Some g /\ nth_error cs g = Some c /\ u_fixed m1 = Some c)).
    { destruct (u_fixed m) as [x|] eqn:U; [apply Ok_inj in E1; subst; repeat split; congruence|].
      destruct (last_group i groups 0) as [g|]; [|discriminate]. destruct (nth_error cs g) as [c|] eqn:Ec; [|discriminate].
      apply Ok_inj in E1. subst m1. cbn. repeat split; [congruence|]. intros _. exists g, c. auto. }
    destruct X as (X1 & X2 & X3). cbn [length map]. repeat split.
    + congruence.
    + congruence.
    + intros x [<-|Hx]; auto.
    + intros S0 [|k] x Hx; cbn [nth_error] in Hx.
      * injection Hx as <-. rewrite Nat.add_0_r. apply X3. apply S0. left. reflexivity.
      * replace (i + S k) with (S i + k) by lia. apply F; [intros y Hy; apply S0; right; exact Hy|exact Hx].
Qed.
Lemma sample_from_spec ms a : searching ms -> forall gs g cs, sample_from argmax ms a gs g = Ok cs ->
  length cs = length gs /\ forall k c, nth_error cs k = Some c -> exists j l m, nth_error gs k = Some (j :: l) /\ nth_error ms j = Some m /\ nth_error (u_all m) (argmax (nth (g + k) a [])) = Some c.
Proof.
  intros Hs. induction gs as [|l gs IH]; intros g cs E; cbn [sample_from] in E.
  - apply Ok_inj in E. subst. split; [reflexivity|]. intros [|k] c; discriminate.
  - destruct l as [|j l]; cbn [bind] in E; [discriminate|]. destruct (nth_error ms j) as [m|] eqn:Ej; cbn [bind] in E; [|discriminate].
    unfold sample_choice, choices in E. rewrite (Hs m) in E by (eapply nth_error_In; eauto).
    destruct (nth_error (u_all m) (argmax (nth g a []))) as [c0|] eqn:Ec; cbn [bind] in E; [|discriminate].
    destruct (sample_from argmax ms a gs (S g)) as [r|] eqn:E2; cbn [bind] in E; [|discriminate]. apply Ok_inj in E. subst cs.
    destruct (IH _ _ E2) as [A B]. cbn [length]. split; [congruence|]. intros [|k] c Hc; cbn [nth_error] in *.
    + injection Hc as <-. rewrite Nat.add_0_r. eauto 6.
    + replace (g + S k) with (S g + k) by lia. apply B. exact Hc.
Qed.
Lemma fix_architecture_spec a ms ms' : searching ms -> fix_architecture argmax groups a ms = Ok ms' ->
  (forall m, In m ms' -> u_fixed m <> None) /\ map u_all ms' = map u_all ms /\
  exists ops, map u_fixed ms' = map Some ops /\ best_ops a ms ops.
Proof.
  intros Hs E. unfold fix_architecture, sample_choices in E.
  destruct (sample_from argmax ms a groups 0) as [cs|] eqn:E1; cbn [bind] in E; [|discriminate].
  destruct (fix_from_spec _ _ _ _ E) as (A & B & C & F). destruct (sample_from_spec _ _ Hs _ _ _ E1) as [P Q].
  split; [exact C|]. split; [exact B|].
  exists (map (fun m => match u_fixed m with Some c => c | None => "" end) ms'). split.
  - rewrite map_map. apply map_ext_in. intros m Hm. specialize (C m Hm). destruct (u_fixed m); congruence.
  - split; [rewrite map_length; exact A|]. intros i c Hc.
    rewrite nth_error_map in Hc. destruct (nth_error ms' i) as [m|] eqn:Em; cbn [option_map] in Hc; [|discriminate].
    destruct (F Hs i m Em) as (g & c' & G1 & G2 & G3). rewrite G3 in Hc. injection Hc as <-.
    destruct (last_group_spec _ _ _ _ G1) as (_ & (l & L1 & L2) & L3). rewrite Nat.sub_0_r in L1.
    destruct (Q g c' G2) as (j & l' & m' & Q1 & Q2 & Q3). assert (l = j :: l') by congruence. subst l.
    exists g, j, l', m'. repeat split; auto.
Qed.

(** What a step leaves as it is. *)
Lemma step_inv e d f s s' ops u : step e d f s = Ok (s', (ops, u)) ->
  u = need_update_mutator pretrain_epochs finetune_epochs e /\
  exists s1 xs, (if Nat.eqb e finetune_epochs && super s then exists ms, fix_architecture argmax groups (arch s) (muts s) = Ok ms /\ muts s1 = ms /\ super s1 = false else muts s1 = muts s /\ super s1 = super s) /\
    arch s1 = arch s /\ run_ops fires groups (arch s) f 0 (muts s1) = Ok xs /\ ops = map (fun x => fst (fst x)) xs /\ muts s' = map snd xs /\ super s' = super s1 /\ (u = false -> arch s' = arch s).
Proof.
  unfold train_step. intros E.
  match type of E with bind ?x _ = _ => destruct x as [s1|] eqn:E1; cbn [bind] in E; [|discriminate] end.
  assert (A : arch s1 = arch s /\ (if Nat.eqb e finetune_epochs && super s then exists ms, fix_architecture argmax groups (arch s) (muts s) = Ok ms /\ muts s1 = ms /\ super s1 = false else muts s1 = muts s /\ super s1 = super s)).
  { destruct (Nat.eqb e finetune_epochs && super s).
    - destruct (fix_architecture _ _ _ _) as [ms|]; cbn [bind] in E1; [|discriminate]. apply Ok_inj in E1. subst s1. cbn. split; [reflexivity|]. exists ms. auto.
    - apply Ok_inj in E1. subst. auto. }
  destruct A as [A1 A2].
  destruct (run_ops _ _ (arch s1) f 0 (muts s1)) as [xs|] eqn:E2; cbn [bind] in E; [|discriminate].
  destruct (stepW _ _ _) as [sw w]. cbn [n_w n_a n_ga n_sw n_sa n_super n_muts] in E.
  rewrite A1 in E2. destruct (need_update_mutator _ _ e).
  - destruct (with_flops_loss _ _ _ _ _ _) as [fl|]; cbn [bind] in E; [|discriminate].
    destruct (stepA _ _ _) as [sa a]. destruct (handle_grads _ _) as [ga|]; cbn [bind] in E; [|discriminate].
    apply Ok_inj in E. injection E as <- <- <-. split; [reflexivity|]. exists s1, xs. cbn. repeat split; auto; discriminate.
  - apply Ok_inj in E. injection E as <- <- <-. split; [reflexivity|]. exists s1, xs. cbn. repeat split; auto.
Qed.

(** * C137 *)

(** The mutator is updated exactly in the epochs from pretrain_epochs on and before finetune_epochs. *)
(** A new algorithm is a supernet with nothing fixed; it exists exactly if the fine-tuning starts after the pretraining. *)
Theorem C137_new w a sw sa cands :
  (finetune_epochs <= pretrain_epochs -> new_dsnas W SW SA pretrain_epochs finetune_epochs w a sw sa cands = Raise ValueError) /\
  (pretrain_epochs < finetune_epochs -> exists s, new_dsnas W SW SA pretrain_epochs finetune_epochs w a sw sa cands = Ok s /\
     super s = true /\ searching (muts s) /\ map u_all (muts s) = cands /\ n_w _ _ _ s = w /\ arch s = a /\ n_ga _ _ _ s = None).
Proof.
  unfold new_dsnas. split; intros H.
  - now rewrite (proj2 (Nat.leb_le _ _) H).
  - rewrite (proj2 (Nat.leb_gt _ _) H). eexists. split; [reflexivity|]. cbn. repeat split.
    + intros m Hm. apply in_map_iff in Hm as (c & <- & _). reflexivity.
    + rewrite map_map. cbn. apply map_id.
Qed.

Theorem C137_mutator steps : forall s s' tr, run steps s = Ok (s', tr) ->
  map (fun t => fst (fst t)) tr = map epoch_of steps /\
  forall e ops u, In (e, ops, u) tr -> (u = true <-> pretrain_epochs <= e < finetune_epochs).
Proof.
  induction steps as [|[[e d] f] r IH]; intros s s' tr E; cbn [train_run] in E.
  - apply Ok_inj in E. injection E as _ <-. split; [reflexivity|]. intros e ops u [].
  - destruct (step e d f s) as [[s1 [ops u]]|] eqn:E1; cbn [bind fst snd] in E; [|discriminate].
    destruct (run r s1) as [[s2 t2]|] eqn:E2; cbn [bind fst snd] in E; [|discriminate]. apply Ok_inj in E. injection E as <- <-.
    destruct (IH _ _ _ E2) as [A B]. split; [cbn [map fst]; rewrite A; reflexivity|].
    intros e0 ops0 u0 [X|X]; [|exact (B _ _ _ X)]. injection X as <- <- <-.
    destruct (step_inv _ _ _ _ _ _ _ E1) as [-> _]. unfold need_update_mutator. rewrite Bool.andb_true_iff, Nat.leb_le, Nat.ltb_lt. reflexivity.
Qed.
(** In all other epochs the architecture parameters stay as they are. *)
Theorem C137_frozen steps : forall s s' tr, run steps s = Ok (s', tr) ->
  (forall x, In x steps -> epoch_of x < pretrain_epochs \/ finetune_epochs <= epoch_of x) -> arch s' = arch s.
Proof.
  induction steps as [|[[e d] f] r IH]; intros s s' tr E H; cbn [train_run] in E.
  - apply Ok_inj in E. injection E as <- _. reflexivity.
  - destruct (step e d f s) as [[s1 [ops u]]|] eqn:E1; cbn [bind fst snd] in E; [|discriminate].
    destruct (run r s1) as [[s2 t2]|] eqn:E2; cbn [bind fst snd] in E; [|discriminate]. apply Ok_inj in E. injection E as <- _.
    rewrite (IH _ _ _ E2) by (intros x Hx; apply H; right; exact Hx).
    destruct (step_inv _ _ _ _ _ _ _ E1) as (U & s0 & xs & _ & _ & _ & _ & _ & _ & X). apply X. rewrite U.
    unfold need_update_mutator. specialize (H _ (or_introl eq_refl)). unfold epoch_of in H. cbn [fst] in H.
    apply Bool.andb_false_iff. rewrite Nat.leb_gt, Nat.ltb_ge. exact H.
Qed.
Lemma run_app a : forall b s s' tr, run (a ++ b) s = Ok (s', tr) -> exists m t1 t2, run a s = Ok (m, t1) /\ run b m = Ok (s', t2) /\ tr = t1 ++ t2.
Proof.
  induction a as [|[[e d] f] r IH]; intros b s s' tr E.
  - exists s, [], tr. auto.
  - cbn [app train_run] in *. destruct (step e d f s) as [[s1 [ops u]]|]; cbn [bind fst snd] in *; [|discriminate].
    destruct (run (r ++ b) s1) as [[s2 t2]|] eqn:E2; cbn [bind fst snd] in E; [|discriminate]. apply Ok_inj in E. injection E as <- <-.
    destruct (IH _ _ _ _ E2) as (m & t1 & t3 & A & B & C). rewrite A. cbn [bind fst snd]. exists m, ((e, ops, u) :: t1), t3. subst. auto.
Qed.
Lemma run_before steps : (forall v, fires v = false) -> forall s s' tr, run steps s = Ok (s', tr) ->
  (forall x, In x steps -> epoch_of x < finetune_epochs) -> searching (muts s) -> muts s' = muts s /\ super s' = super s.
Proof.
  intros N. induction steps as [|[[e d] f] r IH]; intros s s' tr E H Hs; cbn [train_run] in E.
  - apply Ok_inj in E. injection E as <- _. auto.
  - destruct (step e d f s) as [[s1 [ops u]]|] eqn:E1; cbn [bind fst snd] in E; [|discriminate].
    destruct (run r s1) as [[s2 t2]|] eqn:E2; cbn [bind fst snd] in E; [|discriminate]. apply Ok_inj in E. injection E as <- _.
    destruct (step_inv _ _ _ _ _ _ _ E1) as (_ & s0 & xs & X & X1 & X2 & X3 & X4 & X5 & _).
    specialize (H _ (or_introl eq_refl)) as He. unfold epoch_of in He. cbn [fst] in He.
    destruct (Nat.eqb_spec e finetune_epochs); [lia|]. cbn [andb] in X. destruct X as [Y1 Y2].
    rewrite Y1 in X2. rewrite (run_ops_searching _ _ N _ _ _ X2 Hs) in X4.
    destruct (IH _ _ _ E2) as [A B]; [intros x Hx; apply H; right; exact Hx|rewrite X4; exact Hs|]. split; congruence.
Qed.
Lemma run_fixed steps : forall s s' tr, run steps s = Ok (s', tr) -> super s = false -> (forall m, In m (muts s) -> u_fixed m <> None) ->
  muts s' = muts s /\ super s' = false /\ forall t, In t tr -> map Some (snd (fst t)) = map u_fixed (muts s).
Proof.
  induction steps as [|[[e d] f] r IH]; intros s s' tr E Hs Hf; cbn [train_run] in E.
  - apply Ok_inj in E. injection E as <- <-. repeat split; auto. intros t [].
  - destruct (step e d f s) as [[s1 [ops u]]|] eqn:E1; cbn [bind fst snd] in E; [|discriminate].
    destruct (run r s1) as [[s2 t2]|] eqn:E2; cbn [bind fst snd] in E; [|discriminate]. apply Ok_inj in E. injection E as <- <-.
    destruct (step_inv _ _ _ _ _ _ _ E1) as (_ & s0 & xs & X & X1 & X2 & X3 & X4 & X5 & _).
    rewrite Hs, Bool.andb_false_r in X. destruct X as [Y1 Y2]. rewrite Y1 in X2. destruct (run_ops_fixed _ _ _ _ _ X2 Hf) as [F1 F2].
    rewrite F1 in X4. destruct (IH _ _ _ E2) as (A & B & C); [congruence|rewrite X4; exact Hf|].
    repeat split; [congruence|exact B|]. intros t [<-|Ht]; cbn [fst snd].
    + rewrite X3, map_map. exact F2.
    + rewrite (C t Ht). congruence.
Qed.
(** From the first step of epoch finetune_epochs on, every step runs the operations with the highest architecture
    parameters, if no mutable reached its threshold. *)
Theorem C137_finetune_partial pre d f post s s' tr :
  (forall v, fires v = false) -> searching (muts s) -> super s = true ->
  (forall x, In x pre -> epoch_of x < finetune_epochs) -> (forall x, In x post -> finetune_epochs <= epoch_of x) ->
  run (pre ++ (finetune_epochs, d, f) :: post) s = Ok (s', tr) ->
  exists ops, best_ops (arch s') (muts s) ops /\ map u_fixed (muts s') = map Some ops /\
    forall e ops' u, In (e, ops', u) tr -> finetune_epochs <= e -> ops' = ops.
Proof.
  intros N Hs Hsup Hpre Hpost E. destruct (run_app _ _ _ _ _ E) as (m & t1 & t2 & E1 & E2 & ->).
  destruct (run_before _ N _ _ _ E1 Hpre Hs) as [M1 M2]. pose proof E2 as E2'.
  cbn [train_run] in E2. destruct (step finetune_epochs d f m) as [[s1 [ops u]]|] eqn:F1; cbn [bind fst snd] in E2; [|discriminate].
  destruct (run post s1) as [[s2 t3]|] eqn:F2; cbn [bind fst snd] in E2; [|discriminate]. apply Ok_inj in E2. injection E2 as <- <-.
  destruct (step_inv _ _ _ _ _ _ _ F1) as (U & s0 & xs & X & X1 & X2 & X3 & X4 & X5 & X6).
  rewrite M2, Hsup, Nat.eqb_refl in X. cbn [andb] in X. destruct X as (ms & Y1 & Y2 & Y3). rewrite M1 in Y1.
  destruct (fix_architecture_spec _ _ _ Hs Y1) as (Z1 & Z2 & best & Z3 & Z4).
  rewrite Y2 in X2. destruct (run_ops_fixed _ _ _ _ _ X2 Z1) as [P1 P2].
  assert (Some_inj : forall l l' : list string, map Some l = map Some l' -> l = l').
  { induction l as [|x l IH]; intros [|y l'] H; cbn [map] in H; try discriminate; [reflexivity|]. injection H as -> H. f_equal. auto. }
  destruct (run_fixed _ _ _ _ F2) as (Q1 & Q2 & Q3); [congruence|rewrite X4, P1; exact Z1|].
  assert (Hops : ops = best).
  { apply Some_inj. rewrite X3, map_map, P2. exact Z3. }
  assert (A : arch s2 = arch m).
  { apply (C137_frozen _ _ _ _ E2'). intros x [<-|Hx]; right; [reflexivity|auto]. }
  exists best. split; [rewrite A; exact Z4|]. split; [rewrite Q1, X4, P1; exact Z3|].
  intros e ops' u' Hin He. apply in_app_or in Hin. destruct Hin as [Hin|[Hin|Hin]].
  - destruct (C137_mutator _ _ _ _ E1) as [L _]. apply (in_map (fun t => fst (fst t))) in Hin. rewrite L in Hin. cbn [fst] in Hin.
    apply in_map_iff in Hin. destruct Hin as (x & <- & Hx). specialize (Hpre x Hx). lia.
  - congruence.
  - apply Some_inj. specialize (Q3 _ Hin). cbn [fst snd] in Q3. rewrite Q3, X4, P1. exact Z3.
Qed.

(** * C139 *)

(** What DSNAS documents: the gradient of each mutable's architecture parameters is multiplied with the gradient of its
    arch_weights before the step ([times_rewards]). What happens: it is not. *)
Definition total (s : state) (g : list vec) : list vec :=
  match n_ga _ _ _ s with None => g | Some z => map (fun p => vadd (fst p) (snd p)) (combine z g) end.
Theorem C139_step_partial e d f s s' ops : pretrain_epochs <= e < finetune_epochs -> step e d f s = Ok (s', (ops, true)) ->
  exists idx fl, (n_sa _ _ _ s', arch s') = stepA (n_sa _ _ _ s) (arch s) (total s (gA (arch s) idx fl)) /\
    (to_none = false -> exists g', n_ga _ _ _ s' = Some g' /\ times_rewards (rewards d (n_w _ _ _ s) ops) (map (vscale 0) (total s (gA (arch s) idx fl))) g').
Proof.
  intros He E. unfold train_step in E. destruct (Nat.eqb_spec e finetune_epochs) as [->|_]; [lia|]. cbn [andb bind] in E.
  destruct (run_ops _ _ (arch s) f 0 (muts s)) as [xs|] eqn:E2; cbn [bind] in E; [|discriminate].
  destruct (stepW _ _ _) as [sw w]. cbn [n_w n_a n_ga n_sw n_sa n_super n_muts] in E.
  destruct (need_update_mutator _ _ e); [|discriminate].
  destruct (with_flops_loss _ _ _ _ _ _) as [fl|]; cbn [bind] in E; [|discriminate].
  exists (map (fun x => snd (fst x)) xs), fl. fold (total s (gA (arch s) (map (fun x => snd (fst x)) xs) fl)) in E.
  destruct (stepA _ _ _) as [sa a]. destruct to_none.
  - destruct (handle_grads _ _) as [ga|]; cbn [bind] in E; [|discriminate]. apply Ok_inj in E. injection E as <- _. cbn. split; [reflexivity|discriminate].
  - cbn [handle_grads bind] in E. apply Ok_inj in E. injection E as <- <-. cbn. split; [reflexivity|]. intros _. eexists. split; [reflexivity | apply rescale_times].
Qed.
(** Since PyTorch 2 the gradients are gone when they are to be multiplied. *)
Theorem C139_none e d f s : pretrain_epochs <= e < finetune_epochs -> to_none = true -> muts s <> [] ->
  (forall w ops, length (rewards d w ops) = length (muts s)) -> forall r, step e d f s <> Ok r.
Proof.
  intros He -> Hm Hr [s' [ops u]] E. unfold train_step in E. destruct (Nat.eqb_spec e finetune_epochs) as [->|_]; [lia|]. cbn [andb bind] in E.
  destruct (run_ops _ _ (arch s) f 0 (muts s)) as [xs|] eqn:E2; cbn [bind] in E; [|discriminate].
  destruct (stepW _ _ _) as [sw w]. cbn [n_w n_a n_ga n_sw n_sa n_super n_muts] in E.
  assert (X : need_update_mutator pretrain_epochs finetune_epochs e = true) by (unfold need_update_mutator; rewrite Bool.andb_true_iff, Nat.leb_le, Nat.ltb_lt; exact He).
  rewrite X in E. destruct (with_flops_loss _ _ _ _ _ _) as [fl|]; cbn [bind] in E; [|discriminate]. destruct (stepA _ _ _) as [sa a].
  specialize (Hr (n_w _ _ _ s) (map (fun x => fst (fst x)) xs)). cbn [handle_grads] in E. destruct (rewards _ _ _); [|discriminate].
  destruct (muts s); [congruence|discriminate].
Qed.

(** Without thresholds: the loss is that of the sampled operations, and has the flops of the best subnet exactly if they are
    not below flops_constraints. *)
Lemma run_ops_sampled a f : (forall v, fires v = false) -> forall ms i xs, run_ops fires groups a f i ms = Ok xs -> searching ms ->
  map (fun x => snd (fst x)) xs = map f (seq i (length ms)) /\ forall k m, nth_error ms k = Some m -> nth_error (map (fun x => fst (fst x)) xs) k = nth_error (u_all m) (f (i + k)).
Proof.
  intros N. induction ms as [|m ms IH]; intros i xs E H; cbn [run_ops] in E.
  - apply Ok_inj in E. subst. split; [reflexivity|]. intros [|k] m; discriminate.
  - destruct (run_op _ m _ _) as [[[c k] m']|] eqn:E1; cbn [bind] in E; [|discriminate].
    destruct (run_ops _ _ a f (S i) ms) as [ys|] eqn:E2; cbn [bind] in E; [|discriminate].
    apply Ok_inj in E. subst xs. cbn [map fst snd length seq]. destruct (IH _ _ E2) as [A B]; [intros x Hx; apply H; right; exact Hx|].
    unfold run_op in E1. rewrite (H m (or_introl eq_refl)), N in E1.
    assert (X : c :: nil = c :: nil -> k = f i /\ nth_error (u_all m) (f i) = Some c).
    { intros _. destruct (u_all m) as [|c0 [|c1 r]]; try discriminate. destruct (nth_error (c0 :: c1 :: r) (f i)) as [c'|]; [|discriminate]. apply Ok_inj in E1. split; congruence. }
    destruct (X eq_refl) as [-> X2]. split; [rewrite A; reflexivity|]. intros [|k] x Hx; cbn [nth_error] in *.
    + injection Hx as <-. rewrite Nat.add_0_r. symmetry. exact X2.
    + replace (i + S k) with (S i + k) by lia. exact (B k x Hx).
Qed.
Theorem C139_loss_partial e d f s s' ops : pretrain_epochs <= e < finetune_epochs -> (forall v, fires v = false) -> searching (muts s) -> step e d f s = Ok (s', (ops, true)) ->
  (forall i m, nth_error (muts s) i = Some m -> nth_error ops i = nth_error (u_all m) (f i)) /\
  (n_sw _ _ _ s', n_w _ _ _ s') = stepW (n_sw _ _ _ s) (n_w _ _ _ s) (gW d (n_w _ _ _ s) ops) /\
  exists best fl, best_ops (arch s) (muts s) best /\ (fl = true <-> (flops_constraints <= subnet_flops best)%Z) /\
    (n_sa _ _ _ s', arch s') = stepA (n_sa _ _ _ s) (arch s) (total s (gA (arch s) (map f (seq 0 (length (muts s)))) fl)).
Proof.
  intros He N Hs E. unfold train_step in E. destruct (Nat.eqb_spec e finetune_epochs) as [->|_]; [lia|]. cbn [andb bind] in E.
  destruct (run_ops _ _ (arch s) f 0 (muts s)) as [xs|] eqn:E2; cbn [bind] in E; [|discriminate].
  destruct (run_ops_sampled _ _ N _ _ _ E2 Hs) as [S1 S2]. rewrite (run_ops_searching _ _ N _ _ _ E2 Hs), S1 in E.
  destruct (stepW _ _ _) as [sw w] eqn:Ew. cbn [n_w n_a n_ga n_sw n_sa n_super n_muts] in E.
  destruct (need_update_mutator _ _ e); [|discriminate].
  destruct (with_flops_loss _ _ _ _ _ _) as [fl|] eqn:Ef; cbn [bind] in E; [|discriminate].
  fold (total s (gA (arch s) (map f (seq 0 (length (muts s)))) fl)) in E.
  destruct (stepA _ _ _) as [sa a] eqn:Ea. destruct (handle_grads _ _) as [ga|]; cbn [bind] in E; [|discriminate]. apply Ok_inj in E. injection E as <- <-. cbn [n_w n_a n_ga n_sw n_sa n_super n_muts].
  split; [exact S2|]. split; [symmetry; exact Ew|].
  unfold with_flops_loss in Ef. destruct (fix_architecture _ _ _ _) as [ms'|] eqn:F; cbn [bind] in Ef; [|discriminate]. apply Ok_inj in Ef.
  destruct (fix_architecture_spec _ _ _ Hs F) as (_ & _ & best & B1 & B2). exists best, fl. split; [exact B2|]. split; [|symmetry; exact Ea].
  assert (map (fun m => match u_fixed m with Some c => c | None => "" end) ms' = best) as K.
  { clear - B1. revert best B1. induction ms' as [|m ms' IH]; intros [|b best] H; cbn [map] in *; try discriminate; [reflexivity|]. injection H as -> H. f_equal. auto. }
  rewrite K in Ef. subst fl. apply Z.leb_le.
Qed.

(** * C140 *)

(** A supernet that is searched: at least two candidates each, groups of mutables with the same candidates that cover all
    mutables, samples and best operations exist. *)
Definition ready (f : nat -> nat) (s : state) : Prop :=
  (forall i m, nth_error (muts s) i = Some m -> u_fixed m = None /\ 2 <= length (u_all m) /\ f i < length (u_all m)) /\
  (forall g l, nth_error groups g = Some l -> l <> [] /\ forall i, In i l -> exists m, nth_error (muts s) i = Some m /\ argmax (nth g (arch s) []) < length (u_all m)) /\
  (forall i m, nth_error (muts s) i = Some m -> exists l, In l groups /\ In i l) /\
  (forall g l i j m m', nth_error groups g = Some l -> In i l -> In j l -> nth_error (muts s) i = Some m -> nth_error (muts s) j = Some m' -> u_all m = u_all m').

Lemma run_ops_ok a f : (forall v, fires v = false) -> forall ms i,
  (forall k m, nth_error ms k = Some m -> u_fixed m = None /\ 2 <= length (u_all m) /\ f (i + k) < length (u_all m)) -> exists xs, run_ops fires groups a f i ms = Ok xs.
Proof.
  intros N. induction ms as [|m ms IH]; intros i H; cbn [run_ops]; [eauto|].
  destruct (H 0 m eq_refl) as (A & B & C). rewrite Nat.add_0_r in C. unfold run_op. rewrite A, N.
  destruct (nth_error (u_all m) (f i)) as [c|] eqn:Ec; [|apply nth_error_None in Ec; lia].
  destruct (u_all m) as [|c0 [|c1 r]]; cbn [length] in B; try lia. cbn [bind].
  destruct (IH (S i)) as [xs Hx]; [intros k m' Hk; replace (S i + k) with (i + S k) by lia; apply H; exact Hk|]. rewrite Hx. cbn [bind]. eauto.
Qed.
Lemma sample_ok ms a : (forall m, In m ms -> u_fixed m = None) -> forall gs g,
  (forall k l, nth_error gs k = Some l -> l <> [] /\ forall i, In i l -> exists m, nth_error ms i = Some m /\ argmax (nth (g + k) a []) < length (u_all m)) ->
  exists cs, sample_from argmax ms a gs g = Ok cs.
Proof.
  intros Hs. induction gs as [|l gs IH]; intros g H; cbn [sample_from]; [eauto|].
  destruct (H 0 l eq_refl) as [H1 H2]. destruct l as [|j l]; [congruence|]. cbn [bind].
  destruct (H2 j (or_introl eq_refl)) as (m & M1 & M2). rewrite Nat.add_0_r in M2. rewrite M1. cbn [bind].
  unfold sample_choice, choices. rewrite (Hs m (nth_error_In _ _ M1)).
  match goal with |- context [nth_error (u_all m) ?x] => destruct (nth_error (u_all m) x) as [c|] eqn:Ec end; [|apply nth_error_None in Ec; unfold vec in *; lia]. cbn [bind].
  destruct (IH (S g)) as [cs Hc]; [intros k l' Hk; replace (S g + k) with (g + S k) by lia; apply H; exact Hk|]. rewrite Hc. cbn [bind]. eauto.
Qed.
Lemma fix_ok cs : length cs = length groups -> forall ms i, searching ms ->
  (forall k m, nth_error ms k = Some m -> exists l, In l groups /\ In (i + k) l) -> exists ms', fix_from groups cs i ms = Ok ms'.
Proof.
  intros L. induction ms as [|m ms IH]; intros i Hs H; cbn [fix_from]; [eauto|].
  rewrite (Hs m (or_introl eq_refl)). destruct (H 0 m eq_refl) as (l & L1 & L2). rewrite Nat.add_0_r in L2.
  destruct (last_group_some i groups 0) as [g Hg]; [eauto|]. rewrite Hg.
  destruct (last_group_spec _ _ _ _ Hg) as (_ & (l' & L3 & _) & _). rewrite Nat.sub_0_r in L3.
  destruct (nth_error cs g) as [c|] eqn:Ec.
  - cbn [bind]. destruct (IH (S i)) as [r Hr]; [intros x Hx; apply Hs; right; exact Hx|intros k m' Hk; replace (S i + k) with (i + S k) by lia; apply (H (S k) m'); exact Hk|].
    rewrite Hr. cbn [bind]. eauto.
  - apply nth_error_None in Ec. assert (g < length groups) by (apply nth_error_Some; congruence). lia.
Qed.
Lemma ready_fix f s : ready f s -> exists ms', fix_architecture argmax groups (arch s) (muts s) = Ok ms' /\ forall k m, nth_error ms' k = Some m -> exists c, u_fixed m = Some c /\ In c (u_all m).
Proof.
  intros (R1 & R2 & R3 & R4).
  assert (Hs : searching (muts s)) by (intros m Hm; apply In_nth_error in Hm; destruct Hm as [i Hi]; apply (R1 i m Hi)).
  unfold fix_architecture, sample_choices. destruct (sample_ok (muts s) (arch s) Hs groups 0) as [cs Hc]; [intros k l Hk; exact (R2 k l Hk)|].
  rewrite Hc. cbn [bind]. destruct (sample_from_spec _ _ Hs _ _ _ Hc) as [P Q].
  destruct (fix_ok cs P (muts s) 0 Hs) as [ms' Hm]; [intros k m Hk; exact (R3 k m Hk)|]. exists ms'. split; [exact Hm|].
  destruct (fix_from_spec _ _ _ _ Hm) as (A & B & C & F). intros k m Hk. destruct (F Hs k m Hk) as (g & c & G1 & G2 & G3). cbn [Nat.add] in G1.
  exists c. split; [exact G3|]. destruct (Q g c G2) as (j & l & m0 & Q1 & Q2 & Q3).
  destruct (last_group_spec _ _ _ _ G1) as (_ & (l' & L1 & L2) & _). rewrite Nat.sub_0_r in L1. assert (l' = j :: l) by congruence. subst l'.
  assert (K : nth_error (map u_all ms') k = Some (u_all m)) by (rewrite nth_error_map, Hk; reflexivity). rewrite B, nth_error_map in K.
  destruct (nth_error (muts s) k) as [mk|] eqn:Ek; cbn [option_map] in K; [|discriminate]. injection K as K. rewrite <- K.
  rewrite (R4 g (j :: l) k j mk m0 Q1 L2 (or_introl eq_refl) Ek Q2). eapply nth_error_In. exact Q3.
Qed.
(** Without thresholds (PyTorch 1) no step fails. *)
Theorem C140_runs_partial e d f s : (forall v, fires v = false) -> to_none = false -> ready f s -> exists r, step e d f s = Ok r.
Proof.
  intros N Hn H. destruct (ready_fix f s H) as (ms' & F1 & F2). destruct H as (R1 & R2 & R3 & R4).
  unfold train_step. destruct (Nat.eqb_spec e finetune_epochs) as [->|Ne]; cbn [andb].
  - destruct (super s).
    + rewrite F1. cbn [bind n_a n_muts n_w n_ga n_sw n_sa n_super].
      assert (X : forall ms i, (forall k m, nth_error ms k = Some m -> exists c, u_fixed m = Some c /\ In c (u_all m)) -> exists xs, run_ops fires groups (arch s) f i ms = Ok xs).
      { induction ms as [|m ms IH]; intros i K; cbn [run_ops]; [eauto|]. destruct (K 0 m eq_refl) as (c & K1 & K2). unfold run_op. rewrite K1.
        assert (existsb (String.eqb c) (u_all m) = true) as -> by (apply existsb_exists; exists c; split; [exact K2|apply String.eqb_refl]).
        cbn [bind]. destruct (IH (S i)) as [xs ->]; [intros k m' Hk; exact (K (S k) m' Hk)|]. cbn [bind]. eauto. }
      destruct (X ms' 0 F2) as [xs ->]. cbn [bind]. destruct (stepW _ _ _). cbn [n_a n_muts n_w n_ga n_sw n_sa n_super].
      unfold need_update_mutator. rewrite Nat.ltb_irrefl, Bool.andb_false_r. eauto.
    + cbn [bind]. destruct (run_ops_ok (arch s) f N (muts s) 0 R1) as [xs Hx]. rewrite Hx. cbn [bind]. destruct (stepW _ _ _). cbn [n_a n_muts n_w n_ga n_sw n_sa n_super].
      unfold need_update_mutator. rewrite Nat.ltb_irrefl, Bool.andb_false_r. eauto.
  - cbn [bind]. destruct (run_ops_ok (arch s) f N (muts s) 0 R1) as [xs Hx]. rewrite Hx. cbn [bind]. destruct (stepW _ _ _). cbn [n_a n_muts n_w n_ga n_sw n_sa n_super].
    destruct (need_update_mutator _ _ e); [|eauto].
    assert (Hs : searching (muts s)) by (intros m Hm; apply In_nth_error in Hm; destruct Hm as [i Hi]; apply (R1 i m Hi)).
    rewrite (run_ops_searching _ _ N _ _ _ Hx Hs). unfold with_flops_loss. rewrite F1. cbn [bind]. destruct (stepA _ _ _). rewrite Hn. cbn [handle_grads bind]. eauto.
Qed.
End Props.

(** * Examples and counterexamples *)

(** One mutable with the candidates a, b, c; training data are the rewards; the weights are a list of the
    operations that were run. *)
Definition demo_gA (a : list vec) (idx : list nat) (fl : bool) : list vec := map (fun v => map (fun _ => 1%R) v) a.
Definition demo_stepA (sa : list (list vec)) (a g : list vec) : list (list vec) * list vec := (g :: sa, a).
Definition demo_stepW (sw : unit) (w : list (list string)) (g : list string) : unit * list (list string) := (tt, g :: w).
Definition demo_gW (d : R) (w : list (list string)) (ops : list string) : list string := ops.
Definition demo_rewards (d : R) (w : list (list string)) (ops : list string) : list R := [d].
Notation demo_run fires argmax none := (train_run R (list (list string)) (list string) unit (list (list vec)) demo_gW demo_stepW demo_gA demo_stepA demo_rewards argmax fires (fun _ => 0%Z) 1 3 5%Z [[0]] none).
Definition demo_state : dsnas (list (list string)) unit (list (list vec)) :=
  {| n_w := []; n_a := [[0%R; 0%R; 0%R]]; n_ga := None; n_sw := tt; n_sa := []; n_super := true; n_muts := [{| u_all := ["a"; "b"; "c"]; u_fixed := None |}] |}.
Definition pick (k : nat) (e : nat) : nat * R * (nat -> nat) := (e, 2%R, fun _ => k).
(** A new algorithm is in the state of the examples. *)
Example C137_example_new : new_dsnas (list (list string)) unit (list (list vec)) 1 3 [] [[0%R; 0%R; 0%R]] tt [] [["a"; "b"; "c"]] = Ok demo_state.
Proof. reflexivity. Qed.

(** Epochs 0 to 4, of which 1 and 2 update the mutator and 3 and 4 run b. *)
Example C137_example : exists s', demo_run (fun _ => false) (fun _ => 1) false [pick 0 0; pick 2 1; pick 1 2; pick 0 3; pick 2 4] demo_state =
  Ok (s', [(0, ["a"], false); (1, ["c"], true); (2, ["b"], true); (3, ["b"], false); (4, ["b"], false)]).
Proof. eexists. cbv -[Rplus Rmult IZR]. reflexivity. Qed.
Example C137_example_hyps : searching (n_muts _ _ _ demo_state) /\ best_ops (fun _ => 1) [[0]] [[0%R; 0%R; 0%R]] (n_muts _ _ _ demo_state) ["b"].
Proof.
  split; [intros m [<-|[]]; reflexivity|]. split; [reflexivity|]. intros [|[|i]] c H; try discriminate. injection H as <-.
  exists 0, 0, [], {| u_all := ["a"; "b"; "c"]; u_fixed := None |}. repeat split; [left; reflexivity|].
  intros [|[|g]] l' H Hi; try discriminate. lia.
Qed.
(** The claim: in the epochs from finetune_epochs on all steps run one subnet. A run that is resumed after the
    epoch finetune_epochs goes on sampling. *)
Definition C137_claim : Prop :=
  forall (argmax : vec -> nat) steps s' tr, (forall x, In x steps -> 3 <= epoch_of R x) ->
    demo_run (fun _ => false) argmax false steps demo_state = Ok (s', tr) -> forall t t', In t tr -> In t' tr -> snd (fst t) = snd (fst t').
Theorem C137_refuted : ~ C137_claim.
Proof.
  intros H. specialize (H (fun _ => 1) [pick 0 4; pick 2 5]).
  destruct (demo_run (fun _ => false) (fun _ => 1) false [pick 0 4; pick 2 5] demo_state) as [[s' tr]|] eqn:E; [|discriminate].
  assert (K : tr = [(4, ["a"], false); (5, ["c"], false)]) by (apply (f_equal (fun o => match o with Ok x => snd x | Raise _ => [] end)) in E; symmetry; exact E).
  assert (J : forall x, In x [pick 0 4; pick 2 5] -> 3 <= epoch_of R x) by (intros x [<-|[<-|[]]]; cbn; lia).
  specialize (H s' tr J eq_refl (4, ["a"], false) (5, ["c"], false)). rewrite K in H. specialize (H (or_introl eq_refl) (or_intror (or_introl eq_refl))). discriminate.
Qed.

(** ** C138 *)
(** Mutables in the order of their numbers, with different names. *)
Definition numbered (ms : list modl) : Prop := NoDup (map md_name ms) /\ forall p m, nth_error ms p = Some m -> exists a, md_srcs m = [(p, a)].
(** The group that the loss of a mutable is computed with has the mutable. *)
Definition own (ms : list modl) (groups : list (list nat)) (p : nat) : Prop :=
  exists m k l, nth_error ms p = Some m /\ loss_key ms (md_name m) = Ok k /\ nth_error groups k = Some l /\ In p l.
Definition C138_claim : Prop := forall ms custom groups, numbered ms -> build_search_groups ms custom = Ok groups -> forall p, p < length ms -> own ms groups p.

Lemma position_nth : forall l p n, NoDup l -> nth_error l p = Some n -> position n l = Some p.
Proof.
  induction l as [|x l IH]; intros [|p] n Hn H; cbn [nth_error] in H; try discriminate; cbn [position].
  - injection H as ->. rewrite String.eqb_refl. reflexivity.
  - inversion Hn as [|? ? N1 N2]; subst. destruct (String.eqb_spec x n) as [->|_]; [exfalso; apply N1; eapply nth_error_In; eauto|].
    rewrite (IH _ _ N2 H). reflexivity.
Qed.
Lemma numbered_filter ms : numbered ms -> filter (fun m => negb (Nat.eqb (length (md_srcs m)) 0)) ms = ms.
Proof.
  intros [_ H]. assert (K : forall m, In m ms -> negb (Nat.eqb (length (md_srcs m)) 0) = true).
  { intros m Hm. apply In_nth_error in Hm. destruct Hm as [p Hp]. destruct (H p m Hp) as [a ->]. reflexivity. }
  clear H. induction ms as [|m ms IH]; [reflexivity|]. cbn [filter]. rewrite (K m (or_introl eq_refl)). f_equal. apply IH. intros x Hx. apply K. right. exact Hx.
Qed.
Lemma numbered_key ms p m : numbered ms -> nth_error ms p = Some m -> loss_key ms (md_name m) = Ok p.
Proof.
  intros H Hm. unfold loss_key. rewrite (numbered_filter ms H). rewrite (position_nth _ p); [reflexivity|apply H|]. rewrite nth_error_map, Hm. reflexivity.
Qed.
Lemma numbered_srcs : forall ms, (forall p m, nth_error ms p = Some m -> exists a, md_srcs m = [(p, a)]) -> flat_map (fun m => map fst (md_srcs m)) ms = seq 0 (length ms).
Proof.
  assert (K : forall ms i, (forall p m, nth_error ms p = Some m -> exists a, md_srcs m = [(i + p, a)]) -> flat_map (fun m => map fst (md_srcs m)) ms = seq i (length ms)).
  { induction ms as [|m ms IH]; intros i H; [reflexivity|]. cbn [flat_map length seq]. destruct (H 0 m eq_refl) as [a ->]. rewrite Nat.add_0_r. cbn [map fst app].
    f_equal. apply IH. intros p x Hx. replace (S i + p) with (i + S p) by lia. exact (H (S p) x Hx). }
  intros ms H. apply K. exact H.
Qed.
(** Without aliases and custom groups every mutable has its own architecture parameters. *)
Theorem C138_partial ms groups : numbered ms -> no_alias ms -> build_search_groups ms [] = Ok groups -> forall p, p < length ms -> own ms groups p.
Proof.
  intros H Ha E p Hp. rewrite (C24_no_custom ms Ha) in E. apply Ok_inj in E. subst groups.
  destruct (nth_error ms p) as [m|] eqn:Em; [|apply nth_error_None in Em; lia].
  exists m, p, [p]. split; [exact Em|]. split; [exact (numbered_key ms p m H Em)|]. split; [|left; reflexivity].
  assert (K : map (fun s : nat * option string => [fst s]) (flat_map md_srcs ms) = map (fun i => [i]) (flat_map (fun m => map fst (md_srcs m)) ms)).
  { clear. induction ms as [|m ms IH]; [reflexivity|]. cbn [flat_map]. rewrite !map_app, IH, map_map. reflexivity. }
  rewrite K, (numbered_srcs ms) by apply H. rewrite nth_error_map.
  assert (nth_error (seq 0 (length ms)) p = Some p) as ->; [|reflexivity]. rewrite (nth_error_nth' _ 0) by (rewrite seq_length; exact Hp). rewrite seq_nth by exact Hp. reflexivity.
Qed.
Lemma concat_unique {A} : forall (gs : list (list A)) g h l l' x, NoDup (concat gs) -> nth_error gs g = Some l -> nth_error gs h = Some l' -> In x l -> In x l' -> g = h.
Proof.
  induction gs as [|a gs IH]; intros [|g] [|h] l l' x N Hg Hh Hl Hl'; cbn [nth_error] in *; try discriminate; auto.
  - injection Hg as ->. exfalso. cbn [concat] in N. assert (In x (concat gs)) by (apply in_concat; exists l'; split; [eapply nth_error_In; eauto|exact Hl']).
    clear - N Hl H. induction l as [|y l IH]; [destruct Hl|]. cbn [app] in N. inversion N; subst. destruct Hl as [->|Hl]; [apply H2; apply in_or_app; auto|auto].
  - injection Hh as ->. exfalso. cbn [concat] in N. assert (In x (concat gs)) by (apply in_concat; exists l; split; [eapply nth_error_In; eauto|exact Hl]).
    clear - N Hl' H. induction l' as [|y l' IH]; [destruct Hl'|]. cbn [app] in N. inversion N; subst. destruct Hl' as [->|Hl]; [apply H2; apply in_or_app; auto|auto].
  - f_equal. eapply IH; eauto. cbn [concat] in N. clear - N. induction a as [|y a IH]; [exact N|]. inversion N; subst. auto.
Qed.
(** As soon as two mutables are in one group, the loss of some mutable is not computed with its parameters. *)
Theorem C138_grouped ms custom groups : numbered ms -> plain_model ms -> build_search_groups ms custom = Ok groups ->
  forall l p q, In l groups -> In p l -> In q l -> p <> q -> exists r, r < length ms /\ ~ own ms groups r.
Proof.
  intros H Hpl E l p q Hl Hp Hq Hpq. destruct (C24_groups_partial ms custom groups Hpl E) as [Hperm _]. rewrite (numbered_srcs ms) in Hperm by apply H.
  assert (N : NoDup (concat groups)) by (eapply Permutation_NoDup; [symmetry; exact Hperm|apply seq_NoDup]).
  assert (B : forall x, In x l -> x < length ms).
  { intros x Hx. assert (In x (concat groups)) as K by (apply in_concat; eauto). apply (Permutation_in _ Hperm) in K. apply in_seq in K. lia. }
  apply In_nth_error in Hl. destruct Hl as [g Hg].
  assert (O : forall x, In x l -> own ms groups x -> g = x).
  { intros x Hx (m & k & l' & O1 & O2 & O3 & O4). rewrite (numbered_key ms x m H O1) in O2. apply Ok_inj in O2. subst k.
    exact (concat_unique groups g x l l' x N Hg O3 Hx O4). }
  destruct (Nat.eq_dec g p) as [->|Ne].
  - exists q. split; [auto|]. intros K. specialize (O q Hq K). congruence.
  - exists p. split; [auto|]. intros K. specialize (O p Hp K). congruence.
Qed.
Definition demo_modules : list modl :=
  [{| md_name := "a"; md_srcs := [(0, None)] |}; {| md_name := "b"; md_srcs := [(1, Some "x")] |}; {| md_name := "c"; md_srcs := [(2, Some "x")] |}].
Lemma demo_numbered : numbered demo_modules.
Proof.
  split; [cbn; repeat (constructor; [cbn; intuition discriminate|]); constructor|].
  intros [|[|[|[|p]]]] m H; cbn in H; try discriminate; injection H as <-; cbn; eauto.
Qed.
(** Two mutables with one alias: the loss of the first is computed with the parameters of the group of the others. *)
Theorem C138_refuted : ~ C138_claim.
Proof.
  intros H. destruct (H demo_modules [] [[1; 2]; [0]] demo_numbered eq_refl 0) as (m & k & l & A & B & C & F); [cbn; lia|].
  cbn in A. injection A as <-. cbn in B. apply Ok_inj in B. subst k. cbn in C. injection C as <-. destruct F as [F|[F|[]]]; discriminate.
Qed.
(** And for the last there is none. *)
Example C138_example_none : build_search_groups demo_modules [] = Ok [[1; 2]; [0]] /\ loss_key demo_modules "c" = Ok 2 /\ nth_error [[1; 2]; [0]] 2 = None.
Proof. repeat split. Qed.
Definition demo_singles : list modl := [{| md_name := "a"; md_srcs := [(0, None)] |}; {| md_name := "b"; md_srcs := [(1, None)] |}].
Example C138_example : numbered demo_singles /\ no_alias demo_singles /\ build_search_groups demo_singles [] = Ok [[0]; [1]] /\ own demo_singles [[0]; [1]] 1.
Proof.
  split; [|split; [|split]].
  - split; [cbn; repeat (constructor; [cbn; intuition discriminate|]); constructor|]. intros [|[|[|p]]] m H; cbn in H; try discriminate; injection H as <-; cbn; eauto.
  - intros m s [<-|[<-|[]]] [<-|[]]; reflexivity.
  - reflexivity.
  - exists {| md_name := "b"; md_srcs := [(1, None)] |}, 1, [1]. repeat split. left. reflexivity.
Qed.

(** ** C139 *)
(** The claim: the optimizer of the architecture parameters gets the gradient times the reward. *)
Definition C139_claim : Prop :=
  forall d k s', demo_run (fun _ => false) (fun _ => 1) false [(1, d, fun _ => k)] demo_state = Ok (s', [(1, [nth k ["a"; "b"; "c"] ""], true)]) ->
    exists g, n_sa _ _ _ s' = [g] /\ times_rewards [d] (demo_gA (n_a _ _ _ demo_state) [k] false) g.
Theorem C139_refuted : ~ C139_claim.
Proof.
  intros H. specialize (H 2%R 0).
  destruct (demo_run (fun _ => false) (fun _ => 1) false [(1, 2%R, fun _ => 0)] demo_state) as [[s' tr]|] eqn:E; [|discriminate].
  assert (K : tr = [(1, ["a"], true)]) by (apply (f_equal (fun o => match o with Ok x => snd x | Raise _ => [] end)) in E; symmetry; exact E).
  assert (J : n_sa _ _ _ s' = [[[1%R; 1%R; 1%R]]]) by (apply (f_equal (fun o => match o with Ok x => n_sa _ _ _ (fst x) | Raise _ => [] end)) in E; symmetry; exact E).
  rewrite K in H. specialize (H s' eq_refl). rewrite J in H.
  destruct H as (g & Hg & _ & H). injection Hg as <-. specialize (H 0 (Nat.lt_0_succ 0)).
  apply (f_equal (hd 0%R)) in H. cbv -[Rplus Rmult IZR] in H. lra.
Qed.
Example C139_example : exists s', demo_run (fun _ => false) (fun _ => 1) false [(1, 2%R, fun _ => 0)] demo_state = Ok (s', [(1, ["a"], true)]) /\
  n_sa _ _ _ s' = [[[1%R; 1%R; 1%R]]] /\ n_ga _ _ _ s' = Some [[(2 * (0 * 1))%R; (2 * (0 * 1))%R; (2 * (0 * 1))%R]].
Proof. eexists. repeat split. Qed.
Example C139_example_none : demo_run (fun _ => false) (fun _ => 1) true [(1, 2%R, fun _ => 0)] demo_state = Raise AttributeError.
Proof. reflexivity. Qed.

(** ** C140 *)
(** The claim: the same with thresholds. A mutable that reaches its threshold is left with one candidate, the second; the best
    operation is then looked up among the candidates that are left. *)
Definition C140_claim : Prop :=
  forall fires argmax e d k, ready (list (list string)) unit (list (list vec)) argmax [[0]] (fun _ => k) demo_state -> exists r, demo_run fires argmax false [(e, d, fun _ => k)] demo_state = Ok r.
Lemma demo_ready k n : k < 3 -> n < 3 -> ready (list (list string)) unit (list (list vec)) (fun _ => n) [[0]] (fun _ => k) demo_state.
Proof.
  intros Hk Hn. split; [|split; [|split]].
  - intros [|[|i]] m H; try discriminate. injection H as <-. cbn. repeat split; lia.
  - intros [|[|g]] l H; try discriminate. injection H as <-. split; [discriminate|]. intros i [<-|[]]. eexists. split; [reflexivity|]. cbn. lia.
  - intros [|[|i]] m H; try discriminate. exists [0]. cbn. auto.
  - intros [|[|g]] l i j m m' H; try discriminate. injection H as <-. intros [<-|[]] [<-|[]] A B. congruence.
Qed.
Theorem C140_refuted : ~ C140_claim.
Proof.
  intros H. destruct (H (fun _ => true) (fun _ => 1) 1 2%R 0) as [r Hr]; [apply demo_ready; lia|]. discriminate.
Qed.
Example C140_example : ready (list (list string)) unit (list (list vec)) (fun _ => 1) [[0]] (fun _ => 2) demo_state /\ demo_run (fun _ => true) (fun _ => 1) false [(1, 2%R, fun _ => 2)] demo_state = Raise IndexError.
Proof. split; [apply demo_ready; lia|reflexivity]. Qed.

Print Assumptions C137_mutator.
Print Assumptions C137_frozen.
Print Assumptions C137_finetune_partial.
Print Assumptions C137_refuted.
Print Assumptions C138_partial.
Print Assumptions C138_grouped.
Print Assumptions C138_refuted.
Print Assumptions C139_step_partial.
Print Assumptions C139_loss_partial.
Print Assumptions C139_none.
Print Assumptions C139_refuted.
Print Assumptions C140_runs_partial.
Print Assumptions C140_refuted.
Print Assumptions C137_new.
