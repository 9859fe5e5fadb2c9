(** C26, C27, C64. *)
From Verif Require Import Prelude Recorder_Model.

(** * Specification *)
(** A program start: no wrapper is bound anywhere. *)
Definition pristine (w : world) : Prop := (forall t, exists n, w_env w t = FOrig n) /\ forall i, exists n, w_saved w i = FOrig n.
(** Method recorders were built from the methods that are bound in [w]. *)
Definition built_in (rs : list recorder) (w : world) : Prop :=
  forall r o, In r rs -> r_kind r = RMeth o -> o = w_env w (r_target r).
(** A recorder's outcome list: the results of the successful calls of its source, in order. *)
Definition outcomes (r : recorder) (evs : list event) : list val :=
  flat_map (fun e => match r_kind r, e with
                     | RModule, EForward n (Some v) => if String.eqb (r_target r) n then [v] else []
                     | RModule, _ => []
                     | _, ECall t (Some v) => if String.eqb (r_target r) t then [v] else []
                     | _, _ => []
                     end) evs.

(** * C26 *)
Definition C26_claim : Prop :=
  forall rs evs w, NoDup (map r_id rs) -> pristine w -> built_in rs w ->
    forall t, w_env (run_block rs evs w) t = w_env w t.
Definition w_start : world :=
  {| w_env := fun _ => FOrig 0; w_ep := fun _ => 0%nat; w_saved := fun _ => FOrig 0; w_on := fun _ => false; w_buf := fun _ _ => [] |}.
Definition two_funcs (t : string) : list recorder :=
  [{| r_id := 0; r_kind := RFunc; r_target := t |}; {| r_id := 1; r_kind := RFunc; r_target := t |}].
Lemma start_pristine : pristine w_start.
Proof. split; intros; exists 0%nat; reflexivity. Qed.
(** Two function recorders on one function leave a wrapper behind, because the recorders are
    left in the order in which they were entered. *)
Theorem C26_same_function_refuted : ~ C26_claim.
Proof.
  intros H. specialize (H (two_funcs "m.f") [] w_start).
  assert (Hn : NoDup (map r_id (two_funcs "m.f"))) by (cbn; repeat constructor; cbn; intuition discriminate).
  assert (Hb : built_in (two_funcs "m.f") w_start) by (intros r o [<-|[<-|[]]]; discriminate).
  specialize (H Hn start_pristine Hb "m.f"%string). vm_compute in H. discriminate.
Qed.
Print Assumptions C26_same_function_refuted.

Fixpoint depth (f : fn) : nat := match f with FOrig _ => 0 | FWrap _ _ g => S (depth g) end.
Lemma step_env rs w e : w_env (step rs w e) = w_env w /\ w_ep (step rs w e) = w_ep w /\ w_saved (step rs w e) = w_saved w /\ w_on (step rs w e) = w_on w.
Proof. destruct e as [t [v|]|n [v|]]; cbn; auto. Qed.
Lemma steps_env rs evs : forall w, w_env (fold_left (step rs) evs w) = w_env w /\ w_ep (fold_left (step rs) evs w) = w_ep w /\
  w_saved (fold_left (step rs) evs w) = w_saved w /\ w_on (fold_left (step rs) evs w) = w_on w.
Proof.
  induction evs as [|e evs IH]; intros w; cbn; [auto|]. destruct (IH (step rs w e)) as (A & B & C & D).
  destruct (step_env rs w e) as (A' & B' & C' & D'). rewrite A, B, C, D. auto.
Qed.
(** The leak grows: after n blocks the function is wrapped n times. *)
Theorem C26_leak_grows :
  forall t bs w, depth (w_env (run_blocks (two_funcs t) bs w) t) = (length bs + depth (w_env w t))%nat.
Proof.
  intros t. induction bs as [|evs bs IH]; intros w; [reflexivity|]. cbn [run_blocks fold_left length].
  change (fold_left (fun w evs => run_block (two_funcs t) evs w) bs (run_block (two_funcs t) evs w)) with (run_blocks (two_funcs t) bs (run_block (two_funcs t) evs w)).
  rewrite IH. assert (E : depth (w_env (run_block (two_funcs t) evs w) t) = S (depth (w_env w t))); [|lia].
  unfold run_block. set (w1 := enter_all (two_funcs t) w). destruct (steps_env (two_funcs t) evs w1) as (A & _ & C & _).
  set (w2 := fold_left (step (two_funcs t)) evs w1) in *. unfold exit_all, two_funcs. cbn -[w2]. unfold upds at 1.
  rewrite String.eqb_refl, C. unfold w1, enter_all, two_funcs. cbn. unfold upd, upds. cbn. rewrite String.eqb_refl. reflexivity.
Qed.
Print Assumptions C26_leak_grows.

(** Slots that a recorder patches. *)
Definition patches (r : recorder) (t : string) : Prop := r_kind r <> RModule /\ r_target r = t.
Definition separate (rs : list recorder) : Prop :=
  (* at most one function recorder per function, and functions are not methods *)
  NoDup (map r_target (filter (fun r => match r_kind r with RFunc => true | _ => false end) rs)) /\
  (forall r r' o, In r rs -> In r' rs -> r_kind r = RFunc -> r_kind r' = RMeth o -> r_target r <> r_target r').

Lemma upd_same {A} (f : nat -> A) i x : upd f i x i = x.
Proof. unfold upd. rewrite Nat.eqb_refl. reflexivity. Qed.
Lemma upd_other {A} (f : nat -> A) i j x : i <> j -> upd f i x j = f j.
Proof. intros H. unfold upd. apply Nat.eqb_neq in H. rewrite H. reflexivity. Qed.
Lemma upds_same {A} (f : string -> A) i x : upds f i x i = x.
Proof. unfold upds. rewrite String.eqb_refl. reflexivity. Qed.
Lemma upds_other {A} (f : string -> A) i j x : i <> j -> upds f i x j = f j.
Proof. intros H. unfold upds. apply String.eqb_neq in H. rewrite H. reflexivity. Qed.

Lemma exit_env rs : forall w t,
  w_saved (exit_all rs w) = w_saved w /\
  forall f, (forall r, In r rs -> patches r t -> w_saved w (r_id r) = f) ->
    ((exists r, In r rs /\ patches r t) \/ w_env w t = f) -> w_env (exit_all rs w) t = f.
Proof.
  induction rs as [|r rs IH]; intros w t; cbn [exit_all fold_left].
  - split; [reflexivity|]. intros f _ [(r & [] & _)|H]; exact H.
  - change (fold_left (fun w r => exit_ r w) rs (exit_ r w)) with (exit_all rs (exit_ r w)).
    assert (Hs : w_saved (exit_ r w) = w_saved w) by (unfold exit_; destruct (r_kind r); reflexivity).
    destruct (IH (exit_ r w) t) as [A B]. split; [congruence|]. intros f Hall Hex. apply B.
    + intros r' Hin Hp. rewrite Hs. apply Hall; [right; exact Hin|exact Hp].
    + destruct Hex as [(r' & [<-|Hin] & Hp)|He].
      * right. unfold exit_. assert (Hsv := Hall r (or_introl eq_refl) Hp). destruct Hp as [Hk Ht].
        destruct (r_kind r); [| |congruence]; cbn; rewrite Ht, upds_same; exact Hsv.
      * left. eauto.
      * destruct (String.eqb (r_target r) t) eqn:Et.
        -- apply String.eqb_eq in Et. right. unfold exit_. destruct (r_kind r) eqn:Ek; cbn; try exact He; rewrite Et, upds_same;
           (apply Hall; [left; reflexivity|]); split; congruence.
        -- apply String.eqb_neq in Et. right. unfold exit_. destruct (r_kind r); cbn; try exact He; rewrite upds_other by exact Et; exact He.
Qed.

Lemma enter_saved_other r w i : i <> r_id r -> w_saved (enter r w) i = w_saved w i.
Proof. intros H. unfold enter. destruct (r_kind r); cbn; try reflexivity; apply upd_other; congruence. Qed.
Lemma enter_all_saved_other rs : forall w i, ~ In i (map r_id rs) -> w_saved (enter_all rs w) i = w_saved w i.
Proof.
  induction rs as [|r rs IH]; intros w i Hi; cbn [enter_all fold_left]; [reflexivity|]. change (w_saved (enter_all rs (enter r w)) i = w_saved w i).
  cbn in Hi. rewrite IH by tauto. apply enter_saved_other. intros ->. tauto.
Qed.
Lemma enter_env_other r w t : ~ patches r t -> w_env (enter r w) t = w_env w t.
Proof.
  intros H. unfold enter. unfold patches in H. destruct (r_kind r) eqn:Ek; cbn; try reflexivity; apply upds_other; intros E; apply H; split; congruence.
Qed.
Lemma enter_env_unpatched rs : forall w t, (forall r, In r rs -> ~ patches r t) -> w_env (enter_all rs w) t = w_env w t.
Proof.
  induction rs as [|r rs IH]; intros w t H; cbn [enter_all fold_left]; [reflexivity|]. change (w_env (enter_all rs (enter r w)) t = w_env w t).
  rewrite IH by (intros r' Hr'; apply H; right; exact Hr'). apply enter_env_other. apply H. left. reflexivity.
Qed.
(** Every recorder saves what was bound before the block. *)
Lemma enter_saved rs : forall w w0, NoDup (map r_id rs) -> separate rs ->
  (forall r o, In r rs -> r_kind r = RMeth o -> o = w_env w0 (r_target r)) ->
  (forall r, In r rs -> r_kind r = RFunc -> w_env w (r_target r) = w_env w0 (r_target r)) ->
  forall r, In r rs -> r_kind r <> RModule -> w_saved (enter_all rs w) (r_id r) = w_env w0 (r_target r).
Proof.
  induction rs as [|r0 rs IH]; intros w w0 Hnd [Hs1 Hs2] Hm Hf r Hin Hk; [destruct Hin|].
  cbn [map] in Hnd. apply NoDup_cons_iff in Hnd as [Hn1 Hn2].
  change (w_saved (enter_all rs (enter r0 w)) (r_id r) = w_env w0 (r_target r)).
  destruct Hin as [<-|Hin].
  - rewrite enter_all_saved_other by exact Hn1. unfold enter. destruct (r_kind r0) eqn:E; cbn; try congruence; rewrite upd_same.
    + apply Hf; [left; reflexivity|exact E].
    + apply (Hm r0); [left; reflexivity|exact E].
  - apply IH; auto.
    + split.
      * cbn in Hs1. destruct (r_kind r0); [cbn in Hs1; inversion Hs1; assumption|exact Hs1|exact Hs1].
      * intros r1 r2 o H1 H2. apply Hs2; right; assumption.
    + intros r1 o H1. apply Hm. right. exact H1.
    + intros r1 H1 Ek. rewrite enter_env_other; [apply Hf; [right; exact H1|exact Ek]|]. intros [Hp1 Hp2].
      destruct (r_kind r0) eqn:E0; [|eapply (Hs2 r1 r0); [right; exact H1|left; reflexivity|exact Ek|exact E0|congruence]|congruence].
      cbn in Hs1. rewrite E0 in Hs1. cbn in Hs1. inversion Hs1 as [|x l Hx Hl]; subst. apply Hx. rewrite Hp2. apply in_map_iff.
      exists r1. split; [reflexivity|]. apply filter_In. split; [exact H1|]. rewrite Ek. reflexivity.
Qed.

(** C26, proved part: one block. *)
Lemma block_env rs evs w : NoDup (map r_id rs) -> separate rs -> built_in rs w -> forall t, w_env (run_block rs evs w) t = w_env w t.
Proof.
  intros Hnd Hs Hb t. unfold run_block. set (w1 := enter_all rs w). destruct (steps_env rs evs w1) as (A & _ & C & _).
  set (w2 := fold_left (step rs) evs w1) in *.
  assert (Hall : forall r, In r rs -> patches r t -> w_saved w2 (r_id r) = w_env w t).
  { intros r Hin [Hk <-]. rewrite C. unfold w1. apply enter_saved; auto. }
  destruct (exit_env rs w2 t) as [_ E]. apply E; [exact Hall|].
  destruct (existsb (fun r => match r_kind r with RModule => false | _ => String.eqb (r_target r) t end) rs) eqn:Ex.
  - left. apply existsb_exists in Ex as (r & Hin & Hr). exists r. split; [exact Hin|]. split; destruct (r_kind r); try discriminate; apply String.eqb_eq; exact Hr.
  - right. rewrite A. unfold w1. apply enter_env_unpatched. intros r Hin [Hk Ht].
    assert (Hc : existsb (fun r => match r_kind r with RModule => false | _ => String.eqb (r_target r) t end) rs = true); [|congruence].
    apply existsb_exists. exists r. split; [exact Hin|]. destruct (r_kind r); try congruence; apply String.eqb_eq; exact Ht.
Qed.
(** For any number of blocks and any calls inside them. *)
Theorem C26_restored_partial :
  forall rs bs w, NoDup (map r_id rs) -> separate rs -> built_in rs w ->
    forall t, w_env (run_blocks rs bs w) t = w_env w t.
Proof.
  intros rs bs. induction bs as [|evs bs IH]; intros w Hnd Hs Hb t; [reflexivity|]. unfold run_blocks. cbn [fold_left].
  fold (run_blocks rs bs (run_block rs evs w)). rewrite IH; auto.
  - apply block_env; assumption.
  - intros r o Hin Ek. rewrite block_env by assumption. apply (Hb r o); assumption.
Qed.
Print Assumptions C26_restored_partial.
Definition ex_rs : list recorder :=
  [{| r_id := 0; r_kind := RFunc; r_target := "m.f" |}; {| r_id := 1; r_kind := RMeth (FOrig 0); r_target := "m.C.g" |};
   {| r_id := 2; r_kind := RMeth (FOrig 0); r_target := "m.C.g" |}; {| r_id := 3; r_kind := RModule; r_target := "conv" |}].
Definition ex_evs : list event :=
  [ECall "m.f" (Some (VAtom 1)); EForward "conv" (Some (VAtom 5)); ECall "m.C.g" (Some (VAtom 2)); ECall "m.f" None;
   ECall "m.f" (Some (VList [VAtom 3; VAtom 4]))].
Lemma ex_rs_ok : NoDup (map r_id ex_rs) /\ separate ex_rs /\ built_in ex_rs w_start.
Proof.
  split; [cbn; repeat constructor; cbn; intuition discriminate|]. split; [split|].
  - cbn. repeat constructor; cbn; tauto.
  - intros r r' o H1 H2. cbn in H1, H2. repeat (destruct H1 as [<-|H1]; [|]); try destruct H1; repeat (destruct H2 as [<-|H2]; [|]); try destruct H2; cbn; intros; discriminate.
  - intros r o H1. cbn in H1. repeat (destruct H1 as [<-|H1]; [cbn; congruence|]). destruct H1.
Qed.
Example C26_example :
  w_env (enter_all ex_rs w_start) "m.f" = FWrap 0 1 (FOrig 0) /\ w_env (run_blocks ex_rs [ex_evs; ex_evs] w_start) "m.f" = FOrig 0.
Proof. split; vm_compute; reflexivity. Qed.

(** * C27 *)
Definition C27_claim : Prop :=
  forall rs bs evs w, NoDup (map r_id rs) -> pristine w -> built_in rs w ->
    forall r, In r rs -> data_of (run_block rs evs (run_blocks rs bs w)) r = outcomes r evs.
(** Of two method recorders on one method only the last records anything. *)
Theorem C27_same_method_refuted : ~ C27_claim.
Proof.
  intros H. destruct ex_rs_ok as (A & _ & B). specialize (H ex_rs [] ex_evs w_start A start_pristine B).
  specialize (H {| r_id := 1; r_kind := RMeth (FOrig 0); r_target := "m.C.g" |}). cbn in H. specialize (H (or_intror (or_introl eq_refl))).
  vm_compute in H. discriminate.
Qed.
Print Assumptions C27_same_method_refuted.

(** Occurrences of a buffer in a wrapper chain. *)
Fixpoint occ (i ep : nat) (f : fn) : nat :=
  match f with FOrig _ => 0 | FWrap j e g => (if Nat.eqb i j && Nat.eqb ep e then 1 else 0) + occ i ep g end.
Definition old_only (w : world) (rs : list recorder) : Prop :=
  (forall t i ep, (w_ep w i < ep)%nat -> occ i ep (w_env w t) = 0%nat) /\
  (forall j i ep, (w_ep w i < ep)%nat -> occ i ep (w_saved w j) = 0%nat) /\
  (forall r o i ep, In r rs -> r_kind r = RMeth o -> (w_ep w i < ep)%nat -> occ i ep o = 0%nat).

Lemma enter_ep r w i : w_ep (enter r w) i = if Nat.eqb (r_id r) i then S (w_ep w (r_id r)) else w_ep w i.
Proof. unfold enter. destruct (r_kind r); cbn; reflexivity. Qed.
Lemma enter_ep_le r w i : (w_ep w i <= w_ep (enter r w) i)%nat.
Proof. rewrite enter_ep. destruct (Nat.eqb (r_id r) i) eqn:E; [apply Nat.eqb_eq in E; subst; lia|lia]. Qed.
Lemma enter_old r rs w : old_only w rs -> In r rs -> old_only (enter r w) rs.
Proof.
  intros (A & B & C) Hin. split; [|split].
  - intros t i ep Hep. pose proof (enter_ep_le r w i). unfold enter in *.
    assert (Hwrap : forall o, occ i ep o = 0%nat -> (w_ep (enter r w) i < ep)%nat -> occ i ep (FWrap (r_id r) (S (w_ep w (r_id r))) o) = 0%nat).
    { intros o Ho Hlt. rewrite enter_ep in Hlt. cbn. rewrite Ho. destruct (Nat.eqb i (r_id r)) eqn:E; [|reflexivity].
      rewrite Nat.eqb_sym, E in Hlt. apply Nat.ltb_lt in Hlt. destruct (Nat.eqb ep (S (w_ep w (r_id r)))) eqn:E2; [|reflexivity].
      apply Nat.eqb_eq in E2. apply Nat.ltb_lt in Hlt. lia. }
    unfold enter in Hwrap.
    destruct (r_kind r) eqn:Ek; cbn in *; [| |apply A; lia]; destruct (String.eqb (r_target r) t) eqn:Et;
      try (unfold upds; rewrite Et; first [apply A; lia|apply Hwrap; [|exact Hep]]).
    + apply A. lia.
    + eapply C; [exact Hin|exact Ek|lia].
  - intros j i ep Hep. pose proof (enter_ep_le r w i). unfold enter in *. destruct (r_kind r) eqn:Ek; cbn in *; try unfold upd at 1.
    + destruct (Nat.eqb (r_id r) j); [apply A; lia|apply B; lia].
    + destruct (Nat.eqb (r_id r) j); [eapply C; [exact Hin|exact Ek|lia]|apply B; lia].
    + apply B; lia.
  - intros r' o i ep Hin' Ek Hep. pose proof (enter_ep_le r w i). eapply C; [exact Hin'|exact Ek|lia].
Qed.
Lemma enter_all_old rs0 rs : forall w, (forall r, In r rs -> In r rs0) -> old_only w rs0 -> old_only (enter_all rs w) rs0.
Proof.
  induction rs as [|r rs IH]; intros w Hsub H; [exact H|]. change (old_only (enter_all rs (enter r w)) rs0).
  apply IH; [intros r' Hr'; apply Hsub; right; exact Hr'|]. apply enter_old; [exact H|apply Hsub; left; reflexivity].
Qed.
Lemma exit_all_old rs0 rs : forall w, old_only w rs0 -> old_only (exit_all rs w) rs0 /\ w_ep (exit_all rs w) = w_ep w /\ w_buf (exit_all rs w) = w_buf w.
Proof.
  induction rs as [|r rs IH]; intros w H; [auto|]. change (exit_all (r :: rs) w) with (exit_all rs (exit_ r w)).
  assert (H' : old_only (exit_ r w) rs0 /\ w_ep (exit_ r w) = w_ep w /\ w_buf (exit_ r w) = w_buf w).
  { destruct H as (A & B & C). unfold exit_. destruct (r_kind r); cbn; (split; [|auto]); (split; [|split]); cbn; auto;
    intros t i ep Hep; unfold upds; destruct (String.eqb (r_target r) t); auto. }
  destruct H' as (H1 & H2 & H3). destruct (IH _ H1) as (I1 & I2 & I3). split; [exact I1|]. split; congruence.
Qed.
Lemma old_env_eq w w' rs : old_only w rs -> w_env w' = w_env w -> w_ep w' = w_ep w -> w_saved w' = w_saved w -> old_only w' rs.
Proof. intros (A & B & C) E1 E2 E3. unfold old_only. rewrite E1, E2, E3. auto. Qed.
Lemma block_old rs evs w : old_only w rs -> old_only (run_block rs evs w) rs.
Proof.
  intros H. unfold run_block. apply exit_all_old. destruct (steps_env rs evs (enter_all rs w)) as (A & B & C & _).
  eapply old_env_eq; [|exact A|exact B|exact C]. apply enter_all_old; auto.
Qed.

(** Entering other recorders. *)
Lemma enter_occ r w i ep t : r_id r <> i -> (forall o, r_kind r = RMeth o -> r_target r <> t) -> occ i ep (w_env (enter r w) t) = occ i ep (w_env w t).
Proof.
  intros Hi Hm. unfold enter. destruct (r_kind r) eqn:Ek; cbn; try reflexivity; unfold upds; destruct (String.eqb (r_target r) t) eqn:Et; try reflexivity.
  - cbn. apply String.eqb_eq in Et. subst t. destruct (Nat.eqb i (r_id r)) eqn:E; [apply Nat.eqb_eq in E; congruence|reflexivity].
  - apply String.eqb_eq in Et. exfalso. eapply Hm; [reflexivity|exact Et].
Qed.
Lemma enter_all_occ rs : forall w i ep t, ~ In i (map r_id rs) -> (forall r o, In r rs -> r_kind r = RMeth o -> r_target r <> t) ->
  occ i ep (w_env (enter_all rs w) t) = occ i ep (w_env w t).
Proof.
  induction rs as [|r rs IH]; intros w i ep t Hi Hm; [reflexivity|]. change (enter_all (r :: rs) w) with (enter_all rs (enter r w)).
  cbn in Hi. rewrite IH by (try tauto; intros r' o Hr'; apply Hm; right; exact Hr'). apply enter_occ; [tauto|]. intros o. apply Hm. left. reflexivity.
Qed.
Lemma enter_all_occ0 rs : forall w i ep t, ~ In i (map r_id rs) -> (forall r o, In r rs -> r_kind r = RMeth o -> occ i ep o = 0%nat) ->
  occ i ep (w_env w t) = 0%nat -> occ i ep (w_env (enter_all rs w) t) = 0%nat.
Proof.
  induction rs as [|r rs IH]; intros w i ep t Hi Hm H0; [exact H0|]. change (enter_all (r :: rs) w) with (enter_all rs (enter r w)).
  cbn in Hi. apply IH; [tauto|intros r' o Hr'; apply Hm; right; exact Hr'|]. unfold enter.
  assert (Hne : Nat.eqb i (r_id r) = false) by (apply Nat.eqb_neq; intros ->; tauto).
  destruct (r_kind r) eqn:Ek; cbn; try exact H0; unfold upds; destruct (String.eqb (r_target r) t) eqn:Et; try exact H0; cbn; rewrite Hne; cbn.
  - apply String.eqb_eq in Et. subst t. exact H0.
  - eapply Hm; [left; reflexivity|exact Ek].
Qed.
Lemma enter_all_ep_other rs : forall w i, ~ In i (map r_id rs) -> w_ep (enter_all rs w) i = w_ep w i /\ w_on (enter_all rs w) i = w_on w i /\ w_buf (enter_all rs w) i = w_buf w i.
Proof.
  induction rs as [|r rs IH]; intros w i Hi; [auto|]. change (enter_all (r :: rs) w) with (enter_all rs (enter r w)). cbn in Hi.
  destruct (IH (enter r w) i) as (A & B & C); [tauto|]. rewrite A, B, C. assert (Hne : r_id r <> i) by tauto.
  unfold enter. destruct (r_kind r); cbn; rewrite !upd_other by exact Hne; auto.
Qed.

(** No method recorder is followed by another one on the same method. *)
Fixpoint last_methods (rs : list recorder) : Prop :=
  match rs with
  | [] => True
  | r :: rest => (forall o r' o', r_kind r = RMeth o -> In r' rest -> r_kind r' = RMeth o' -> r_target r <> r_target r') /\ last_methods rest
  end.
Lemma enter_all_spec rs0 rs : forall w, (forall r, In r rs -> In r rs0) -> NoDup (map r_id rs) -> last_methods rs -> old_only w rs0 ->
  (forall r r' o, In r rs -> In r' rs -> r_kind r = RFunc -> r_kind r' = RMeth o -> r_target r <> r_target r') ->
  forall r, In r rs -> let w' := enter_all rs w in
    w_ep w' (r_id r) = S (w_ep w (r_id r)) /\ data_of w' r = [] /\
    (forall t, occ (r_id r) (w_ep w' (r_id r)) (w_env w' t) =
               match r_kind r with RModule => 0%nat | _ => if String.eqb (r_target r) t then 1%nat else 0%nat end) /\
    (r_kind r = RModule -> w_on w' (r_id r) = true).
Proof.
  induction rs as [|r0 rs IH]; intros w Hsub Hnd Hlm Hold Hdis r Hin w'; [destruct Hin|].
  cbn [map] in Hnd. apply NoDup_cons_iff in Hnd as [Hn1 Hn2]. destruct Hlm as [Hl1 Hl2].
  change w' with (enter_all rs (enter r0 w)). clear w'. set (w1 := enter r0 w).
  assert (Hold1 : old_only w1 rs0) by (apply enter_old; [exact Hold|apply Hsub; left; reflexivity]).
  destruct Hin as [<-|Hin].
  - destruct (enter_all_ep_other rs w1 (r_id r0) Hn1) as (E1 & E2 & E3). unfold data_of. rewrite E1, E2, E3.
    assert (Ew1 : w_ep w1 (r_id r0) = S (w_ep w (r_id r0))) by (unfold w1; rewrite enter_ep, Nat.eqb_refl; reflexivity).
    rewrite Ew1. split; [reflexivity|]. split; [unfold w1, enter; destruct (r_kind r0); cbn; rewrite upd_same; apply upd_same|]. split.
    + destruct Hold as (A & B & C). intros t. destruct (r_kind r0) eqn:Ek.
      * destruct (String.eqb (r_target r0) t) eqn:Et.
        -- apply String.eqb_eq in Et. subst t. rewrite enter_all_occ; [|exact Hn1|].
           ++ unfold w1, enter. rewrite Ek. cbn. rewrite upds_same. cbn. rewrite !Nat.eqb_refl. cbn. rewrite A by lia. reflexivity.
           ++ intros r' o Hr' Ek' He. eapply (Hdis r0 r'); [left; reflexivity|right; exact Hr'|exact Ek|exact Ek'|congruence].
        -- apply enter_all_occ0; [exact Hn1| |].
           ++ intros r' o Hr' Ek'. eapply C; [apply Hsub; right; exact Hr'|exact Ek'|lia].
           ++ unfold w1, enter. rewrite Ek. cbn. unfold upds. rewrite Et. apply A. lia.
      * destruct (String.eqb (r_target r0) t) eqn:Et.
        -- apply String.eqb_eq in Et. subst t. rewrite enter_all_occ; [|exact Hn1|].
           ++ unfold w1, enter. rewrite Ek. cbn. rewrite upds_same. cbn. rewrite !Nat.eqb_refl. cbn.
              rewrite (C r0 origin) by (try (apply Hsub; left; reflexivity); try exact Ek; lia). reflexivity.
           ++ intros r' o Hr' Ek' He. eapply (Hl1 origin r' o); [reflexivity|exact Hr'|exact Ek'|congruence].
        -- apply enter_all_occ0; [exact Hn1| |].
           ++ intros r' o Hr' Ek'. eapply C; [apply Hsub; right; exact Hr'|exact Ek'|lia].
           ++ unfold w1, enter. rewrite Ek. cbn. unfold upds. rewrite Et. apply A. lia.
      * apply enter_all_occ0; [exact Hn1| |].
        -- intros r' o Hr' Ek'. eapply C; [apply Hsub; right; exact Hr'|exact Ek'|lia].
        -- unfold w1, enter. rewrite Ek. cbn. apply A. lia.
    + intros Ek. unfold w1, enter. rewrite Ek. cbn. apply upd_same.
  - assert (Hne : r_id r0 <> r_id r) by (intros E; apply Hn1; rewrite E; apply in_map; exact Hin).
    assert (Ew : w_ep w1 (r_id r) = w_ep w (r_id r)) by (unfold w1; rewrite enter_ep; apply Nat.eqb_neq in Hne; rewrite Hne; reflexivity).
    rewrite <- Ew. apply IH; auto.
    + intros r' Hr'. apply Hsub. right. exact Hr'.
    + intros r1 r2 o H1 H2. apply Hdis; right; assumption.
Qed.

Lemma invoke_buf f v : forall b i ep, invoke f v b i ep = b i ep ++ repeat v (occ i ep f).
Proof.
  induction f as [n|j e g IH]; intros b i ep; cbn; [rewrite app_nil_r; reflexivity|]. unfold push, upd.
  destruct (Nat.eqb j i) eqn:E1.
  - apply Nat.eqb_eq in E1. subst j. rewrite Nat.eqb_refl. destruct (Nat.eqb e ep) eqn:E2.
    + apply Nat.eqb_eq in E2. subst e. rewrite Nat.eqb_refl. cbn. rewrite IH, <- app_assoc. f_equal. rewrite <- repeat_cons. reflexivity.
    + rewrite Nat.eqb_sym, E2. cbn. apply IH.
  - rewrite Nat.eqb_sym, E1. cbn. apply IH.
Qed.
Lemma hooks_buf rs w n v : NoDup (map r_id rs) -> forall b r, In r rs ->
  fold_left (fun b r => match r_kind r with
                        | RModule => if String.eqb (r_target r) n && w_on w (r_id r) then push b (r_id r) (w_ep w (r_id r)) v else b
                        | _ => b end) rs b (r_id r) (w_ep w (r_id r)) =
  b (r_id r) (w_ep w (r_id r)) ++ match r_kind r with RModule => if String.eqb (r_target r) n && w_on w (r_id r) then [v] else [] | _ => [] end.
Proof.
  assert (Hpush : forall b i ep j e, i <> j -> push b i ep v j e = b j e) by (intros; unfold push; rewrite upd_other by assumption; reflexivity).
  assert (Hother : forall rs b r, ~ In (r_id r) (map r_id rs) ->
    fold_left (fun b r => match r_kind r with
                        | RModule => if String.eqb (r_target r) n && w_on w (r_id r) then push b (r_id r) (w_ep w (r_id r)) v else b
                        | _ => b end) rs b (r_id r) (w_ep w (r_id r)) = b (r_id r) (w_ep w (r_id r))).
  { intros ls. induction ls as [|r0 rs0 IH]; intros b r Hi; cbn; [reflexivity|]. cbn in Hi. rewrite IH by tauto.
    destruct (r_kind r0); try reflexivity. destruct (_ && _); [apply Hpush; tauto|reflexivity]. }
  induction rs as [|r0 rs IH]; intros Hnd b r Hin; [destruct Hin|]. cbn [map] in Hnd. apply NoDup_cons_iff in Hnd as [Hn1 Hn2]. cbn [fold_left].
  destruct Hin as [<-|Hin].
  - rewrite Hother by exact Hn1. destruct (r_kind r0); try (rewrite app_nil_r; reflexivity).
    destruct (_ && _); [|rewrite app_nil_r; reflexivity]. unfold push. rewrite !upd_same. reflexivity.
  - rewrite IH by assumption. f_equal. destruct (r_kind r0); try reflexivity. destruct (_ && _); [|reflexivity].
    apply Hpush. intros E. apply Hn1. rewrite E. apply in_map. exact Hin.
Qed.
Lemma steps_data rs r : NoDup (map r_id rs) -> In r rs -> forall evs w,
  (forall t, occ (r_id r) (w_ep w (r_id r)) (w_env w t) = match r_kind r with RModule => 0%nat | _ => if String.eqb (r_target r) t then 1%nat else 0%nat end) ->
  (r_kind r = RModule -> w_on w (r_id r) = true) ->
  data_of (fold_left (step rs) evs w) r = data_of w r ++ outcomes r evs.
Proof.
  intros Hnd Hin. induction evs as [|e evs IH]; intros w Ho Hon; [cbn; rewrite app_nil_r; reflexivity|]. cbn [fold_left].
  destruct (step_env rs w e) as (A & B & C & D). rewrite IH; [|rewrite A, B; exact Ho|rewrite D; exact Hon].
  replace (outcomes r (e :: evs)) with (outcomes r [e] ++ outcomes r evs) by (unfold outcomes; cbn [flat_map]; rewrite app_nil_r; reflexivity). rewrite app_assoc. f_equal.
  unfold data_of. rewrite B. unfold outcomes. cbn [flat_map]. rewrite app_nil_r. destruct e as [t [v|]|n [v|]]; cbn.
  - rewrite invoke_buf, Ho. destruct (r_kind r); [| |reflexivity]; destruct (String.eqb (r_target r) t); reflexivity.
  - destruct (r_kind r); rewrite app_nil_r; reflexivity.
  - rewrite hooks_buf by assumption. destruct (r_kind r) eqn:Ek; try reflexivity. rewrite Hon by reflexivity. rewrite andb_true_r. reflexivity.
  - destruct (r_kind r); rewrite app_nil_r; reflexivity.
Qed.

(** C27, proved part: recorders of functions and modules in any number, one recorder per
    method; after any earlier blocks the data are those of the last block. *)
Theorem C27_records_partial :
  forall rs bs evs w, NoDup (map r_id rs) -> pristine w -> built_in rs w -> last_methods rs ->
    (forall r r' o, In r rs -> In r' rs -> r_kind r = RFunc -> r_kind r' = RMeth o -> r_target r <> r_target r') ->
    forall r, In r rs -> data_of (run_block rs evs (run_blocks rs bs w)) r = outcomes r evs.
Proof.
  intros rs bs evs w Hnd [Hp1 Hp2] Hb Hlm Hdis r Hin.
  assert (Hold : old_only w rs).
  { split; [|split].
    - intros t i ep _. destruct (Hp1 t) as [n ->]. reflexivity.
    - intros j i ep _. destruct (Hp2 j) as [n ->]. reflexivity.
    - intros r' o i ep Hr' Ek _. rewrite (Hb r' o Hr' Ek). destruct (Hp1 (r_target r')) as [n ->]. reflexivity. }
  assert (Hold' : old_only (run_blocks rs bs w) rs).
  { clear - Hold. revert w Hold. induction bs as [|b bs IH]; intros w Hold; [exact Hold|]. change (run_blocks rs (b :: bs) w) with (run_blocks rs bs (run_block rs b w)).
    apply IH. apply block_old. exact Hold. }
  set (w0 := run_blocks rs bs w) in *. unfold run_block.
  destruct (enter_all_spec rs rs w0 (fun _ H => H) Hnd Hlm Hold' Hdis r Hin) as (E1 & E2 & E3 & E4).
  set (w1 := enter_all rs w0) in *.
  assert (Hx : forall w2, data_of (exit_all rs w2) r = data_of w2 r).
  { intros w2. unfold data_of. assert (He : w_ep (exit_all rs w2) = w_ep w2 /\ w_buf (exit_all rs w2) = w_buf w2).
    { clear. revert w2. induction rs as [|x rs IH]; intros w2; [auto|]. change (exit_all (x :: rs) w2) with (exit_all rs (exit_ x w2)).
      destruct (IH (exit_ x w2)) as [A B]. rewrite A, B. unfold exit_. destruct (r_kind x); auto. }
    destruct He as [A B]. rewrite A, B. reflexivity. }
  rewrite Hx, steps_data by assumption. rewrite E2. reflexivity.
Qed.
Print Assumptions C27_records_partial.

(** The method may have been given a wrapper elsewhere, and the functions may leak: recorded
    data are still right. *)
Example C27_example :
  map (data_of (run_block (two_funcs "m.f") ex_evs (run_blocks (two_funcs "m.f") [ex_evs; []] w_start))) (two_funcs "m.f")
  = [[VAtom 1; VList [VAtom 3; VAtom 4]]; [VAtom 1; VList [VAtom 3; VAtom 4]]] /\ last_methods (two_funcs "m.f").
Proof. split; [vm_compute; reflexivity|]. cbn. split; [intros; discriminate|]. split; [intros; discriminate|exact I]. Qed.

(** Reading: the i-th record, its j-th component, and the errors. *)
Theorem C27_get_record_data :
  forall (buf : list val) (i : nat) (j : option nat),
    get_record_data buf (Z.of_nat i) (option_map Z.of_nat j) =
    match nth_error buf i with
    | None => Raise AssertionError
    | Some rec =>
        match j with
        | None => Ok rec
        | Some j => match rec with
                    | VList l => match nth_error l j with Some x => Ok x | None => Raise AssertionError end
                    | VAtom _ => Raise TypeError
                    end
        end
    end.
Proof.
  assert (Hidx : forall A (l : list A) (k : nat) x, nth_error l k = Some x -> py_index l (Z.of_nat k) = Ok x).
  { intros A l k x H. unfold py_index. destruct (Z.ltb_spec (Z.of_nat k) 0); [lia|]. destruct (Z.ltb_spec (Z.of_nat k) 0); [lia|].
    rewrite Nat2Z.id, H. reflexivity. }
  assert (Hlt : forall A (l : list A) (k : nat), (Z.of_nat k <? Z.of_nat (length l)) = match nth_error l k with Some _ => true | None => false end).
  { intros A l k. destruct (nth_error l k) eqn:E.
    - apply Z.ltb_lt. apply Nat2Z.inj_lt. apply nth_error_Some. congruence.
    - apply Z.ltb_ge. apply nth_error_None in E. lia. }
  intros buf i j. unfold get_record_data. rewrite Hlt. destruct (nth_error buf i) as [rec|] eqn:E; [|reflexivity]. cbn.
  rewrite (Hidx _ _ _ _ E). cbn. destruct j as [j|]; cbn; [|reflexivity]. destruct rec as [a|l]; [reflexivity|].
  rewrite Hlt. destruct (nth_error l j) as [x|] eqn:E2; [|reflexivity]. cbn. apply Hidx. exact E2.
Qed.
Print Assumptions C27_get_record_data.

(** * C64: recorded inputs *)
(** A call of a function with parameters [params]: the first parameters positionally, each
    remaining parameter once by keyword, in any order.  The record lists the values in
    parameter order. *)
Theorem C64_inputs_in_order :
  forall (params : list string) (value : string -> val) k kwargs,
    NoDup params -> (k <= length params)%nat -> NoDup (map fst kwargs) ->
    (forall p v, In (p, v) kwargs <-> In p (skipn k params) /\ v = value p) ->
    record_inputs params (map value (firstn k params)) kwargs = map value params.
Proof.
  intros params value k kwargs Hnd Hk Hkn Hkw. unfold record_inputs.
  assert (Hfind : forall p, find (fun kv => String.eqb (fst kv) p) kwargs = if in_dec string_dec p (skipn k params) then Some (p, value p) else None).
  { intros p. destruct (in_dec string_dec p (skipn k params)) as [Hin|Hin].
    - destruct (find _ kwargs) as [[q v]|] eqn:E.
      + apply find_some in E as [E1 E2]. cbn in E2. apply String.eqb_eq in E2. subst q. apply Hkw in E1 as [_ ->]. reflexivity.
      + exfalso. assert (Hp : In (p, value p) kwargs) by (apply Hkw; auto). apply find_none with (x := (p, value p)) in E; [|exact Hp].
        cbn in E. rewrite String.eqb_refl in E. discriminate.
    - destruct (find _ kwargs) as [[q v]|] eqn:E; [|reflexivity]. apply find_some in E as [E1 E2]. cbn in E2. apply String.eqb_eq in E2. subst q.
      apply Hkw in E1 as [E1 _]. tauto. }
  rewrite <- (firstn_skipn k params) at 3. rewrite map_app. f_equal.
  rewrite <- (firstn_skipn k params) at 1. rewrite flat_map_app.
  assert (H1 : flat_map (fun p => match find (fun kv => String.eqb (fst kv) p) kwargs with Some kv => [snd kv] | None => [] end) (firstn k params) = []).
  { assert (Hno : forall p, In p (firstn k params) -> ~ In p (skipn k params)).
    { intros p H1 H2. rewrite <- (firstn_skipn k params) in Hnd. clear - Hnd H1 H2. induction (firstn k params) as [|x l IH]; [destruct H1|].
      cbn in Hnd. inversion Hnd; subst. destruct H1 as [<-|H1]; [apply H3, in_app_iff; auto|auto]. }
    revert Hno. generalize (firstn k params) as l. induction l as [|p l IH]; intros Hno; [reflexivity|]. cbn. rewrite Hfind.
    destruct (in_dec string_dec p (skipn k params)) as [H|H]; [exfalso; eapply Hno; [left; reflexivity|exact H]|]. cbn. apply IH. intros q Hq. apply Hno. right. exact Hq. }
  rewrite H1. cbn.
  assert (H2 : forall l, (forall p, In p l -> In p (skipn k params)) ->
    flat_map (fun p => match find (fun kv => String.eqb (fst kv) p) kwargs with Some kv => [snd kv] | None => [] end) l = map value l).
  { induction l as [|p l IH]; intros Hl; [reflexivity|]. cbn. rewrite Hfind. destruct (in_dec string_dec p (skipn k params)) as [H|H]; [|exfalso; apply H, Hl; left; reflexivity].
    cbn. f_equal. apply IH. intros q Hq. apply Hl. right. exact Hq. }
  apply H2. auto.
Qed.
Print Assumptions C64_inputs_in_order.
Example C64_example : record_inputs ["x"; "y"; "z"]%string [VAtom 1] [("z", VAtom 3); ("y", VAtom 2)]%string = [VAtom 1; VAtom 2; VAtom 3].
Proof. reflexivity. Qed.
(** If defaults are used the position of a value no longer tells the parameter: the value of
    [z] is recorded where [y] is expected. *)
Definition C64_claim_position : Prop :=
  forall params args kwargs i p v, nth_error params i = Some p -> In (p, v) kwargs -> nth_error (record_inputs params args kwargs) i = Some v.
Theorem C64_default_refuted : ~ C64_claim_position.
Proof.
  intros H. specialize (H ["x"; "y"; "z"]%string [VAtom 1] [("z"%string, VAtom 3)] 2%nat "z"%string (VAtom 3) eq_refl (or_introl eq_refl)).
  vm_compute in H. discriminate.
Qed.
Print Assumptions C64_default_refuted.
