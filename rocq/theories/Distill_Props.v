(** C28, C29. *)
From Verif Require Import Prelude Evolution_Model Evolution_Props FixSubnet_Model FixSubnet_Props Recorder_Model.

(** * C28 *)
Definition executed (l : list val) : list (val * bool) := map (fun v => (v, true)) l.
Definition handed (l : list val) : list (val * bool) := map (fun v => (v, false)) l.

Lemma record_all max : forall ts q, (length q + length ts <= max)%nat ->
  deliver_all {| d_queue := q; d_max := max; d_override := false |} (map Some ts) = Ok (executed ts, {| d_queue := q ++ ts; d_max := max; d_override := false |}).
Proof.
  induction ts as [|t ts IH]; intros q H; cbn [map deliver_all]; [rewrite app_nil_r; reflexivity|].
  cbn [length] in H. unfold deliver. cbn [d_override d_queue d_max]. destruct (Nat.ltb_spec (length q) max); [|lia]. cbn [bind snd fst].
  rewrite IH by (rewrite app_length; cbn; lia). cbn. rewrite <- app_assoc. reflexivity.
Qed.
Lemma override_all max : forall (ss : list (option val)) q, (length ss <= length q)%nat ->
  deliver_all {| d_queue := q; d_max := max; d_override := true |} ss = Ok (handed (firstn (length ss) q), {| d_queue := skipn (length ss) q; d_max := max; d_override := true |}).
Proof.
  induction ss as [|s ss IH]; intros q H; cbn [deliver_all]; [reflexivity|]. destruct q as [|v q]; [cbn in H; lia|]. cbn [length] in H.
  unfold deliver. cbn [d_override d_queue d_max bind snd fst]. rewrite IH by lia. reflexivity.
Qed.
(** One iteration: every student call gets the corresponding teacher output and executes
    nothing. *)
Theorem C28_iteration :
  forall max o (ts : list val) (ss : list (option val)), (length ts <= max)%nat -> (length ss <= length ts)%nat ->
    distill_iter {| d_queue := []; d_max := max; d_override := o |} (map Some ts) ss =
    Ok (executed ts, handed (firstn (length ss) ts), {| d_queue := skipn (length ss) ts; d_max := max; d_override := true |}).
Proof.
  intros max o ts ss Ht Hs. unfold distill_iter, set_override. cbn [d_queue d_max]. rewrite record_all by (cbn; lia). cbn [bind snd fst app d_queue d_max].
  rewrite override_all by exact Hs. reflexivity.
Qed.
Print Assumptions C28_iteration.
(** Recording more than max_keep_data values raises, and so does reading more than were
    recorded. *)
Theorem C28_overflow_raises :
  forall max o (ts : list val) ss, (max < length ts)%nat ->
    distill_iter {| d_queue := []; d_max := max; d_override := o |} (map Some ts) ss = Raise AssertionError.
Proof.
  intros max o ts ss H. unfold distill_iter, set_override. cbn [d_queue d_max].
  assert (E : forall ts q, (max < length q + length ts)%nat -> (length q <= max)%nat ->
    deliver_all {| d_queue := q; d_max := max; d_override := false |} (map Some ts) = Raise AssertionError).
  { induction ts0 as [|t ts0 IH]; intros q H1 H2; cbn [map deliver_all length] in *; [lia|]. unfold deliver. cbn [d_override d_queue d_max].
    destruct (Nat.ltb_spec (length q) max); [|reflexivity]. cbn [bind snd fst]. rewrite IH; [reflexivity| |]; rewrite app_length; cbn; lia. }
  rewrite E by (cbn; lia). reflexivity.
Qed.
Print Assumptions C28_overflow_raises.
Theorem C28_empty_raises :
  forall max o (ts : list val) (ss : list (option val)), (length ts <= max)%nat -> (length ts < length ss)%nat ->
    distill_iter {| d_queue := []; d_max := max; d_override := o |} (map Some ts) ss = Raise AssertionError.
Proof.
  intros max o ts ss Ht H. unfold distill_iter, set_override. cbn [d_queue d_max]. rewrite record_all by (cbn; lia). cbn [bind snd fst app d_queue d_max].
  assert (E : forall (ss : list (option val)) q, (length q < length ss)%nat ->
    deliver_all {| d_queue := q; d_max := max; d_override := true |} ss = Raise AssertionError).
  { induction ss0 as [|s ss0 IH]; intros q Hq; cbn [deliver_all length] in *; [lia|]. unfold deliver. cbn [d_override d_queue d_max].
    destruct q as [|v q]; [reflexivity|]. cbn [bind snd fst]. rewrite IH by (cbn in Hq; lia). reflexivity. }
  rewrite E by exact H. reflexivity.
Qed.
Print Assumptions C28_empty_raises.
(** Several iterations. *)
Definition C28_claim : Prop :=
  forall max o (its : list (list val * list (option val))),
    (forall i, In i its -> (length (fst i) <= max)%nat /\ (length (snd i) <= length (fst i))%nat) ->
    exists d', distill_run {| d_queue := []; d_max := max; d_override := o |} (map (fun i => (map Some (fst i), snd i)) its) =
      Ok (map (fun i => handed (firstn (length (snd i)) (fst i))) its, d').
(** Outputs the student did not consume are handed out in the next iteration. *)
Example C28_raises : distill_iter {| d_queue := []; d_max := 1; d_override := false |} [Some (VAtom 1); Some (VAtom 2)] [None] = Raise AssertionError /\
  distill_iter {| d_queue := []; d_max := 2; d_override := false |} [Some (VAtom 1)] [None; None] = Raise AssertionError.
Proof. split; reflexivity. Qed.
Theorem C28_stale_refuted : ~ C28_claim.
Proof.
  intros H. destruct (H 3%nat false [([VAtom 1; VAtom 2], [None]); ([VAtom 3], [None])]) as [d' Hd].
  - intros i [<-|[<-|[]]]; cbn; lia.
  - vm_compute in Hd. discriminate.
Qed.
Print Assumptions C28_stale_refuted.
(** Proved when each iteration consumes everything. *)
Theorem C28_balanced_partial :
  forall max o (its : list (list val * list (option val))),
    (forall i, In i its -> (length (fst i) <= max)%nat /\ length (snd i) = length (fst i)) ->
    exists d', d_queue d' = [] /\ distill_run {| d_queue := []; d_max := max; d_override := o |} (map (fun i => (map Some (fst i), snd i)) its) =
      Ok (map (fun i => handed (fst i)) its, d').
Proof.
  intros max o its. revert o. induction its as [|[ts ss] its IH]; intros o H; cbn [map distill_run fst snd]; [eexists; split; [|reflexivity]; reflexivity|].
  destruct (H _ (or_introl eq_refl)) as [H1 H2]. cbn [fst snd] in H1, H2. rewrite C28_iteration by lia. cbn [bind snd fst].
  rewrite H2, firstn_all, skipn_all. destruct (IH true) as (d' & Hq & E); [intros i Hi; apply H; right; exact Hi|].
  rewrite E. cbn. eauto.
Qed.
Print Assumptions C28_balanced_partial.
Example C28_example :
  exists d', distill_run {| d_queue := []; d_max := 2; d_override := false |} [([Some (VAtom 1); Some (VAtom 2)], [None; None]); ([Some (VAtom 3)], [Some (VAtom 9)])]
  = Ok ([[(VAtom 1, false); (VAtom 2, false)]; [(VAtom 3, false)]], d').
Proof. eexists. reflexivity. Qed.

(** * C29 *)
Lemma dupdate_get e : NoDup (map fst e) -> forall d k, dget (dupdate d e) k = match dget e k with Some v => Some v | None => dget d k end.
Proof.
  induction e as [|[k0 v0] e IH]; intros Hn d k; cbn [dupdate fold_left]; [reflexivity|]. cbn in Hn. apply NoDup_cons_iff in Hn as [Hn1 Hn2].
  change (dget (dupdate (dput d k0 v0) e) k = match dget ((k0, v0) :: e) k with Some v => Some v | None => dget d k end).
  rewrite IH by exact Hn2. cbn [dget]. rewrite dget_dput. destruct (String.eqb k0 k) eqn:E; [|reflexivity].
  apply String.eqb_eq in E. subst k0. apply dget_none in Hn1. rewrite Hn1. reflexivity.
Qed.
Lemma append_inj p a b : (p ++ a)%string = (p ++ b)%string -> a = b.
Proof. induction p as [|c p IH]; cbn; intros H; [exact H|]. inversion H. auto. Qed.
Lemma prefix_get p l k : dget (add_prefix p l) (p ++ "." ++ k)%string = dget l k.
Proof.
  induction l as [|[k0 v] l IH]; cbn [add_prefix map dget fst snd]; [reflexivity|]. fold (add_prefix p l). rewrite IH.
  destruct (String.eqb k0 k) eqn:E.
  - apply String.eqb_eq in E. subst. rewrite String.eqb_refl. reflexivity.
  - destruct (String.eqb (p ++ "." ++ k0) (p ++ "." ++ k)) eqn:E2; [|reflexivity]. apply String.eqb_eq in E2. apply append_inj in E2. cbn in E2. inversion E2.
    subst. rewrite String.eqb_refl in E. discriminate.
Qed.
Lemma prefix_get_other p l k : (forall a, k <> (p ++ "." ++ a)%string) -> dget (add_prefix p l) k = None.
Proof.
  intros H. apply dget_none. unfold add_prefix. rewrite map_map. intros Hin. apply in_map_iff in Hin as ([a v] & He & _). cbn in He. eapply H. symmetry. exact He.
Qed.
Lemma prefix_nodup p l : NoDup (map fst l) -> NoDup (map fst (add_prefix p l)).
Proof.
  unfold add_prefix. rewrite map_map. cbn. induction l as [|[k v] l IH]; cbn; intros H; [constructor|]. apply NoDup_cons_iff in H as [H1 H2].
  constructor; [|auto]. intros Hin. apply in_map_iff in Hin as ([a w] & He & Hin). cbn in He. apply append_inj in He. inversion He. subst. apply H1.
  apply in_map_iff. exists (k, w). auto.
Qed.

(** What the losses of one step must be. *)
Definition losses_ok (c : dcfg) (distill_on : bool) (x : subnet * subnet * subnet) (losses : subnet) : Prop :=
  (forall k, sget losses ("student." ++ k) = if calculate_student_loss c then sget (snd (fst x)) k else None) /\
  (forall k, sget losses ("teacher." ++ k) = if teacher_trainable c then sget (fst (fst x)) k else None) /\
  (forall k, sget losses ("distill." ++ k) = if distill_on then sget (snd x) k else None) /\
  (forall k v, sget losses k = Some v -> exists p a, In p ["student"; "teacher"; "distill"]%string /\ k = (p ++ "." ++ a)%string).
Definition dicts_ok (x : subnet * subnet * subnet) : Prop :=
  NoDup (map fst (fst (fst x))) /\ NoDup (map fst (snd (fst x))) /\ NoDup (map fst (snd x)).

Lemma loss_step_ok c stopped x : dicts_ok x -> losses_ok c (negb stopped) x (loss_step c stopped (fst (fst x)) (snd (fst x)) (snd x)).
Proof.
  destruct x as [[t s] d]. cbn [fst snd]. intros (Ht & Hs & Hd). cbn in Ht, Hs, Hd.
  assert (Hget : forall k, sget (loss_step c stopped t s d) k =
    match (if stopped then None else dget (add_prefix "distill" d) k) with Some v => Some v | None =>
    match (if calculate_student_loss c then dget (add_prefix "student" s) k else None) with Some v => Some v | None =>
    if teacher_trainable c then dget (add_prefix "teacher" t) k else None end end).
  { intros k. rewrite sget_dget. unfold loss_step.
    assert (E0 : dget (if teacher_trainable c then dupdate [] (add_prefix "teacher" t) else []) k = if teacher_trainable c then dget (add_prefix "teacher" t) k else None).
    { destruct (teacher_trainable c); [|reflexivity]. rewrite dupdate_get by (apply prefix_nodup; exact Ht). destruct (dget (add_prefix "teacher" t) k); reflexivity. }
    set (l0 := if teacher_trainable c then dupdate [] (add_prefix "teacher" t) else []) in *.
    assert (E1 : dget (if calculate_student_loss c then dupdate l0 (add_prefix "student" s) else l0) k =
      match (if calculate_student_loss c then dget (add_prefix "student" s) k else None) with Some v => Some v | None => dget l0 k end).
    { destruct (calculate_student_loss c); [|reflexivity]. apply dupdate_get. apply prefix_nodup. exact Hs. }
    set (l1 := if calculate_student_loss c then dupdate l0 (add_prefix "student" s) else l0) in *.
    destruct stopped; [rewrite E1, E0; reflexivity|]. rewrite dupdate_get by (apply prefix_nodup; exact Hd). rewrite E1, E0. reflexivity. }
  assert (No : forall p q l k, p <> q -> In p ["student"; "teacher"; "distill"]%string -> In q ["student"; "teacher"; "distill"]%string ->
     dget (add_prefix p l) (q ++ "." ++ k)%string = None).
  { intros p q l k Hne Hp Hq. apply prefix_get_other. intros a. cbn in Hp, Hq.
    destruct Hp as [<-|[<-|[<-|[]]]], Hq as [<-|[<-|[<-|[]]]]; try congruence; cbn; discriminate. }
  assert (S1 : In "student"%string ["student"; "teacher"; "distill"]%string) by (cbn; auto).
  assert (T1 : In "teacher"%string ["student"; "teacher"; "distill"]%string) by (cbn; auto).
  assert (D1 : In "distill"%string ["student"; "teacher"; "distill"]%string) by (cbn; auto).
  assert (Hne1 : "distill"%string <> "student"%string) by discriminate. assert (Hne2 : "teacher"%string <> "student"%string) by discriminate.
  assert (Hne3 : "distill"%string <> "teacher"%string) by discriminate.
  split; [|split; [|split]]; cbn [fst snd].
  - intros k. rewrite Hget. change ("student." ++ k)%string with ("student" ++ "." ++ k)%string.
    rewrite (No "distill"%string "student"%string), (No "teacher"%string "student"%string), prefix_get, <- sget_dget by auto.
    destruct stopped, (calculate_student_loss c), (teacher_trainable c); try reflexivity; destruct (sget s k); reflexivity.
  - intros k. rewrite Hget. change ("teacher." ++ k)%string with ("teacher" ++ "." ++ k)%string.
    rewrite (No "distill"%string "teacher"%string), (No "student"%string "teacher"%string), prefix_get, <- sget_dget by auto.
    destruct stopped, (calculate_student_loss c), (teacher_trainable c); reflexivity.
  - intros k. rewrite Hget. change ("distill." ++ k)%string with ("distill" ++ "." ++ k)%string.
    rewrite (No "teacher"%string "distill"%string), (No "student"%string "distill"%string), prefix_get, <- sget_dget by auto.
    destruct stopped, (calculate_student_loss c), (teacher_trainable c); cbn; try reflexivity; destruct (sget d k); reflexivity.
  - intros k v. rewrite Hget.
    assert (Hpre : forall p l v, dget (add_prefix p l) k = Some v -> exists a, k = (p ++ "." ++ a)%string).
    { intros p l v0 H. destruct (in_dec string_dec k (map fst (add_prefix p l))) as [Hin|Hin]; [|apply dget_none in Hin; congruence].
      unfold add_prefix in Hin. rewrite map_map in Hin. apply in_map_iff in Hin as ([a w] & <- & _). exists a. reflexivity. }
    intros H. destruct stopped; cbn in H.
    + destruct (calculate_student_loss c); [destruct (dget (add_prefix "student" s) k) eqn:E; [destruct (Hpre _ _ _ E) as [a Ha]; eauto|]|];
      (destruct (teacher_trainable c); [destruct (Hpre _ _ _ H) as [a Ha]; eauto|discriminate]).
    + destruct (dget (add_prefix "distill" d) k) eqn:E0; [destruct (Hpre _ _ _ E0) as [a Ha]; eauto|].
      destruct (calculate_student_loss c); [destruct (dget (add_prefix "student" s) k) eqn:E; [destruct (Hpre _ _ _ E) as [a Ha]; eauto|]|];
      (destruct (teacher_trainable c); [destruct (Hpre _ _ _ H) as [a Ha]; eauto|discriminate]).
Qed.

(** A run that starts (or is resumed) at any epoch processes every batch once and in order;
    student losses are always reported, distillation losses exactly before stop_epoch. *)
Theorem C29_stop_distill :
  forall c start (batches : list (list (subnet * subnet * subnet))),
    (forall b x, In b batches -> In x b -> dicts_ok x) ->
    map (fun r => snd (fst r)) (train c start false batches) = concat batches /\
    (forall e x l, In (e, x, l) (train c start false batches) ->
       start <= e < start + Z.of_nat (length batches) /\ losses_ok c (e <? stop_epoch c) x l).
Proof.
  intros c start batches Hok.
  assert (Hgen : forall batches start stopped, (stopped = true -> stop_epoch c <= start) -> (forall b x, In b batches -> In x b -> dicts_ok x) ->
    map (fun r => snd (fst r)) (train c start stopped batches) = concat batches /\
    (forall e x l, In (e, x, l) (train c start stopped batches) ->
       start <= e < start + Z.of_nat (length batches) /\ losses_ok c (e <? stop_epoch c) x l)).
  { clear. induction batches as [|b bs IH]; intros start stopped Hst Hok; cbn [train concat length]; [split; [reflexivity|intros ? ? ? []]|].
    assert (Hst' : before_epoch c start stopped = true -> stop_epoch c <= start).
    { unfold before_epoch. rewrite Z.geb_leb. destruct (Z.leb_spec (stop_epoch c) start); [auto|exact Hst]. }
    assert (Hst2 : negb (before_epoch c start stopped) = (start <? stop_epoch c)).
    { unfold before_epoch in *. rewrite Z.geb_leb in *. destruct (Z.leb_spec (stop_epoch c) start); cbn; [symmetry; apply Z.ltb_ge; lia|].
      destruct stopped; [specialize (Hst eq_refl); lia|]. symmetry. apply Z.ltb_lt. lia. }
    destruct (IH (start + 1) (before_epoch c start stopped)) as [A B]; [intros H; specialize (Hst' H); lia|intros b' x Hb'; apply Hok; right; exact Hb'|].
    split.
    - rewrite map_app, A, map_map. cbn. rewrite map_id. reflexivity.
    - intros e x l Hin. apply in_app_iff in Hin as [Hin|Hin].
      + apply in_map_iff in Hin as (y & He & Hy). inversion He; subst. split; [lia|]. rewrite <- Hst2. apply loss_step_ok. apply (Hok b); [left; reflexivity|exact Hy].
      + destruct (B e x l Hin) as [B1 B2]. split; [lia|exact B2]. }
  apply Hgen; [discriminate|exact Hok].
Qed.
Print Assumptions C29_stop_distill.
Example C29_example :
  let c := {| teacher_trainable := false; calculate_student_loss := true; stop_epoch := 1 |} in
  let x := ([("loss", "t")], [("loss", "s"); ("acc", "a")], [("loss_kd", "d")])%string in
  map (fun r => (fst (fst r), snd r)) (train c 0 false [[x]; [x]]) =
    [(0, [("student.loss", "s"); ("student.acc", "a"); ("distill.loss_kd", "d")]); (1, [("student.loss", "s"); ("student.acc", "a")])]%string /\ dicts_ok x.
Proof. split; [vm_compute; reflexivity|]. repeat split; cbn; repeat constructor; cbn; intuition discriminate. Qed.
