(** C07 (module mutables), C09, C10, C11, C60. *)
From Verif Require Import Prelude Module_Model.

(** * Lemmas on candidate dictionaries *)
Section Cands.
Context {X Y : Type}.
Implicit Types cs : list (string * (X -> Y)).

Lemma pop_all (keep : string -> bool) (ns : list string) cs :
  fold_left (fun acc c => if keep c then acc else pop c acc) ns cs
  = filter (fun p => negb (existsb (fun c => negb (keep c) && String.eqb (fst p) c) ns)) cs.
Proof.
  revert cs; induction ns as [|c ns IH]; intros cs; cbn [fold_left existsb].
  - symmetry. rewrite (filter_ext _ (fun _ => true)) by (intros; reflexivity).
    induction cs; cbn; congruence.
  - rewrite IH. destruct (keep c); cbn [negb andb orb].
    + apply filter_ext. reflexivity.
    + unfold pop. clear IH. induction cs as [|p cs IH]; [reflexivity|].
      cbn [filter]. destruct (String.eqb (fst p) c); cbn [negb orb filter]; rewrite IH; reflexivity.
Qed.

(** Fixing keeps exactly the entries whose name is kept. *)
Lemma pop_names (keep : string -> bool) cs :
  fold_left (fun acc c => if keep c then acc else pop c acc) (names cs) cs
  = filter (fun p => keep (fst p)) cs.
Proof.
  rewrite pop_all. apply filter_ext_in. intros p Hp.
  destruct (keep (fst p)) eqn:E.
  - apply negb_true_iff. destruct (existsb _ _) eqn:Ex; [|reflexivity].
    apply existsb_exists in Ex as [c [_ Hc]]. apply andb_true_iff in Hc as [H1 H2].
    apply String.eqb_eq in H2. subst c. rewrite E in H1. discriminate.
  - apply negb_false_iff. apply existsb_exists. exists (fst p). split.
    + unfold names. apply in_map. exact Hp.
    + rewrite E, String.eqb_refl. reflexivity.
Qed.

Lemma lookup_filter (keep : string -> bool) cs c :
  keep c = true -> lookup c (filter (fun p => keep (fst p)) cs) = lookup c cs.
Proof.
  intros Hk. unfold lookup. induction cs as [|p cs IH]; [reflexivity|]. cbn [filter find].
  destruct (String.eqb_spec (fst p) c) as [He|Hne].
  - rewrite He, Hk. cbn [find]. rewrite He, String.eqb_refl. reflexivity.
  - destruct (keep (fst p)); [cbn [find]; destruct (String.eqb_spec (fst p) c); [congruence|]|]; exact IH.
Qed.

Lemma lookup_in cs c f : NoDup (names cs) -> In (c, f) cs -> lookup c cs = Some f.
Proof.
  unfold lookup, names. induction cs as [|p cs IH]; intros Hnd Hin; [destruct Hin|].
  cbn [map] in Hnd. inversion Hnd as [|? ? Hni Hnd']; subst. cbn [find].
  destruct (String.eqb_spec (fst p) c) as [He|Hne].
  - destruct Hin as [->|Hin]; [reflexivity|]. exfalso. apply Hni. rewrite He.
    change c with (fst (c, f)). apply in_map. exact Hin.
  - destruct Hin as [->|Hin]; [cbn in Hne; congruence|]. apply IH; assumption.
Qed.
End Cands.

(** * C09 - Fixing a one-shot operation preserves its forward result. *)
Section C09.
Variables X Y : Type.
Variable add : Y -> Y -> Y.
Variable zero : Y.

Definition C09_claim : Prop :=
  forall (o : oneshot_op X Y) c o' r,
    o_fixed o = false -> oneshot_fix o c = (o', r) ->
    (In c (names (o_cands o)) ->
       r = Ok tt /\ names (o_cands o') = [c] /\
       forall x, oneshot_forward add zero o' x
                 = oneshot_forward add zero (oneshot_set_choice o (Some c)) x) /\
    (~ In c (names (o_cands o)) -> exists e, r = Raise e).

Theorem C09_fix_preserves_forward_partial :
  forall (cs : list (string * (X -> Y))) choice c o' r,
    NoDup (map fst cs) ->
    let o := oneshot_set_choice (new_oneshot_op cs) choice in
    oneshot_fix o c = (o', r) ->
    In c (map fst cs) ->
    r = Ok tt /\ map fst (o_cands o') = [c] /\
    (forall x, exists y, oneshot_forward add zero o' x = Ok y /\
       oneshot_forward add zero (oneshot_set_choice o (Some c)) x = Ok y).
Proof.
  intros cs choice c o' r Hnd o H Hin. unfold oneshot_fix in H. cbn [o o_fixed] in H.
  cbn in H. inversion H; subst o' r. clear H.
  change (map fst cs) with (names cs) in *.
  rewrite (pop_names (fun x => String.eqb x c) cs). split; [reflexivity|].
  cbn [o_cands]. split.
  - clear - Hnd Hin. unfold names in *. induction cs as [|p cs IH]; [destruct Hin|].
    cbn [map filter] in *. inversion Hnd as [|? ? Hni Hnd']; subst.
    destruct (String.eqb_spec (fst p) c) as [He|Hne].
    + cbn [map]. rewrite He. f_equal.
      assert (Hf : filter (fun p0 => String.eqb (fst p0) c) cs = []).
      { subst c. clear - Hni. induction cs as [|q cs IH]; [reflexivity|]. cbn in *.
        destruct (String.eqb_spec (fst q) (fst p)); [exfalso; apply Hni; auto|].
        apply IH. intros Hx; apply Hni; auto. }
      rewrite Hf. reflexivity.
    + apply IH; [exact Hnd'|]. destruct Hin; [congruence|assumption].
  - intros x. unfold names in Hin. apply in_map_iff in Hin as [[c0 f] [Hc Hin]]. cbn in Hc. subst c0.
    exists (f x). unfold oneshot_forward. cbn.
    rewrite (lookup_filter (fun y => String.eqb y c)) by apply String.eqb_refl.
    rewrite (lookup_in _ _ _ Hnd Hin). auto.
Qed.
End C09.

(** Fixing with an unknown name is accepted, drops every candidate, and the forward
    pass raises. *)
Lemma C09_witness :
  let o := new_oneshot_op [("a"%string, fun x : nat => x)] in
  exists o', oneshot_fix o "b"%string = (o', Ok tt) /\ o_cands o' = [] /\
    oneshot_forward Nat.add 0%nat o' 3%nat = Raise KeyError.
Proof. cbv zeta. eexists. repeat split; vm_compute; reflexivity. Qed.

Theorem C09_fix_preserves_forward_refuted : ~ C09_claim nat nat Nat.add 0%nat.
Proof.
  intros H. destruct C09_witness as (o' & H1 & _ & _).
  specialize (H (new_oneshot_op [("a"%string, fun x : nat => x)]) _ _ _ eq_refl H1).
  destruct H as [_ H2]. destruct H2 as [e He].
  - cbn. intros [Hx|[]]. discriminate.
  - discriminate.
Qed.
Print Assumptions C09_fix_preserves_forward_partial.
Print Assumptions C09_fix_preserves_forward_refuted.
Example C09_example :
  let cs := [("conv3"%string, fun x : nat => (x + 3)%nat); ("conv5"%string, fun x => (x * 5)%nat)] in
  oneshot_forward Nat.add 0%nat (fst (oneshot_fix (new_oneshot_op cs) "conv5"%string)) 2%nat = Ok 10%nat.
Proof. vm_compute. reflexivity. Qed.

(** * C07 for module mutables: a second fix is rejected and changes nothing. *)
Theorem C07_oneshot_op :
  forall X Y (o : oneshot_op X Y) c o' r,
    oneshot_fix o c = (o', r) ->
    (o_fixed o = true -> (exists e, r = Raise e) /\ o' = o) /\
    (r = Ok tt -> o_fixed o = false /\ o_fixed o' = true /\ o_chosen o' = Some c).
Proof.
  intros X Y o c o' r H. unfold oneshot_fix in H. destruct (o_fixed o) eqn:E; inversion H; subst.
  - split; [eauto|discriminate].
  - split; [discriminate|auto].
Qed.
Print Assumptions C07_oneshot_op.
Theorem C07_diff_op :
  forall X Y (o : diff_op X Y) c o' r,
    diff_fix o c = (o', r) ->
    (d_fixed o = true -> (exists e, r = Raise e) /\ o' = o) /\
    (r = Ok tt -> d_fixed o = false /\ d_fixed o' = true /\ d_chosen o' = Some c).
Proof.
  intros X Y o c o' r H. unfold diff_fix in H. destruct (d_fixed o) eqn:E; inversion H; subst.
  - split; [eauto|discriminate].
  - split; [discriminate|auto].
Qed.
Print Assumptions C07_diff_op.
Example C07_op_example :
  exists o, oneshot_fix (new_oneshot_op [("a"%string, fun x : nat => x)]) "a"%string = (o, Ok tt) /\
    o_fixed o = true.
Proof. eexists. split; reflexivity. Qed.

(** * C10 - A fixed differentiable route routes each input to its own edge. *)
Section C10.
Variables X Y : Type.
Variable add : Y -> Y -> Y.
Variable zero : Y.

(** What the fixed route must compute: the sum over the original edges that were chosen,
    each applied to the input at the edge's own position. *)
Fixpoint routed (edges : list (string * (X -> Y))) (xs : list X) (chosen : list string) : list Y :=
  match edges, xs with
  | (name, f) :: edges', x :: xs' =>
      (if existsb (String.eqb name) chosen then [f x] else []) ++ routed edges' xs' chosen
  | _, _ => []
  end.

(** Histories: any number of fix_chosen calls, the first of which succeeds. *)
Definition fix_all (o : route X Y) (calls : list (list string)) : route X Y :=
  fold_left (fun o c => fst (route_fix o c)) calls o.

Definition C10_claim : Prop :=
  forall (edges : list (string * (X -> Y))) chosen later xs,
    NoDup (map fst edges) -> length xs = length edges ->
    route_forward_fixed add zero (fix_all (new_route edges) (chosen :: later)) xs
    = Ok (fold_left add (routed edges xs chosen) zero).

Theorem C10_route_partial :
  forall (edges : list (string * (X -> Y))) chosen xs,
    NoDup (map fst edges) -> length xs = length edges ->
    route_forward_fixed add zero (fix_all (new_route edges) [chosen]) xs
    = Ok (fold_left add (routed edges xs chosen) zero).
Proof.
  intros edges chosen xs Hnd Hlen. unfold fix_all. cbn [fold_left]. unfold route_fix, new_route.
  cbn [r_fixed r_cands r_unfixed r_chosen fst].
  change (map fst edges) with (names edges) in Hnd.
  rewrite (pop_names (fun c => str_in c chosen) edges). unfold route_forward_fixed.
  cbn [r_chosen r_cands r_unfixed fst].
  assert (G : forall es xs, (forall p, In p es -> lookup (fst p) edges = Some (snd p)) ->
     mapM (fun cx => match lookup (fst cx) (filter (fun p => str_in (fst p) chosen) edges) with
                     | Some f => Ok (f (snd cx)) | None => Raise KeyError end)
       (filter (fun cx => str_in (fst cx) chosen) (combine (names es) xs))
     = Ok (routed es xs chosen)).
  { induction es as [|[c f] es IH]; intros ys Hes; [reflexivity|].
    destruct ys as [|y ys]; [reflexivity|]. cbn [names map combine filter routed fst].
    specialize (IH ys (fun p Hp => Hes p (or_intror Hp))). unfold names in IH.
    change (existsb (String.eqb c) chosen) with (str_in c chosen).
    destruct (str_in c chosen) eqn:E; [|exact IH]. cbn [mapM].
    rewrite (lookup_filter (fun c => str_in c chosen)) by exact E. cbn [fst snd].
    pose proof (Hes (c, f) (or_introl eq_refl)) as Hc. cbn [fst snd] in Hc. rewrite Hc.
    cbn [bind]. rewrite IH. reflexivity. }
  rewrite G; [reflexivity|]. intros [c f] Hp. apply lookup_in; assumption.
Qed.
End C10.

(** Three edges, edge "b" chosen; a later (rejected) fix_chosen makes "b" receive the
    input of edge "a". *)
Theorem C10_route_refuted : ~ C10_claim nat nat Nat.add 0%nat.
Proof.
  intros H.
  specialize (H [("a"%string, fun x => x); ("b"%string, fun x => x); ("c"%string, fun x => x)]
                ["b"%string] [["b"%string]] [1; 20; 300]%nat).
  assert (Hnd : NoDup (map fst [("a"%string, fun x : nat => x); ("b"%string, fun x => x); ("c"%string, fun x => x)])).
  { cbn. repeat constructor; cbn; intuition discriminate. }
  specialize (H Hnd eq_refl). vm_compute in H. discriminate.
Qed.
Print Assumptions C10_route_partial.
Print Assumptions C10_route_refuted.
Example C10_example :
  let edges := [("a"%string, fun x => (x + 1)%nat); ("b"%string, fun x => (x * 2)%nat);
                ("c"%string, fun x => x)] in
  route_forward_fixed Nat.add 0%nat (fix_all nat nat (new_route edges) [["c"%string; "b"%string]]) [1; 20; 300]%nat
  = Ok 340%nat.
Proof. vm_compute. reflexivity. Qed.

(** The same history violates C07 for routes. *)
Theorem C07_route_refuted :
  ~ (forall X Y (o : route X Y) c o' e, r_fixed o = true -> route_fix o c = (o', Raise e) -> o' = o).
Proof.
  intros H.
  specialize (H nat nat (fix_all nat nat (new_route [("a"%string, fun x => x); ("b"%string, fun x => x)]) [["b"%string]])
                ["b"%string] _ _ eq_refl eq_refl).
  apply (f_equal (@r_unfixed _ _)) in H. vm_compute in H. discriminate.
Qed.
Print Assumptions C07_route_refuted.
(** The choice, the edges and the fixed flag do survive a rejected fix. *)
Theorem C07_route_partial :
  forall X Y (o : route X Y) c o' r, r_fixed o = true -> route_fix o c = (o', r) ->
    r = Raise AttributeError /\ r_cands o' = r_cands o /\ r_chosen o' = r_chosen o /\ r_fixed o' = true.
Proof.
  intros X Y o c o' r Hf H. unfold route_fix in H. cbn [r_fixed] in H. rewrite Hf in H.
  inversion H; subst. auto.
Qed.
Print Assumptions C07_route_partial.
Example C07_route_example :
  let o := fix_all nat nat (new_route [("a"%string, fun x => x); ("b"%string, fun x => x)]) [["b"%string]] in
  r_fixed o = true /\ snd (route_fix o ["a"%string]) = Raise AttributeError /\ r_chosen (fst (route_fix o ["a"%string])) = Some ["b"%string].
Proof. vm_compute. auto. Qed.

(** * C11 - fix_threshold fixes the most probable operation. *)
Definition is_argmax (probs : list Q) (i : nat) : Prop :=
  exists p, nth_error probs i = Some p /\ forall j q, nth_error probs j = Some q -> (q <= p)%Q.

(** When the rule fires, the fixed candidate is the one of highest probability. *)
Definition C11_claim : Prop :=
  forall X Y (o o' : diff_op X Y) threshold probs c,
    d_fixed o = false -> length probs = length (d_cands o) -> (0 < threshold)%Q ->
    onehot_maybe_fix o threshold probs = Ok o' -> d_fixed o' = true ->
    d_chosen o' = Some [c] ->
    exists i, is_argmax probs i /\ nth_error (names (d_cands o)) i = Some c.

(** Probabilities (0.9, 0.1), threshold 0.5: the second, least probable operation is fixed. *)
Theorem C11_threshold_refuted : ~ C11_claim.
Proof.
  intros H.
  set (o := {| d_cands := [("good"%string, fun x : nat => x); ("bad"%string, fun x : nat => x)];
               d_chosen := None; d_fixed := false |}).
  destruct (H nat nat o (fst (diff_fix o ["bad"%string])) (1 # 2) [9 # 10; 1 # 10]%Q "bad"%string)
    as (i & (p & Hp & Hmax) & Hn); try reflexivity.
  specialize (Hmax 0%nat (9 # 10) eq_refl).
  destruct i as [|[|[|i]]]; cbn in Hn, Hp; try discriminate.
  inversion Hp; subst p. apply Qle_bool_iff in Hmax. vm_compute in Hmax. discriminate.
Qed.
Print Assumptions C11_threshold_refuted.

Lemma qinsert_in x l y : In y (qinsert x l) <-> y = x \/ In y l.
Proof.
  induction l as [|z r IH]; cbn; [intuition|]. destruct (Qle_bool z x); cbn; [intuition|].
  rewrite IH. intuition.
Qed.
Lemma qsort_in l y : In y (qsort_desc l) <-> In y l.
Proof. induction l as [|x r IH]; cbn; [tauto|]. rewrite qinsert_in, IH. intuition. Qed.
Lemma qinsert_head x l :
  (forall y r, l = y :: r -> forall z, In z r -> (z <= y)%Q) ->
  forall y r, qinsert x l = y :: r -> forall z, In z r -> (z <= y)%Q.
Proof.
  intros Hl y r H z Hz. destruct l as [|w l]; cbn in H.
  - inversion H; subst. destruct Hz.
  - destruct (Qle_bool w x) eqn:E; inversion H; subst.
    + destruct Hz as [<-|Hz]; [apply Qle_bool_iff; exact E|].
      apply Qle_trans with w; [exact (Hl w l eq_refl z Hz)|apply Qle_bool_iff; exact E].
    + apply qinsert_in in Hz as [->|Hz]; [|exact (Hl y l eq_refl z Hz)].
      assert (Hn : ~ (y <= x)%Q) by (intros Hc; apply Qle_bool_iff in Hc; congruence).
      apply Qlt_le_weak. apply Qnot_le_lt. exact Hn.
Qed.
Lemma qsort_max l a r : qsort_desc l = a :: r -> forall q, In q l -> (q <= a)%Q.
Proof.
  revert a r; induction l as [|x l IH]; intros a r H q Hq; [destruct Hq|].
  cbn in H. change (fold_right qinsert [] l) with (qsort_desc l) in H.
  assert (Hall : forall y t, qsort_desc l = y :: t -> forall z, In z t -> (z <= y)%Q).
  { intros y t Ht z Hz. apply (IH y t Ht). apply qsort_in. rewrite Ht. right. exact Hz. }
  assert (Hqin : In q (a :: r)).
  { rewrite <- H. apply qinsert_in. destruct Hq as [->|Hq]; [auto|right; apply qsort_in; exact Hq]. }
  destruct Hqin as [<-|Hqin]; [apply Qle_refl|].
  exact (qinsert_head x (qsort_desc l) Hall a r H q Hqin).
Qed.

(** What does hold: below the threshold nothing is fixed, and if the rule fires, the
    candidate at position 1 is fixed whatever the ranking; so the claim holds when
    position 1 is the most probable one. *)
Theorem C11_threshold_partial :
  forall X Y (o o' : diff_op X Y) threshold probs,
    d_fixed o = false -> NoDup (names (d_cands o)) ->
    onehot_maybe_fix o threshold probs = Ok o' ->
    (* nothing fixed: the gap is below the threshold *)
    (d_fixed o' = false -> o' = o /\
       exists a b r, qsort_desc probs = a :: b :: r /\ ~ (threshold <= a - b)%Q) /\
    (* fixed: gap reached; only candidate 1 remains *)
    (d_fixed o' = true ->
       (exists a b r, qsort_desc probs = a :: b :: r /\ (threshold <= a - b)%Q) /\
       exists c, nth_error (names (d_cands o)) 1 = Some c /\ d_chosen o' = Some [c] /\
         (is_argmax probs 1 -> exists i, is_argmax probs i /\ nth_error (names (d_cands o)) i = Some c)).
Proof.
  intros X Y o o' th probs Hf Hnd H. unfold onehot_maybe_fix in H. rewrite Hf in H. unfold top2 in H.
  destruct (qsort_desc probs) as [|a [|b r]] eqn:E; cbn [bind] in H; try discriminate.
  destruct (Qle_bool th (a - b)) eqn:Et.
  - destruct (nth_error (names (d_cands o)) 1) as [c|] eqn:En; [|discriminate].
    unfold diff_fix in H. rewrite Hf in H. cbn [bind] in H. inversion H; subst o'. clear H.
    cbn [d_fixed]. split; [discriminate|]. intros _. split.
    + exists a, b, r. split; [reflexivity|]. apply Qle_bool_iff. exact Et.
    + exists c. cbn. split; [reflexivity|]. split; [reflexivity|]. intros Hm. exists 1%nat. auto.
  - inversion H; subst o'. split; [|congruence]. intros _. split; [reflexivity|].
    exists a, b, r. split; [reflexivity|]. intros Hc. apply Qle_bool_iff in Hc. congruence.
Qed.
Print Assumptions C11_threshold_partial.
Example C11_example :
  exists o', onehot_maybe_fix
    {| d_cands := [("a"%string, fun x : nat => x); ("b"%string, fun x => x); ("c"%string, fun x => x)];
       d_chosen := None; d_fixed := false |} (1 # 2) [1 # 10; 8 # 10; 1 # 10]%Q = Ok o' /\
    d_chosen o' = Some ["b"%string] /\ d_fixed o' = true.
Proof. eexists. split; [vm_compute; reflexivity|]. split; reflexivity. Qed.

(** * C60 - The probabilities of a OneShotProbMutableOP are checked to sum to one. *)
Definition C60_claim : Prop :=
  forall probs, probs_ok probs = true ->
    (- (1 # 1000) <= fold_left Qplus probs 0 - 1 /\ fold_left Qplus probs 0 - 1 <= 1 # 1000)%Q.
Theorem C60_probs_sum_refuted : ~ C60_claim.
Proof.
  intros H. destruct (H [1 # 10; 1 # 10]%Q eq_refl) as [H1 _].
  apply Qle_bool_iff in H1. vm_compute in H1. discriminate.
Qed.
Print Assumptions C60_probs_sum_refuted.
(** Only sums above one are rejected. *)
Theorem C60_probs_sum_partial :
  forall probs, probs_ok probs = true <-> (fold_left Qplus probs 0 - 1 < 1 # 4503599627370496)%Q.
Proof.
  intros probs. unfold probs_ok. rewrite negb_true_iff. split; intros H.
  - apply Qnot_le_lt. intros Hc. apply Qle_bool_iff in Hc. congruence.
  - destruct (Qle_bool _ _) eqn:E; [|reflexivity]. apply Qle_bool_iff in E.
    exfalso. apply (Qle_not_lt _ _ E). exact H.
Qed.
Print Assumptions C60_probs_sum_partial.
Example C60_example : probs_ok [1 # 2; 1 # 2]%Q = true /\ probs_ok [9 # 10; 9 # 10]%Q = false.
Proof. vm_compute. auto. Qed.
