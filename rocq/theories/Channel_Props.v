(** C03, C04, C06, C07 (channel and value mutables), C56. *)
From Verif Require Import Prelude PyNum Channel_Model Channel_Lemmas.

(** * C03 - A sequential channel choice keeps exactly the leading channels. *)

(** A history of assignments; assignments that raise are caught by the caller. *)
Definition assign_all (c : seq_channel) (vs : list num) : seq_channel :=
  fold_left (fun c v => match seq_set c v with Ok c' => c' | Raise _ => c end) vs c.

Lemma assign_all_inv vs c :
  length (q_mask c) = q_n c ->
  q_n (assign_all c vs) = q_n c /\ q_num (assign_all c vs) = q_num c /\
  q_fixed (assign_all c vs) = q_fixed c /\ length (q_mask (assign_all c vs)) = q_n c.
Proof.
  revert c; induction vs as [|v vs IH]; intros c Hl; cbn [assign_all fold_left]; [auto|].
  destruct (seq_set c v) as [c'|e] eqn:E; [|apply IH; exact Hl].
  apply seq_set_ok in E as (H1 & H2 & H3 & H4 & _).
  destruct (IH c') as (G1 & G2 & G3 & G4); [congruence|].
  unfold assign_all in *. repeat split; congruence.
Qed.

Theorem C03_leading_channels :
  forall n mode vs c,
    0 <= c <= Z.of_nat n ->
    exists ch, seq_set (assign_all (new_seq n mode) vs) (NInt c) = Ok ch /\
      length (q_mask ch) = n /\
      (forall i, (i < Z.to_nat c)%nat -> nth_error (q_mask ch) i = Some true) /\
      (forall i, (Z.to_nat c <= i < n)%nat -> nth_error (q_mask ch) i = Some false) /\
      (mode = true -> seq_get ch = Ok (NInt c)) /\
      seq_set (new_seq n mode) (NInt c) = Ok ch.
Proof.
  intros n mode vs c Hc. pose proof (assign_all_inv vs (new_seq n mode)) as H.
  cbn [new_seq q_mask q_n q_num q_fixed] in H.
  destruct H as (H1 & H2 & H3 & H4); [apply repeat_length|].
  set (c0 := assign_all (new_seq n mode) vs) in *.
  exists (with_mask c0 (leading n c)). unfold seq_set at 1. cbn [bind]. rewrite H4.
  pose proof (slice_stop_in n c Hc) as Hs.
  split; [reflexivity|]. cbn [with_mask q_mask]. split; [apply leading_length|].
  split; [|split; [|split]].
  - intros i Hi. rewrite leading_nth, Hs. destruct (Nat.ltb_spec i (Z.to_nat c)); [reflexivity|lia].
  - intros i Hi. rewrite leading_nth, Hs.
    destruct (Nat.ltb_spec i (Z.to_nat c)); [lia|].
    destruct (Nat.ltb_spec i n); [reflexivity|lia].
  - intros ->. unfold seq_get. cbn. rewrite H2, leading_count, Hs. do 2 f_equal. lia.
  - unfold seq_set. cbn [bind new_seq q_mask]. rewrite repeat_length.
    unfold with_mask. cbn. f_equal. congruence.
Qed.
Print Assumptions C03_leading_channels.
Example C03_example :
  seq_set (assign_all (new_seq 6 true) [NInt 2; NFloat (f64_lit 1 2); NInt (-1)]) (NInt 4)
  = Ok {| q_n := 6; q_mask := [true; true; true; true; false; false];
          q_num := true; q_fixed := false |}.
Proof. vm_compute. reflexivity. Qed.

(** * C04 - Re-applying a reported choice keeps the sub-network. *)
Definition C04_claim : Prop :=
  forall n mode vs ch v,
    ch = assign_all (new_seq n mode) vs ->
    seq_get ch = Ok v ->
    exists ch', seq_set ch v = Ok ch' /\ q_mask ch' = q_mask ch.

(** 49 channels of which 2 are active: the ratio 2/49 read back and assigned again
    activates a single channel, because 49 * (2/49) < 2 in binary64. *)
Theorem C04_reapply_ratio_refuted : ~ C04_claim.
Proof.
  intros H. edestruct (H 49%nat false [NInt 2]) as (ch' & Hset & Hm); [reflexivity| |].
  - vm_compute. reflexivity.
  - vm_compute in Hset. inversion Hset; subst ch'. vm_compute in Hm. discriminate.
Qed.
Print Assumptions C04_reapply_ratio_refuted.

(** In number mode the claim holds for every reachable mask. *)
Theorem C04_reapply_number_partial :
  forall n vs ch v,
    ch = assign_all (new_seq n true) vs ->
    seq_get ch = Ok v ->
    seq_set ch v = Ok ch.
Proof.
  intros n vs ch v Hch Hg.
  assert (Hlead : exists k, q_mask ch = leading n k).
  { subst ch. clear Hg v. induction vs as [|x vs IH] using rev_ind.
    - exists (Z.of_nat n). cbn. unfold leading. rewrite slice_stop_in by lia.
      rewrite Nat2Z.id, Nat.sub_diag. cbn. symmetry. apply app_nil_r.
    - unfold assign_all in *. rewrite fold_left_app. cbn [fold_left].
      set (c0 := fold_left _ vs (new_seq n true)) in *.
      destruct (seq_set c0 x) as [c'|e] eqn:E; [|exact IH].
      apply seq_set_ok in E as (_ & _ & _ & _ & k & Hk).
      destruct IH as [k0 Hk0]. rewrite Hk0, leading_length in Hk. eauto. }
  destruct Hlead as [k Hk].
  destruct (assign_all_inv vs (new_seq n true)) as (_ & H2 & _ & _); [apply repeat_length|].
  rewrite <- Hch in H2. cbn in H2. unfold seq_get in Hg. rewrite H2 in Hg.
  inversion Hg; subst v. unfold seq_set. cbn [bind]. rewrite Hk, leading_length, leading_idem, <- Hk.
  destruct ch; reflexivity.
Qed.
Print Assumptions C04_reapply_number_partial.
Example C04_example :
  seq_get (assign_all (new_seq 49 true) [NInt 7; NInt 2]) = Ok (NInt 2).
Proof. vm_compute. reflexivity. Qed.

(** * C56 - Out-of-range channel choices are rejected. *)
Definition C56_claim : Prop :=
  forall n c, (0 < n)%nat -> ~ (1 <= c <= Z.of_nat n) ->
    exists e, seq_set (new_seq n true) (NInt c) = Raise e.

Theorem C56_out_of_range_refuted : ~ C56_claim.
Proof.
  intros H. destruct (H 8%nat 12 ltac:(lia) ltac:(lia)) as [e He]. discriminate.
Qed.
Print Assumptions C56_out_of_range_refuted.

(** What the sequential mutable does with any integer [c]: oversized choices select all
    channels, negative ones count from the end. *)
Theorem C56_out_of_range_behaviour_partial :
  forall n c ch, seq_set (new_seq n true) (NInt c) = Ok ch ->
    (c > Z.of_nat n -> seq_get ch = Ok (NInt (Z.of_nat n))) /\
    (c < 0 -> seq_get ch = Ok (NInt (Z.max 0 (Z.of_nat n + c)))).
Proof.
  intros n c ch H. unfold seq_set in H. cbn [bind new_seq q_mask] in H.
  rewrite repeat_length in H. inversion H; subst ch. unfold seq_get. cbn.
  rewrite leading_count. unfold slice_stop.
  split; intros Hc; destruct (c <? 0) eqn:E; do 2 f_equal; lia.
Qed.
Print Assumptions C56_out_of_range_behaviour_partial.

(** The one-shot variant rejects every value that is not one of its candidates, and a
    rejected assignment changes nothing (here: no new state is produced). *)
Theorem C56_oneshot_rejects_partial :
  forall cands ch v ch',
    oneshot_set cands ch v = Ok ch' -> exists c, In c cands /\ num_eqb v c = true.
Proof.
  intros cands ch v ch' H. unfold oneshot_set, assert_ in H.
  destruct (num_in v cands) eqn:E; [|discriminate].
  unfold num_in in E. apply existsb_exists in E. exact E.
Qed.
Print Assumptions C56_oneshot_rejects_partial.
Example C56_example :
  oneshot_set [NInt 4; NInt 8] (new_seq 8 true) (NInt 6) = Raise AssertionError /\
  exists ch, oneshot_set [NInt 4; NInt 8] (new_seq 8 true) (NInt 4) = Ok ch.
Proof. split; [reflexivity|eexists; vm_compute; reflexivity]. Qed.

(** * C06 - Candidate lists of different channel mutables are independent. *)

(** A channel mutable constructed without candidates accepts exactly its full width. *)
Definition C06_claim : Prop :=
  forall h n, candidates (run (h ++ [ONew n true None])) (length (objs (run h)))
              = Some [NInt (Z.of_nat n)].

(** Two constructions without candidates: the second inherits the first one's width. *)
Theorem C06_default_candidates_refuted : ~ C06_claim.
Proof.
  intros H. specialize (H [ONew 4 true None] 8%nat). vm_compute in H. discriminate.
Qed.
Print Assumptions C06_default_candidates_refuted.

(** The list references handed over at construction in a history. *)
Definition new_refs (h : list op) : list (option nat) :=
  flat_map (fun o => match o with ONew _ _ a => [a] | _ => [] end) h.

(** Does the action target object [i]? *)
Definition targets (o : op) (i : nat) : Prop :=
  match o with OSet j _ | OAppend j _ => i = j | _ => False end.

Lemma run_snoc h o : run (h ++ [o]) = fst (step (run h) o).
Proof. unfold run. rewrite fold_left_app. reflexivity. Qed.

Lemma run_refs h :
  (forall i ob, nth_error (objs (run h)) i = Some ob ->
     In (Some (os_ref ob)) (new_refs h) \/ In None (new_refs h)) /\
  (NoDup (new_refs h) -> ~ In None (new_refs h) ->
   forall i j oi oj, nth_error (objs (run h)) i = Some oi -> nth_error (objs (run h)) j = Some oj ->
     os_ref oi = os_ref oj -> i = j).
Proof.
  induction h as [|o h IH] using rev_ind.
  - split; [intros [|i] ob H; discriminate|intros _ _ [|i] j oi oj H; discriminate].
  - rewrite run_snoc. unfold new_refs in *. rewrite flat_map_app. destruct IH as [IH1 IH2].
    set (R := flat_map _ h) in *. set (w := run h) in *.
    assert (Hkeep : forall w', (forall i ob, nth_error (objs w') i = Some ob ->
               exists ob0, nth_error (objs w) i = Some ob0 /\ os_ref ob0 = os_ref ob) ->
             forall S, (forall i ob, nth_error (objs w') i = Some ob ->
               In (Some (os_ref ob)) (R ++ S) \/ In None (R ++ S)) /\
             (NoDup (R ++ S) -> ~ In None (R ++ S) ->
              forall i j oi oj, nth_error (objs w') i = Some oi -> nth_error (objs w') j = Some oj ->
              os_ref oi = os_ref oj -> i = j)).
    { intros w' Hw' S. split.
      - intros i ob Hi. destruct (Hw' _ _ Hi) as (ob0 & H0 & Hr).
        destruct (IH1 _ _ H0); [left|right]; apply in_or_app; left; congruence.
      - intros Hnd Hnone i j oi oj Hi Hj Heq.
        destruct (Hw' _ _ Hi) as (oi0 & Hi0 & Hri). destruct (Hw' _ _ Hj) as (oj0 & Hj0 & Hrj).
        eapply IH2; eauto; [|intros Hin; apply Hnone, in_or_app; auto|congruence].
        clear - Hnd. induction R as [|x R IHR]; [constructor|]. cbn in Hnd.
        inversion Hnd; subst. constructor; auto. intros Hin. apply H1, in_or_app; auto. }
    destruct o as [l|n m a|i v|i v]; cbn [step flat_map app].
    + apply (Hkeep _). cbn. eauto.
    + set (r := match a with Some r => r | None => 0%nat end).
      destruct (nth_error (heap w) r) as [l|] eqn:El.
      2:{ apply (Hkeep _). eauto. }
      cbn [fst objs]. split.
      * intros i ob Hi. destruct (Nat.lt_ge_cases i (length (objs w))) as [Hlt|Hge].
        -- rewrite nth_error_app1 in Hi by exact Hlt.
           destruct (IH1 _ _ Hi); [left|right]; apply in_or_app; auto.
        -- rewrite nth_error_app2 in Hi by exact Hge.
           destruct (i - length (objs w))%nat as [|k]; [|destruct k; discriminate].
           cbn in Hi. inversion Hi; subst ob. cbn. destruct a as [r0|]; subst r.
           ++ left. apply in_or_app. right. left. reflexivity.
           ++ right. apply in_or_app. right. left. reflexivity.
      * intros Hnd Hnone.
        destruct a as [r0|]; [|exfalso; apply Hnone, in_or_app; right; left; reflexivity].
        subst r.
        assert (Hnd0 : NoDup R).
        { clear - Hnd. induction R as [|x R IHR]; [constructor|]. cbn in Hnd.
          inversion Hnd; subst. constructor; auto. intros Hin. apply H1, in_or_app; auto. }
        assert (Hnone0 : ~ In None R) by (intros Hin; apply Hnone, in_or_app; auto).
        assert (Hfresh : ~ In (Some r0) R).
        { intros Hin. apply NoDup_remove_2 in Hnd. rewrite app_nil_r in Hnd. auto. }
        assert (Hold : forall k ok, nth_error (objs w) k = Some ok -> os_ref ok <> r0).
        { intros k ok Hk Hr. destruct (IH1 _ _ Hk); congruence. }
        intros i j oi oj Hi Hj Heq.
        assert (Hcase : forall k ok, nth_error (objs w ++ [{| os_ch := new_seq n m; os_ref := r0 |}]) k = Some ok ->
                  (nth_error (objs w) k = Some ok) \/ (k = length (objs w) /\ os_ref ok = r0)).
        { intros k ok Hk. destruct (Nat.lt_ge_cases k (length (objs w))) as [Hlt|Hge].
          - rewrite nth_error_app1 in Hk by exact Hlt. auto.
          - rewrite nth_error_app2 in Hk by exact Hge. right.
            destruct (k - length (objs w))%nat as [|q] eqn:Eq; [|destruct q; discriminate].
            cbn in Hk. inversion Hk; subst. split; [lia|reflexivity]. }
        destruct (Hcase _ _ Hi) as [Hi'|[Hi' Hri]]; destruct (Hcase _ _ Hj) as [Hj'|[Hj' Hrj]].
        -- eapply IH2; eauto.
        -- exfalso. apply (Hold _ _ Hi'). congruence.
        -- exfalso. apply (Hold _ _ Hj'). congruence.
        -- congruence.
    + destruct (nth_error (objs w) i) as [ob|] eqn:Eo; [|apply (Hkeep _); eauto].
      destruct (nth_error (heap w) (os_ref ob)) as [l|]; [|apply (Hkeep _); eauto].
      destruct (oneshot_set l (os_ch ob) v) as [c|e]; [|apply (Hkeep _); eauto].
      apply (Hkeep _). cbn [fst objs]. intros k ok Hk.
      apply upd_inv in Hk as [[<- ->]|[_ Hk]]; eauto.
    + destruct (nth_error (objs w) i) as [ob|] eqn:Eo; [|apply (Hkeep _); eauto].
      destruct (nth_error (heap w) (os_ref ob)) as [l|]; [|apply (Hkeep _); eauto].
      apply (Hkeep _). cbn [fst objs]. eauto.
Qed.

(** If every construction is given its own list object, no action on anything else
    (constructing further mutables, using or extending others) changes the candidates
    or the mask of mutable [i].  Missing compared to the claim: constructions that rely
    on the default candidates, or share one list object. *)
Theorem C06_independent_partial :
  forall h o i,
    NoDup (new_refs (h ++ [o])) -> ~ In None (new_refs (h ++ [o])) ->
    (i < length (objs (run h)))%nat -> ~ targets o i ->
    candidates (run (h ++ [o])) i = candidates (run h) i /\
    nth_error (objs (run (h ++ [o]))) i = nth_error (objs (run h)) i.
Proof.
  intros h o i Hnd Hnone Hi Ht.
  destruct (run_refs (h ++ [o])) as [_ H2]. specialize (H2 Hnd Hnone).
  rewrite run_snoc in *. set (w := run h) in *.
  destruct (nth_error (objs w) i) as [ob|] eqn:Eo; [|apply nth_error_None in Eo; lia].
  destruct o as [l|n m a|j v|j v]; cbn [step] in *.
  - cbn [fst] in *. unfold candidates. cbn [objs heap]. rewrite Eo.
    split; [|reflexivity].
    destruct (run_refs h) as [Hr _].
    (* every reference held by an object points into the heap *)
    assert (Hb : forall h' k ok, nth_error (objs (run h')) k = Some ok ->
              (os_ref ok < length (heap (run h')))%nat).
    { clear. induction h' as [|o h' IH] using rev_ind; [intros [|k] ok H; discriminate|].
      intros k ok. rewrite run_snoc. set (w := run h') in *.
      destruct o as [l|n m a|j v|j v]; cbn [step].
      - cbn. rewrite app_length. intros H. specialize (IH _ _ H). cbn. lia.
      - destruct (nth_error (heap w) (match a with Some r => r | None => 0%nat end)) as [l|] eqn:El; [|apply IH].
        cbn [fst objs heap]. rewrite upd_length. intros H.
        destruct (Nat.lt_ge_cases k (length (objs w))) as [Hlt|Hge].
        + rewrite nth_error_app1 in H by exact Hlt. eauto.
        + rewrite nth_error_app2 in H by exact Hge.
          destruct (k - length (objs w))%nat as [|q]; [|destruct q; discriminate].
          cbn in H. inversion H; subst. cbn. apply nth_error_Some. congruence.
      - destruct (nth_error (objs w) j) as [ob|] eqn:Eo; [|apply IH].
        destruct (nth_error (heap w) (os_ref ob)) as [l|]; [|apply IH].
        destruct (oneshot_set l (os_ch ob) v) as [c|e]; [|apply IH].
        cbn [fst objs heap]. intros H. apply upd_inv in H as [[<- ->]|[_ H]]; cbn; eauto.
      - destruct (nth_error (objs w) j) as [ob|] eqn:Eo; [|apply IH].
        destruct (nth_error (heap w) (os_ref ob)) as [l|]; [|apply IH].
        cbn [fst objs heap]. rewrite upd_length. apply IH. }
    apply nth_error_app1. exact (Hb h _ _ Eo).
  - set (r := match a with Some r => r | None => 0%nat end) in *.
    destruct (nth_error (heap w) r) as [l|] eqn:El;
      [|cbn [fst]; unfold candidates; rewrite Eo; auto].
    cbn [fst objs heap] in *. unfold candidates. cbn [objs heap].
    assert (E1 : nth_error (objs w ++ [{| os_ch := new_seq n m; os_ref := r |}]) i = Some ob)
      by (rewrite nth_error_app1; auto).
    rewrite E1, Eo. split; [|reflexivity]. apply upd_other. intros Heq.
    assert (i = length (objs w)); [|lia].
    apply (H2 i (length (objs w)) ob {| os_ch := new_seq n m; os_ref := r |});
      [exact E1| |symmetry; exact Heq].
    rewrite nth_error_app2, Nat.sub_diag by lia. reflexivity.
  - destruct (nth_error (objs w) j) as [oj|] eqn:Ej; [|cbn [fst]; auto].
    destruct (nth_error (heap w) (os_ref oj)) as [l|] eqn:El; [|cbn [fst]; auto].
    destruct (oneshot_set l (os_ch oj) v) as [c|e]; [|cbn [fst]; auto].
    cbn [fst objs heap]. unfold candidates. cbn [objs heap].
    rewrite upd_other; [rewrite Eo; auto|]. intros ->. apply Ht. reflexivity.
  - destruct (nth_error (objs w) j) as [oj|] eqn:Ej; [|cbn [fst]; auto].
    destruct (nth_error (heap w) (os_ref oj)) as [l|] eqn:El; [|cbn [fst]; auto].
    cbn [fst objs heap] in *. unfold candidates. cbn [objs heap]. rewrite Eo.
    split; [|reflexivity]. apply upd_other. intros Heq. apply Ht. cbn.
    symmetry. eapply H2; eauto.
Qed.
Print Assumptions C06_independent_partial.
Example C06_example :
  let h := [OAlloc [NInt 8; NInt 4]; ONew 8 true (Some 1%nat); OAlloc []; ONew 16 true (Some 2%nat)] in
  NoDup (new_refs (h ++ [OSet 1 (NInt 16)])) /\ ~ In None (new_refs (h ++ [OSet 1 (NInt 16)])) /\
  candidates (run h) 0 = Some [NInt 4; NInt 8] /\ candidates (run h) 1 = Some [NInt 16].
Proof.
  cbv zeta. split; [|split].
  - cbn. repeat constructor; cbn; intuition discriminate.
  - cbn. intuition discriminate.
  - vm_compute. auto.
Qed.

(** After an accepted integer assignment within range, the choice read back is (equal to)
    one of the candidates. *)
Theorem C06_choice_in_candidates_partial :
  forall cands ch c ch',
    q_num ch = true -> 0 <= c <= Z.of_nat (length (q_mask ch)) ->
    oneshot_set cands ch (NInt c) = Ok ch' ->
    exists v, seq_get ch' = Ok v /\ num_in v cands = true.
Proof.
  intros cands ch c ch' Hm Hc H. unfold oneshot_set, assert_ in H.
  destruct (num_in (NInt c) cands) eqn:E; [|discriminate]. cbn [bind] in H.
  unfold seq_set in H. cbn [bind] in H. inversion H; subst ch'. unfold seq_get. cbn.
  rewrite Hm, leading_count, slice_stop_in by exact Hc. rewrite Z2Nat.id by lia. eauto.
Qed.
Print Assumptions C06_choice_in_candidates_partial.
Example C06_choice_example :
  exists ch', oneshot_set [NInt 4; NInt 8] (new_seq 8 true) (NInt 4) = Ok ch'.
Proof. eexists. vm_compute. reflexivity. Qed.

(** * C07 - Fixing is final and a rejected second fix changes nothing. *)

(** SimpleMutableChannel: histories of assignments and fix calls. *)
Inductive simple_op : Type := SSet (m : list bool) | SFix (m : option (list bool)).
Definition simple_step (c : simple_channel) (o : simple_op) : simple_channel :=
  match o with SSet m => simple_set c m | SFix m => fst (simple_fix c m) end.
Definition simple_run (n : nat) (h : list simple_op) : simple_channel :=
  fold_left simple_step h (new_simple_channel n).

Definition C07_claim_simple : Prop :=
  forall n h m c' r,
    s_fixed (simple_run n h) = true -> simple_fix (simple_run n h) m = (c', r) ->
    (exists e, r = Raise e) /\ c' = simple_run n h.

(** Fix, then fix again with another mask: rejected, but the mask has changed. *)
Theorem C07_simple_refuted : ~ C07_claim_simple.
Proof.
  intros H.
  destruct (H 2%nat [SFix (Some [true; false])] (Some [false; true])
              {| s_mask := [false; true]; s_fixed := true |} (Raise AttributeError)) as [_ H1];
    [reflexivity|reflexivity|]. vm_compute in H1. discriminate.
Qed.
Print Assumptions C07_simple_refuted.

(** It still holds that at most one fix succeeds, and that a rejected fix without an
    argument changes nothing. *)
Theorem C07_simple_partial :
  forall n h m c' r,
    s_fixed (simple_run n h) = true -> simple_fix (simple_run n h) m = (c', r) ->
    r = Raise AttributeError /\ s_fixed c' = true /\ (m = None -> c' = simple_run n h).
Proof.
  intros n h m c' r Hf H. unfold simple_fix in H.
  destruct m as [m|]; cbn [s_fixed simple_set] in H; rewrite Hf in H; inversion H; subst;
    cbn; repeat split; auto; discriminate.
Qed.
Print Assumptions C07_simple_partial.
Example C07_simple_example : s_fixed (simple_run 3 [SSet [true; false; true]; SFix None]) = true.
Proof. reflexivity. Qed.

(** SquentialMutableChannel and OneShotMutableChannel ([cands] = Some list). *)
Definition chan_set (cands : option (list num)) : seq_channel -> num -> outcome seq_channel :=
  match cands with None => seq_set | Some l => oneshot_set l end.
Inductive seq_op : Type := QSet (v : num) | QFix (v : option num).
Definition seq_step cands (c : seq_channel) (o : seq_op) : seq_channel :=
  match o with
  | QSet v => match chan_set cands c v with Ok c' => c' | Raise _ => c end
  | QFix v => fst (seq_fix_with (chan_set cands) c v)
  end.
Definition seq_run cands n mode (h : list seq_op) : seq_channel :=
  fold_left (seq_step cands) h (new_seq n mode).

Theorem C07_sequential :
  forall cands n mode h v c' r,
    let c := seq_run cands n mode h in
    seq_fix_with (chan_set cands) c v = (c', r) ->
    (q_fixed c = true -> (exists e, r = Raise e) /\ c' = c) /\
    (forall e, r = Raise e -> c' = c) /\
    (r = Ok tt -> q_fixed c = false /\ q_fixed c' = true /\
       (forall v0, v = Some v0 -> exists c1, chan_set cands c v0 = Ok c1 /\ q_mask c' = q_mask c1)).
Proof.
  intros cands n mode h v c' r c H. unfold seq_fix_with in H.
  destruct (match v with Some x => Ok x | None => seq_get c end) as [x|e] eqn:E.
  - destruct (q_fixed c) eqn:Ef.
    + inversion H; subst. repeat split; eauto; discriminate.
    + destruct (chan_set cands c x) as [c1|e] eqn:E1; inversion H; subst.
      * split; [discriminate|]. split; [discriminate|]. intros _. split; [reflexivity|].
        split; [reflexivity|]. intros v0 Hv. subst v. inversion E; subst x. eauto.
      * split; [discriminate|]. split; [auto|]. discriminate.
  - inversion H; subst. repeat split; eauto; discriminate.
Qed.
Print Assumptions C07_sequential.
Example C07_sequential_example :
  let c := seq_run (Some [NInt 2; NInt 4]) 4 true [QSet (NInt 2); QFix None] in
  q_fixed c = true /\ q_mask c = [true; true; false; false] /\
  seq_fix_with (chan_set (Some [NInt 2; NInt 4])) c (Some (NInt 4)) = (c, Raise AssertionError).
Proof. vm_compute. auto. Qed.

(** MutableValue / OneShotMutableValue. *)
Inductive val_op : Type := VSet (v : num) | VFix (v : num).
Definition val_step (c : mvalue) (o : val_op) : mvalue :=
  match o with
  | VSet v => match value_set c v with Ok c' => c' | Raise _ => c end
  | VFix v => fst (value_fix c v)
  end.

Theorem C07_value :
  forall (v0 : mvalue) h x v' r,
    let v := fold_left val_step h v0 in
    value_fix v x = (v', r) ->
    (v_fixed v = true -> (exists e, r = Raise e) /\ v' = v) /\
    (forall e, r = Raise e -> v' = v) /\
    (r = Ok tt -> v_fixed v = false /\ v_fixed v' = true /\ v_cur v' = x /\
                  num_in x (v_list v) = true).
Proof.
  intros v0 h x v' r v H. unfold value_fix in H. destruct (v_fixed v) eqn:Ef.
  - inversion H; subst. repeat split; eauto; discriminate.
  - destruct (num_in x (v_list v)) eqn:Ei; cbn [negb] in H.
    + unfold value_set in H. rewrite Ei in H. inversion H; subst. cbn.
      repeat split; auto; discriminate.
    + inversion H; subst. repeat split; auto; discriminate.
Qed.
Print Assumptions C07_value.
Example C07_value_example :
  exists v0, new_oneshot_value [NInt 3; NInt 1] None = Ok v0 /\
    v_fixed (fold_left val_step [VSet (NInt 1); VFix (NInt 3)] v0) = true.
Proof. eexists. split; [vm_compute; reflexivity|vm_compute; reflexivity]. Qed.

(** The value mutable's current choice is always one of its choices. *)
Theorem C07_value_choice_valid :
  forall l d v0 h, new_value l d = Ok v0 ->
    num_in (v_cur (fold_left val_step h v0)) l = true /\ v_list (fold_left val_step h v0) = l.
Proof.
  intros l d v0 h H0.
  assert (Hi : num_in (v_cur v0) l = true /\ v_list v0 = l).
  { unfold new_value in H0. destruct (check_same_type l) as [[]|]; [|discriminate].
    cbn [bind] in H0.
    destruct (match d with Some d0 => Some d0 | None => nth_error l 0 end) as [x|]; [|discriminate].
    unfold value_set in H0. cbn [v_list] in H0. destruct (num_in x l) eqn:E; [|discriminate].
    inversion H0; subst. cbn. auto. }
  clear H0. revert v0 Hi. induction h as [|o h IH]; intros v0 [Hc Hl]; cbn [fold_left]; [auto|].
  apply IH. destruct o as [x|x]; cbn [val_step].
  - unfold value_set. destruct (num_in x (v_list v0)) eqn:E; [|auto]. cbn. rewrite Hl in E. auto.
  - unfold value_fix. destruct (v_fixed v0); [cbn; auto|].
    destruct (num_in x (v_list v0)) eqn:E; cbn [negb]; [|cbn; auto].
    unfold value_set. rewrite E. cbn. rewrite Hl in E. auto.
Qed.
Print Assumptions C07_value_choice_valid.
Example C07_value_choice_example :
  exists v0, new_value [NInt 3; NInt 1] None = Ok v0 /\ v_cur (fold_left val_step [VSet (NInt 7); VSet (NInt 1); VFix (NInt 9)] v0) = NInt 1.
Proof. eexists. split; vm_compute; reflexivity. Qed.
