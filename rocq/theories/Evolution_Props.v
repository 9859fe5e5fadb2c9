(** C17, C18, C19, C20. *)
From Verif Require Import Prelude Candidates_Model Candidates_Props Evolution_Model.
From Coq Require Import Permutation Sorted.

(** * C20: crossover *)
Fixpoint dget (d : subnet) (k : string) : option string :=
  match d with [] => None | (k0, v) :: r => if String.eqb k0 k then Some v else dget r k end.
Lemma dget_dput d k v k' : dget (dput d k v) k' = if String.eqb k k' then Some v else dget d k'.
Proof.
  induction d as [|[k0 v0] r IH]; cbn.
  - destruct (String.eqb k k'); reflexivity.
  - destruct (String.eqb_spec k0 k) as [->|Hne]; cbn.
    + destruct (String.eqb k k'); reflexivity.
    + rewrite IH. destruct (String.eqb_spec k0 k') as [->|]; [|reflexivity].
      destruct (String.eqb_spec k k') as [->|]; [congruence|reflexivity].
Qed.
Lemma dput_keys d k v : map fst (dput d k v) = if existsb (String.eqb k) (map fst d) then map fst d else map fst d ++ [k].
Proof.
  induction d as [|[k0 v0] r IH]; cbn; [reflexivity|].
  rewrite (String.eqb_sym k k0). destruct (String.eqb k0 k); cbn; [reflexivity|]. rewrite IH.
  destruct (existsb (String.eqb k) (map fst r)); reflexivity.
Qed.
Lemma dget_none d k : dget d k = None <-> ~ In k (map fst d).
Proof.
  induction d as [|[k0 v0] r IH]; cbn; [intuition|]. destruct (String.eqb_spec k0 k) as [->|Hne].
  - split; [discriminate|]. intros H. exfalso. apply H. auto.
  - rewrite IH. intuition congruence.
Qed.

(** Each key takes the value of the second parent when the coin says so, else that of the
    first; with parents over the same keys the key list (and its order) is that of the first. *)
Theorem C20_crossover :
  forall s1 s2 coin prob child,
    NoDup (map fst s2) ->
    crossover s1 s2 coin prob = Ok child ->
    (forall k v, dget child k = Some v -> dget s1 k = Some v \/ dget s2 k = Some v) /\
    (forall k, dget child k =
       if negb (Qle_bool prob (coin k))
       then match dget s2 k with Some v => Some v | None => dget s1 k end
       else dget s1 k) /\
    ((forall k, In k (map fst s2) -> In k (map fst s1)) -> map fst child = map fst s1).
Proof.
  intros s1 s2 coin prob child Hnd H. unfold crossover in H.
  destruct (Qle_bool 0 prob && Qle_bool prob 1); cbn in H; [|discriminate]. apply Ok_inj in H. subst child.
  set (f := fun acc (kv : string * string) => if negb (Qle_bool prob (coin (fst kv))) then dput acc (fst kv) (snd kv) else acc).
  assert (Hval : forall k, dget (fold_left f s2 s1) k =
       if negb (Qle_bool prob (coin k)) then match dget s2 k with Some v => Some v | None => dget s1 k end else dget s1 k).
  { intros k. revert s1. induction s2 as [|[k0 v0] r IH]; intros s1; cbn [fold_left].
    - cbn. destruct (negb _); reflexivity.
    - cbn in Hnd. inversion Hnd; subst. rewrite IH by assumption. cbn [dget].
      unfold f at 1 2. cbn [fst snd].
      destruct (String.eqb_spec k0 k) as [->|Hne].
      + assert (Hn : dget r k = None) by (apply dget_none; assumption). rewrite Hn.
        destruct (negb (Qle_bool prob (coin k))); [|reflexivity]. rewrite dget_dput, String.eqb_refl. reflexivity.
      + assert (Hs : dget (f s1 (k0, v0)) k = dget s1 k).
        { unfold f. cbn [fst snd]. destruct (negb (Qle_bool prob (coin k0))); [|reflexivity]. rewrite dget_dput.
          destruct (String.eqb_spec k0 k); [congruence|reflexivity]. }
        unfold f in Hs. cbn [fst snd] in Hs. rewrite Hs. reflexivity. }
  split; [|split; [exact Hval|]].
  - intros k v Hk. rewrite Hval in Hk. destruct (negb _); [|auto]. destruct (dget s2 k); auto.
  - clear Hval Hnd. revert s1. induction s2 as [|[k0 v0] r IH]; intros s1 Hsub; [reflexivity|]. cbn [fold_left].
    assert (Hk : map fst (f s1 (k0, v0)) = map fst s1).
    { unfold f. cbn. destruct (negb _); [|reflexivity]. rewrite dput_keys.
      destruct (existsb (String.eqb k0) (map fst s1)) eqn:E; [reflexivity|]. exfalso.
      assert (Hin : In k0 (map fst s1)) by (apply Hsub; left; reflexivity).
      assert (existsb (String.eqb k0) (map fst s1) = true); [|congruence].
      apply existsb_exists. exists k0. split; [exact Hin|apply String.eqb_refl]. }
    rewrite IH; [exact Hk|]. intros k Hin. rewrite Hk. apply Hsub. right. exact Hin.
Qed.
Print Assumptions C20_crossover.
(** A probability outside [0, 1] is rejected; every other one is accepted. *)
Theorem C20_prob_range :
  forall s1 s2 coin prob,
    ((0 <= prob /\ prob <= 1)%Q <-> exists child, crossover s1 s2 coin prob = Ok child).
Proof.
  intros s1 s2 coin prob. unfold crossover. rewrite <- !Qle_bool_iff.
  destruct (Qle_bool 0 prob), (Qle_bool prob 1); cbn; split; try (intros [? ?]; discriminate); try (intros [? ?]; congruence); eauto.
Qed.
Print Assumptions C20_prob_range.
Example C20_example :
  crossover [("a", "1"); ("b", "2")]%string [("b", "9"); ("a", "8")]%string
            (fun k => if String.eqb k "a" then 1#10 else 9#10) (1#2) = Ok [("a", "8"); ("b", "2")]%string.
Proof. reflexivity. Qed.

(** * C17: the evolution epoch *)

(** The estimate reports every constrained metric, within its range. *)
Definition satisfies (cs : option (list (string * constraint))) (e : list (string * Q)) : Prop :=
  match cs with
  | None => True
  | Some cs => forall k c, In (k, c) cs -> exists x, In (k, x) e /\ within c x
  end.
Lemma check_true results cs : check_resources results cs = Ok true -> satisfies cs results.
Proof.
  destruct cs as [cs|]; [|exact (fun _ => I)]. cbn. induction cs as [|[k c] cs IH]; cbn; intros H k' c' Hin; [destruct Hin|].
  set (lohi := match c with Between lo hi => (lo, hi) | AtMost hi => (0%Q, hi) end) in *.
  assert (Hw : forall x, within c x <-> (fst lohi <= x /\ x <= snd lohi)%Q) by (intros x; destruct c; reflexivity).
  destruct lohi as [lo hi]. cbn in Hw.
  destruct (find (fun p => String.eqb (fst p) k) results) as [p|] eqn:Ef; [|discriminate].
  destruct (Qle_bool lo (snd p)) eqn:E1; destruct (Qle_bool (snd p) hi) eqn:E2; cbn in H; try discriminate.
  destruct Hin as [He|Hin]; [|apply IH; assumption]. inversion He; subst.
  apply find_some in Ef as [Hin Hk]. apply String.eqb_eq in Hk. destruct p as [k0 x]. cbn in *. subst k0.
  exists x. split; [exact Hin|]. apply Hw. split; apply Qle_bool_iff; assumption.
Qed.

Section Epoch.
Variables (cfg : config) (est : subnet -> list (string * Q)) (round2 : Q -> Q).
Definition good (c : cand) : Prop := satisfies (constraints cfg) (est (c_net c)).

Lemma sample_good draws : forall cands pool, Forall good cands ->
  sample_loop cfg est cands draws = Fin pool ->
  Forall good pool /\ (num_candidates cfg <= length pool)%nat /\
  (exists new, pool = cands ++ new) /\ (length cands <= num_candidates cfg -> length pool = num_candidates cfg)%nat.
Proof.
  induction draws as [|s r IH]; intros cands pool Hg H; cbn in H.
  - destruct (Nat.leb_spec (num_candidates cfg) (length cands)); [|discriminate]. inversion H; subst.
    split; [exact Hg|]. split; [assumption|]. split; [exists []; rewrite app_nil_r; reflexivity|lia].
  - destruct (Nat.leb_spec (num_candidates cfg) (length cands)).
    + inversion H; subst. split; [exact Hg|]. split; [assumption|]. split; [exists []; rewrite app_nil_r; reflexivity|lia].
    + destruct (check cfg est s) as [[|]|] eqn:Ec; cbn in H; [| |discriminate].
      * apply IH in H as (A & B & (new & ->) & D).
        -- split; [exact A|]. split; [exact B|]. split; [exists (new_cand cfg est s :: new); rewrite <- app_assoc; reflexivity|].
           intros _. apply D. rewrite app_length. cbn. lia.
        -- apply Forall_app. split; [exact Hg|]. constructor; [|constructor]. apply check_true. exact Ec.
      * apply IH in H; auto.
Qed.
Lemma gen_good {D} (make : D -> res subnet) want draws : forall tries acc out, Forall good acc ->
  gen_loop cfg est make want tries acc draws = Fin out ->
  Forall good out /\ (length acc <= want -> length out <= want)%nat.
Proof.
  induction draws as [|d r IH]; intros tries acc out Hg H.
  - destruct tries; cbn in H; (destruct (Nat.leb_spec want (length acc)); [inversion H; subst; auto|]); try discriminate.
    inversion H; subst; auto.
  - destruct tries as [|tries]; cbn in H; (destruct (Nat.leb_spec want (length acc)); [inversion H; subst; auto|]).
    { inversion H; subst; auto. }
    destruct (make d) as [s| |]; cbn in H; try discriminate.
    destruct (check cfg est s) as [[|]|] eqn:Ec; cbn in H; [| |discriminate].
    + apply IH in H as [A B].
      * split; [exact A|]. intros _. apply B. rewrite app_length. cbn. lia.
      * apply Forall_app. split; [exact Hg|]. constructor; [|constructor]. apply check_true. exact Ec.
    + apply IH in H; auto.
Qed.
Lemma score_nets metric cands i : map c_net (score_from round2 i metric cands) = map c_net cands.
Proof. revert i. induction cands as [|c r IH]; intros i; cbn; [reflexivity|]. rewrite IH. reflexivity. Qed.
Lemma score_nth metric cands j i c : nth_error cands i = Some c ->
  nth_error (score_from round2 j metric cands) i =
    Some {| c_net := c_net c; c_score := match metric (j + i)%nat with Some m => round2 m | None => 0 end; c_res := c_res c |}.
Proof.
  revert j i. induction cands as [|c0 r IH]; intros j [|i] H; cbn in *; try discriminate.
  - inversion H; subst. rewrite Nat.add_0_r. reflexivity.
  - rewrite (IH (S j) i H). rewrite Nat.add_succ_comm. reflexivity.
Qed.
Lemma good_nets l l' : map c_net l = map c_net l' -> Forall good l -> Forall good l'.
Proof.
  rewrite !Forall_forall. intros He Hl c Hc. assert (Hin : In (c_net c) (map c_net l)) by (rewrite He; apply in_map; exact Hc).
  apply in_map_iff in Hin as (c' & Hn & Hin). specialize (Hl c' Hin). unfold good in *. rewrite <- Hn. exact Hl.
Qed.
Definition geq (a b : cand) : Prop := (c_score b <= c_score a)%Q.
Lemma by_score_sorted l : StronglySorted geq (by_score l).
Proof.
  apply stable_sorted.
  - intros a b H. apply negb_true_iff in H. apply Qle_bool_false. exact H.
  - intros a b H. apply negb_false_iff in H. apply Qle_bool_iff. exact H.
  - intros a b c H1 H2. unfold geq in *. eapply Qle_trans; eassumption.
Qed.
Lemma sorted_firstn {A} (R : A -> A -> Prop) l n : StronglySorted R l -> StronglySorted R (firstn n l).
Proof.
  intros H. revert n. induction H as [|x l H IH Hf]; intros [|n]; cbn; constructor; auto.
  rewrite Forall_forall in *. intros y Hy. apply Hf. rewrite <- (firstn_skipn n). apply in_app_iff. auto.
Qed.
Lemma sorted_split {A} (R : A -> A -> Prop) l n : StronglySorted R l ->
  forall x y, In x (firstn n l) -> In y (skipn n l) -> R x y.
Proof.
  intros H. revert n. induction H as [|z l H IH Hf]; intros [|n] x y Hx Hy; cbn in *; try tauto.
  destruct Hx as [<-|Hx]; [|eauto]. rewrite Forall_forall in Hf. apply Hf. rewrite <- (firstn_skipn n). apply in_app_iff. auto.
Qed.

(** Counting argument: the i-th best of a superset is at least as good. *)
Definition atleast (v : Q) (c : cand) : bool := Qle_bool v (c_score c).
Lemma count_perm (p : cand -> bool) l l' : Permutation l l' -> length (filter p l) = length (filter p l').
Proof.
  intros H. induction H; cbn; try congruence.
  - destruct (p x); cbn; congruence.
  - destruct (p x), (p y); reflexivity.
Qed.
Lemma sorted_prefix_all l i x : StronglySorted geq l -> nth_error l i = Some x ->
  length (filter (atleast (c_score x)) (firstn (S i) l)) = S i.
Proof.
  revert i. induction l as [|c l IH]; intros i Hs Hi; [destruct i; discriminate|].
  inversion Hs as [|? ? Hs' Hf]; subst. rewrite Forall_forall in Hf. destruct i as [|i]; cbn in Hi.
  - inversion Hi; subst. cbn. unfold atleast at 1. rewrite (proj2 (Qle_bool_iff _ _) (Qle_refl _)). reflexivity.
  - change (firstn (S (S i)) (c :: l)) with (c :: firstn (S i) l). cbn [filter].
    assert (Ha : atleast (c_score x) c = true).
    { apply Qle_bool_iff. apply (Hf x). apply nth_error_In with i. exact Hi. }
    rewrite Ha. cbn [length]. rewrite IH by assumption. reflexivity.
Qed.
Lemma sorted_suffix_none l i x v : StronglySorted geq l -> nth_error l i = Some x -> ~ (v <= c_score x)%Q ->
  (length (filter (atleast v) l) <= i)%nat.
Proof.
  revert i. induction l as [|c l IH]; intros i Hs Hi Hv; [cbn; lia|].
  inversion Hs as [|? ? Hs' Hf]; subst. rewrite Forall_forall in Hf. destruct i as [|i]; cbn in Hi.
  - inversion Hi; subst. assert (Hz : filter (atleast v) (x :: l) = []); [|rewrite Hz; reflexivity].
    assert (Hall : forall y, In y (x :: l) -> atleast v y = false).
    { intros y Hy. destruct (atleast v y) eqn:E; [|reflexivity]. apply Qle_bool_iff in E. exfalso. apply Hv.
      destruct Hy as [<-|Hy]; [exact E|]. eapply Qle_trans; [exact E|apply Hf; exact Hy]. }
    revert Hall. generalize (x :: l). clear. induction l as [|y l IH]; intros H; [reflexivity|]. cbn.
    rewrite (H y (or_introl eq_refl)). apply IH. intros z Hz. apply H. right. exact Hz.
  - cbn [filter]. specialize (IH i Hs' Hi Hv). destruct (atleast v c); cbn; lia.
Qed.
Lemma best_superset l l' extra i x : StronglySorted geq l -> StronglySorted geq l' ->
  Permutation l' (extra ++ l) -> nth_error l i = Some x ->
  exists y, nth_error l' i = Some y /\ (c_score x <= c_score y)%Q.
Proof.
  intros Hs Hs' Hp Hi.
  assert (Hc : (S i <= length (filter (atleast (c_score x)) l'))%nat).
  { rewrite (count_perm _ _ _ Hp), filter_app, app_length.
    pose proof (sorted_prefix_all l i x Hs Hi) as H1. rewrite <- (firstn_skipn (S i) l), filter_app, app_length. lia. }
  assert (Hl : (i < length l')%nat).
  { assert (length (filter (atleast (c_score x)) l') <= length l')%nat; [|lia].
    generalize l' as m. induction m as [|y m IH]; cbn; [lia|]. destruct (atleast (c_score x) y); cbn; lia. }
  destruct (nth_error l' i) as [y|] eqn:E; [|apply nth_error_None in E; lia].
  exists y. split; [reflexivity|]. destruct (Qle_bool (c_score x) (c_score y)) eqn:Eb; [apply Qle_bool_iff; exact Eb|].
  exfalso. assert (Hn : ~ (c_score x <= c_score y)%Q) by (intros Hq; apply Qle_bool_iff in Hq; congruence).
  pose proof (sorted_suffix_none l' i y (c_score x) Hs' E Hn). lia.
Qed.

(** What one epoch does, with the invariant needed to iterate. *)
Definition EInv (s : estate) : Prop :=
  Forall good (s_cands s) /\ Forall good (s_top s) /\ StronglySorted geq (s_top s) /\
  (length (s_top s) <= top_k cfg)%nat.
Lemma epoch_spec s i s' : EInv s -> run_epoch cfg est round2 s i = Fin s' ->
  EInv s' /\ s_epoch s' = s_epoch s + 1 /\
  (exists scored rest,
     (exists new, map c_net scored = map c_net (s_cands s) ++ new) /\
     (num_candidates cfg <= length scored)%nat /\
     (forall j c, nth_error scored j = Some c ->
        c_score c = match i_metric i j with Some m => round2 m | None => 0%Q end) /\
     Permutation (s_top s' ++ rest) (scored ++ s_top s) /\
     length (s_top s') = Nat.min (top_k cfg) (length (scored ++ s_top s)) /\
     (forall a b, In a (s_top s') -> In b rest -> geq a b)) /\
  (forall j a, nth_error (s_top s) j = Some a -> exists b, nth_error (s_top s') j = Some b /\ geq b a).
Proof.
  intros (H1 & H2 & H3 & H4) H. unfold run_epoch in H.
  destruct (sample_loop cfg est (s_cands s) (i_sample i)) as [pool| |] eqn:Es; cbn [rbind] in H; try discriminate.
  destruct (sample_good _ _ _ H1 Es) as (P1 & P2 & (new & P3) & _).
  destruct (update_scores round2 (i_metric i) pool) as [scored|] eqn:Eu; cbn [lift rbind] in H; [|discriminate].
  set (top := firstn (top_k cfg) (by_score (scored ++ s_top s))) in *.
  destruct (gen_loop cfg est (mutation cfg top) _ _ [] (i_mut i)) as [muts| |] eqn:Em; cbn [rbind] in H; try discriminate.
  destruct (gen_loop cfg est (crossing cfg top) _ _ [] (i_cross i)) as [crosses| |] eqn:Ec; cbn [rbind] in H; try discriminate.
  destruct (length (muts ++ crosses) <=? num_candidates cfg)%nat; cbn [assert_ lift rbind] in H; [|discriminate].
  inversion H; subst s'. clear H. cbn [s_cands s_top s_epoch].
  assert (Esc : scored = score_from round2 0 (i_metric i) pool).
  { unfold update_scores in Eu. destruct pool; [discriminate|]. apply Ok_inj in Eu. congruence. }
  assert (Gsc : Forall good scored) by (apply (good_nets pool); [rewrite Esc, score_nets; reflexivity|exact P1]).
  assert (Hperm : Permutation (by_score (scored ++ s_top s)) (scored ++ s_top s)) by apply stable_perm.
  assert (Gall : Forall good (by_score (scored ++ s_top s))).
  { eapply Permutation_Forall; [symmetry; exact Hperm|]. apply Forall_app. auto. }
  split; [|split; [reflexivity|split]].
  - split; [|split; [|split]]; cbn [s_cands s_top].
    + apply Forall_app. split; [eapply gen_good; [|exact Em]; constructor|eapply gen_good; [|exact Ec]; constructor].
    + unfold top. rewrite Forall_forall in *. intros c Hc. apply Gall. rewrite <- (firstn_skipn (top_k cfg)). apply in_app_iff. auto.
    + apply sorted_firstn, by_score_sorted.
    + unfold top. rewrite firstn_length. lia.
  - exists scored, (skipn (top_k cfg) (by_score (scored ++ s_top s))).
    split; [exists (map c_net new); rewrite Esc, score_nets, P3, map_app; reflexivity|].
    assert (Hlen : length scored = length pool).
    { pose proof (f_equal (@length _) (score_nets (i_metric i) pool 0)) as Hl. rewrite !map_length in Hl. rewrite Esc. exact Hl. }
    split; [lia|]. split.
    + intros j c Hj. rewrite Esc in Hj. destruct (nth_error pool j) as [c0|] eqn:Ep.
      * rewrite (score_nth _ _ 0 j c0 Ep) in Hj. inversion Hj; subst. reflexivity.
      * exfalso. apply nth_error_None in Ep. assert (j < length (score_from round2 0 (i_metric i) pool))%nat by (apply nth_error_Some; congruence).
        rewrite <- Esc in *. lia.
    + unfold top. rewrite firstn_skipn. split; [exact Hperm|]. split.
      * rewrite firstn_length, (Permutation_length Hperm). reflexivity.
      * apply sorted_split. apply by_score_sorted.
  - intros j a Hj. destruct (best_superset (s_top s) (by_score (scored ++ s_top s)) scored j a H3 (by_score_sorted _) Hperm Hj) as (b & Hb & Hle).
    exists b. split; [|exact Hle]. unfold top. rewrite nth_firstn_lt; [exact Hb|].
    assert (j < length (s_top s))%nat by (apply nth_error_Some; congruence). lia.
Qed.
Lemma epochs_inv is_ : forall s s', EInv s -> run_epochs cfg est round2 s is_ = Fin s' -> EInv s'.
Proof.
  induction is_ as [|i r IH]; intros s s' HI H; cbn in H; [inversion H; subst; exact HI|].
  destruct (run_epoch cfg est round2 s i) as [s1| |] eqn:E; cbn in H; try discriminate.
  eapply IH; [|exact H]. eapply epoch_spec; eassumption.
Qed.
End Epoch.

(** In every search that starts from a (possibly empty) pool within the constraints: after
    every epoch the top set is the best [k] of the scored pool and the previous top set, in
    descending order; its j-th best score never decreases; every kept, mutated or crossed
    subnet satisfies the constraints. *)
Theorem C17_evolution :
  forall cfg est round2 init is_ i s s',
    (forall c, In c init -> satisfies (constraints cfg) (est (c_net c))) ->
    run_epochs cfg est round2 {| s_cands := init; s_top := []; s_epoch := 0 |} is_ = Fin s ->
    run_epoch cfg est round2 s i = Fin s' ->
    (length (s_top s') <= top_k cfg)%nat /\
    (exists scored rest,
       (exists new, map c_net scored = map c_net (s_cands s) ++ new) /\
       (num_candidates cfg <= length scored)%nat /\
       (forall j c, nth_error scored j = Some c ->
          c_score c = match i_metric i j with Some m => round2 m | None => 0%Q end) /\
       Permutation (s_top s' ++ rest) (scored ++ s_top s) /\
       length (s_top s') = Nat.min (top_k cfg) (length scored + length (s_top s)) /\
       (forall a b, In a (s_top s') -> In b rest -> (c_score b <= c_score a)%Q)) /\
    (forall l1 a l2 b l3, s_top s' = l1 ++ a :: l2 ++ b :: l3 -> (c_score b <= c_score a)%Q) /\
    (forall j a, nth_error (s_top s) j = Some a ->
       exists b, nth_error (s_top s') j = Some b /\ (c_score a <= c_score b)%Q) /\
    (forall c, In c (s_top s') \/ In c (s_cands s') -> satisfies (constraints cfg) (est (c_net c))) /\
    s_epoch s' = s_epoch s + 1.
Proof.
  intros cfg est round2 init is_ i s s' Hinit Hrun Hep.
  assert (H0 : EInv cfg est {| s_cands := init; s_top := []; s_epoch := 0 |}).
  { split; [apply Forall_forall; exact Hinit|]. split; [constructor|]. split; [constructor|cbn; lia]. }
  pose proof (epochs_inv cfg est round2 is_ _ _ H0 Hrun) as HI.
  destruct (epoch_spec cfg est round2 s i s' HI Hep) as ((A1 & A2 & A3 & A4) & B & (sc & rest & C1 & C2 & C3 & C4 & C5 & C6) & D).
  split; [exact A4|]. split.
  - exists sc, rest. rewrite app_length in C5. auto 10.
  - split; [|split; [exact D|split; [|exact B]]].
    + intros l1 a l2 b l3 He. rewrite He in A3. clear - A3. induction l1 as [|z l1 IH]; cbn in A3.
      * inversion A3 as [|? ? _ Hf]; subst. rewrite Forall_forall in Hf. apply Hf. apply in_app_iff. right. left. reflexivity.
      * inversion A3; subst. auto.
    + intros c [Hc|Hc]; [eapply Forall_forall in A2; [exact A2|exact Hc]|eapply Forall_forall in A1; [exact A1|exact Hc]].
Qed.
Print Assumptions C17_evolution.

Definition ex_cfg : config := {| num_candidates := 2; top_k := 1; num_mutation := 1; num_crossover := 1;
  mutate_prob := 1#2; crossover_prob := 1#2; constraints := Some [("flops"%string, AtMost 330)] |}.
Definition ex_est (s : subnet) : list (string * Q) :=
  [("flops"%string, match dget s "g" with Some "big"%string => 400%Q | _ => 100%Q end)].
Example C17_example :
  let draw := [[("g", "big")]; [("g", "s1")]; [("g", "s2")]]%string in
  let i := {| i_sample := draw; i_metric := fun j => Some (inject_Z (Z.of_nat j));
              i_mut := [(0, [("g", "big")]%string, fun _ => 0%Q); (0, [("g", "s3")]%string, fun _ => 0%Q)]%nat;
              i_cross := [(0, 0, fun _ => 1%Q)]%nat |} in
  exists s', run_epochs ex_cfg ex_est (fun x => x) {| s_cands := []; s_top := []; s_epoch := 0 |} [i; i] = Fin s' /\
    map c_net (s_cands s') = [[("g", "s3")]; [("g", "s2")]]%string /\ map c_score (s_top s') = [1%Q] /\ s_epoch s' = 2.
Proof. eexists. split; [vm_compute; reflexivity|]. vm_compute. auto. Qed.

(** * C18: resuming *)
Section Steps.
Context {P : Type} (step : Z -> P -> P).
Fixpoint iterate (n : nat) (e : Z) (p : P) : P :=
  match n with O => p | S n => iterate n (e + 1) (step e p) end.
Lemma while_spec max_keep : forall n s, o_max s - o_epoch s <= Z.of_nat n ->
  let s' := while_loop step n max_keep s in
  o_epoch s' = Z.max (o_epoch s) (o_max s) /\
  o_pop s' = iterate (Z.to_nat (o_max s - o_epoch s)) (o_epoch s) (o_pop s) /\ o_max s' = o_max s.
Proof.
  induction n as [|n IH]; intros s Hn s'; subst s'.
  - cbn. replace (Z.to_nat (o_max s - o_epoch s)) with 0%nat by lia. cbn. split; [lia|auto].
  - cbn [while_loop]. destruct (Z.ltb_spec (o_epoch s) (o_max s)) as [Hl|Hl].
    + set (s1 := save max_keep (outer_epoch step s)).
      assert (E : o_epoch s1 = o_epoch s + 1 /\ o_max s1 = o_max s /\ o_pop s1 = step (o_epoch s) (o_pop s)) by (cbn; auto).
      destruct E as (E1 & E2 & E3). destruct (IH s1) as (A & B & C); [lia|].
      rewrite A, B, C, E1, E2, E3. split; [lia|]. split; [|reflexivity].
      replace (Z.to_nat (o_max s - o_epoch s)) with (S (Z.to_nat (o_max s - (o_epoch s + 1)))) by lia. reflexivity.
    + replace (Z.to_nat (o_max s - o_epoch s)) with 0%nat by lia. cbn. split; [lia|auto].
Qed.
Lemma run_spec max_keep s :
  o_epoch (run step max_keep s) = Z.max (o_epoch s) (o_max s) /\
  o_pop (run step max_keep s) = iterate (Z.to_nat (o_max s - o_epoch s)) (o_epoch s) (o_pop s).
Proof. destruct (while_spec max_keep (Z.to_nat (o_max s - o_epoch s)) s) as (A & B & _); [lia|]. auto. Qed.
End Steps.

(** The population that an uninterrupted search has after epoch [e] is [iterate e 0 p]. *)
Definition C18_claim : Prop :=
  forall (P : Type) (step : Z -> P -> P) (max_keep max e : Z) (p : P),
    0 <= e < max ->
    let ckpt := (e, iterate step (Z.to_nat e) 0 p) in
    let resumed := run step max_keep (resume (fresh max p) ckpt) in
    o_epoch resumed = max /\ o_pop resumed = iterate step (Z.to_nat max) 0 p.
(** Interrupted after 1 of 2 epochs, the resumed search runs no epoch at all. *)
Theorem C18_resume_refuted : ~ C18_claim.
Proof.
  intros H. specialize (H Z (fun _ p => p + 1) 3 2 1 0). destruct H as [H _]; [lia|]. vm_compute in H. discriminate.
Qed.
Print Assumptions C18_resume_refuted.
(** What does hold: a fresh search runs all epochs; a resumed one runs max - 2e. *)
Theorem C18_resume_partial :
  forall (P : Type) (step : Z -> P -> P) (max_keep max e : Z) (p : P),
    0 <= e < max ->
    (o_epoch (run step max_keep (fresh max p)) = max /\
     o_pop (run step max_keep (fresh max p)) = iterate step (Z.to_nat max) 0 p) /\
    (let resumed := run step max_keep (resume (fresh max p) (e, iterate step (Z.to_nat e) 0 p)) in
     o_epoch resumed = Z.max e (max - e) /\
     o_pop resumed = iterate step (Z.to_nat (Z.max e (max - e))) 0 p).
Proof.
  intros P step max_keep max e p He.
  destruct (run_spec step max_keep (fresh max p)) as [A B].
  destruct (run_spec step max_keep (resume (fresh max p) (e, iterate step (Z.to_nat e) 0 p))) as [C D].
  cbn in *. rewrite A, B, C, D. rewrite Z.sub_0_r. split; [split; [lia|reflexivity]|]. split; [lia|].
  assert (Hit : forall n m x q, iterate step (n + m) x q = iterate step m (x + Z.of_nat n) (iterate step n x q)).
  { clear. induction n as [|n IH]; intros m x q; [cbn; rewrite Z.add_0_r; reflexivity|].
    cbn [Nat.add iterate]. rewrite IH. f_equal. lia. }
  replace (Z.to_nat (Z.max e (max - e))) with (Z.to_nat e + Z.to_nat (max - e - e))%nat by lia.
  rewrite Hit. rewrite Z2Nat.id by lia. reflexivity.
Qed.
Print Assumptions C18_resume_partial.
Example C18_example :
  o_pop (run (fun e p => p ++ [e]) 3 (fresh 4 [])) = [0; 1; 2; 3] /\
  o_pop (run (fun e p => p ++ [e]) 3 (resume (fresh 4 []) (1, [0]))) = [0; 1; 2].
Proof. vm_compute. auto. Qed.

(** * C19: the checkpoints that survive *)
Lemma save_files {P} keep (s : @searcher P) f : In f (map fst (o_files (save keep s))) <->
  (f = o_epoch s \/ In f (map fst (o_files s))) /\ (0 < keep -> ~ (1 <= f < o_epoch s + 1 - keep)).
Proof.
  assert (Hw : In f (map fst (filter (fun f => negb (fst f =? o_epoch s)) (o_files s) ++ [(o_epoch s, o_pop s)])) <->
    f = o_epoch s \/ In f (map fst (o_files s))).
  { rewrite map_app, in_app_iff. cbn. split.
    - intros [H|[H|[]]]; [|auto]. apply in_map_iff in H as (q & <- & Hq). apply filter_In in Hq as [Hq _]. right. apply in_map. exact Hq.
    - intros [H|H]; [auto|]. destruct (Z.eq_dec f (o_epoch s)) as [->|Hne]; [auto|]. left.
      apply in_map_iff in H as (q & <- & Hq). apply in_map. apply filter_In. split; [exact Hq|].
      apply negb_true_iff. apply Z.eqb_neq. exact Hne. }
  unfold save. cbn [o_files]. destruct (Z.ltb_spec 0 keep) as [Hk|Hk].
  - rewrite <- Hw. split.
    + intros H. apply in_map_iff in H as (q & <- & Hq). apply filter_In in Hq as [Hq Hb]. split; [apply in_map; exact Hq|].
      intros _ Hc. apply negb_true_iff, andb_false_iff in Hb. destruct Hb as [Hb|Hb]; [apply Z.leb_gt in Hb|apply Z.ltb_ge in Hb]; lia.
    + intros [H Hn]. apply in_map_iff in H as (q & <- & Hq). apply in_map, filter_In. split; [exact Hq|].
      apply negb_true_iff, andb_false_iff. specialize (Hn Hk).
      destruct (Z.leb_spec 1 (fst q)); [right; apply Z.ltb_ge; lia|left; reflexivity].
  - rewrite Hw. intuition lia.
Qed.
Theorem C19_checkpoints :
  forall (P : Type) (step : Z -> P -> P) (keep max : Z) (p : P) (f : Z),
    0 <= max ->
    let files := map fst (o_files (run step keep (fresh max p))) in
    (1 <= keep -> (In f files <-> 1 <= f <= max /\ max - keep < f)) /\
    (keep <= 0 -> (In f files <-> 1 <= f <= max)).
Proof.
  intros P step keep max p f Hmax files.
  assert (G : forall n (s : @searcher P), 0 <= o_epoch s ->
    (forall f, In f (map fst (o_files s)) <-> (1 <= f <= o_epoch s /\ (0 < keep -> o_epoch s - keep < f))) ->
    o_max s - o_epoch s <= Z.of_nat n -> o_epoch s <= o_max s ->
    forall f, In f (map fst (o_files (while_loop step n keep s))) <-> (1 <= f <= o_max s /\ (0 < keep -> o_max s - keep < f))).
  { clear. induction n as [|n IH]; intros s H0 Hf Hn Hle f; cbn [while_loop].
    - replace (o_max s) with (o_epoch s) by lia. apply Hf.
    - destruct (Z.ltb_spec (o_epoch s) (o_max s)) as [Hl|Hl].
      + rewrite (IH (save keep (outer_epoch step s))).
        * reflexivity.
        * cbn. lia.
        * intros g. rewrite save_files. change (o_epoch (save keep (outer_epoch step s))) with (o_epoch s + 1).
          change (o_epoch (outer_epoch step s)) with (o_epoch s + 1). change (o_files (outer_epoch step s)) with (o_files s).
          rewrite Hf. lia.
        * cbn. lia.
        * cbn. lia.
      + replace (o_max s) with (o_epoch s) by lia. apply Hf. }
  unfold files, run. rewrite (G _ (fresh max p)); [|cbn; lia| |cbn; lia|cbn; lia].
  - cbn [fresh o_max]. split; intros; lia.
  - intros g. cbn. split; [intros []|lia].
Qed.
Print Assumptions C19_checkpoints.
Example C19_example : map fst (o_files (run (fun _ (p : unit) => p) 2 (fresh 5 tt))) = [4; 5].
Proof. reflexivity. Qed.
