(** C21, C22. *)
From Verif Require Import Prelude Candidates_Model Candidates_Props Greedy_Model.
From Coq Require Import Permutation Sorted.

(** * Specification *)
(** [b] has one bin less than [a] in exactly one unit (which keeps at least one bin). *)
Definition shrinks_one (a b : list nat) : Prop :=
  exists l1 n l2, a = l1 ++ S (S n) :: l2 /\ b = l1 ++ S n :: l2.
(** A greedy step: among all such subnets, one with the best score. *)
Definition greedy_step (score : list nat -> Q) (a b : list nat) : Prop :=
  shrinks_one a b /\ forall c, shrinks_one a c -> (score c <= score b)%Q.
(** [c] is the first subnet on a greedy path from [a] within the budget. *)
Inductive descends (est score : list nat -> Q) (t : Q) : list nat -> list nat -> Prop :=
| D_stop a : (est a <= t)%Q -> descends est score t a a
| D_step a b c : (t < est a)%Q -> greedy_step score a b -> descends est score t b c -> descends est score t a c.
(** One subnet per target, each search starting at the previous result. *)
Inductive searched_chain (est score : list nat -> Q) : list nat -> list Q -> list (list nat) -> Prop :=
| SC_nil a : searched_chain est score a [] []
| SC_cons a t ts c cs : descends est score t a c -> searched_chain est score c ts cs ->
    searched_chain est score a (t :: ts) (c :: cs).

(** * Lemmas *)
Definition positive (l : list nat) : Prop := Forall (fun b => 1 <= b)%nat l.
Lemma pruned_spec rest : forall pre c, positive rest ->
  (In c (pruned pre rest) <-> exists l1 n l2, rest = l1 ++ S (S n) :: l2 /\ c = pre ++ l1 ++ S n :: l2).
Proof.
  induction rest as [|b r IH]; intros pre c Hp; cbn [pruned].
  - split; [intros []|]. intros (l1 & n & l2 & H & _). destruct l1; discriminate.
  - inversion Hp; subst. rewrite in_app_iff, (IH _ _ H2). split.
    + intros [H|(l1 & n & l2 & -> & ->)].
      * destruct (Nat.eqb_spec b 1); [destruct H|]. destruct H as [<-|[]].
        destruct b as [|[|b]]; try lia. exists [], b, r. auto.
      * exists (b :: l1), n, l2. rewrite <- app_assoc. auto.
    + intros (l1 & n & l2 & He & ->). destruct l1 as [|x l1]; cbn in He; inversion He; subst.
      * left. cbn. auto.
      * right. exists l1, n, l2. rewrite <- app_assoc. auto.
Qed.
Lemma pruned_top cur c : positive cur -> (In c (pruned [] cur) <-> shrinks_one cur c).
Proof. intros H. rewrite (pruned_spec cur [] c H). reflexivity. Qed.

Lemma better_spec score opts : forall acc,
  match fold_left (better score) opts acc with
  | None => acc = None /\ opts = []
  | Some (s, b) =>
      ((acc = Some (s, b)) \/ (In b opts /\ s = score b)) /\
      (forall c, In c opts -> (score c <= s)%Q) /\
      (forall s0 b0, acc = Some (s0, b0) -> (s0 <= s)%Q)
  end.
Proof.
  induction opts as [|c r IH]; intros acc; cbn [fold_left].
  - destruct acc as [[s b]|]; [|auto]. split; [auto|]. split; [intros c []|]. intros s0 b0 H. inversion H. apply Qle_refl.
  - specialize (IH (better score acc c)). destruct (fold_left (better score) r (better score acc c)) as [[s b]|].
    + destruct IH as (A & B & C). unfold better in A, C. destruct acc as [[sa ba]|].
      * destruct (Qle_bool (score c) sa) eqn:E; cbn in A, C.
        -- apply Qle_bool_iff in E. split; [destruct A as [A|[A1 A2]]; [auto|right; split; [right; exact A1|exact A2]]|].
           split; [|exact C]. intros d [<-|Hd]; [|auto]. eapply Qle_trans; [exact E|]. eapply C. reflexivity.
        -- apply Qle_bool_false in E. split.
           ++ right. destruct A as [A|[A1 A2]]; [inversion A; subst; split; [left|]; reflexivity|split; [right; exact A1|exact A2]].
           ++ split.
              ** intros d [<-|Hd]; [|auto]. eapply C. reflexivity.
              ** intros s0 b0 H. inversion H; subst. eapply Qle_trans; [exact E|]. eapply C. reflexivity.
      * split.
        -- right. destruct A as [A|[A1 A2]]; [inversion A; subst; split; [left|]; reflexivity|split; [right; exact A1|exact A2]].
        -- split; [|intros; discriminate]. intros d [<-|Hd]; [|auto]. eapply C. reflexivity.
    + destruct IH as [H _]. exfalso. unfold better in H. destruct acc as [[sa ba]|]; [destruct (negb _)|]; discriminate.
Qed.
Lemma step_ok score cur b : positive cur -> step score cur = Ok b -> greedy_step score cur b.
Proof.
  intros Hp H. unfold step in H. pose proof (better_spec score (pruned [] cur) None) as G.
  destruct (fold_left (better score) (pruned [] cur) None) as [[s b']|]; [|discriminate].
  apply Ok_inj in H. subst b'. destruct G as ([G|[G1 ->]] & G2 & _); [discriminate|].
  split; [apply pruned_top; assumption|]. intros c Hc. apply G2, pruned_top; assumption.
Qed.
Lemma step_raise score cur e : positive cur -> step score cur = Raise e ->
  e = RuntimeError /\ cur = map (fun _ => 1%nat) cur.
Proof.
  intros Hp H. unfold step in H. pose proof (better_spec score (pruned [] cur) None) as G.
  destruct (fold_left (better score) (pruned [] cur) None) as [[s b']|]; [discriminate|].
  inversion H; subst. split; [reflexivity|]. destruct G as [_ G].
  assert (Hno : forall c, ~ shrinks_one cur c) by (intros c Hc; apply (pruned_top cur c Hp) in Hc; rewrite G in Hc; destruct Hc).
  clear G H. induction Hp as [|b r Hb Hp IH]; [reflexivity|]. cbn. f_equal.
  - destruct b as [|[|b]]; [lia|reflexivity|]. exfalso. apply (Hno (S b :: r)). exists [], b, r. auto.
  - apply IH. intros c (l1 & n & l2 & -> & ->). apply (Hno (b :: l1 ++ S n :: l2)). exists (b :: l1), n, l2. auto.
Qed.
Lemma shrinks_pos a b : positive a -> shrinks_one a b -> positive b /\ list_sum a = S (list_sum b) /\ length a = length b.
Proof.
  intros Hp (l1 & n & l2 & -> & ->). unfold positive in *. rewrite Forall_app in *. destruct Hp as [H1 H2]. inversion H2; subst.
  split; [split; [exact H1|constructor; [lia|assumption]]|]. rewrite !app_length. split; [|reflexivity].
  rewrite !list_sum_app. change (list_sum (S (S n) :: l2)) with (S (S n) + list_sum l2)%nat.
  change (list_sum (S n :: l2)) with (S n + list_sum l2)%nat. lia.
Qed.

Section G.
Variables (est score : list nat -> Q).

Lemma shrink_ok target searched : forall fuel cur log c log', positive cur ->
  shrink est score fuel target searched cur log = Ok (c, log') -> descends est score target cur c /\ positive c.
Proof.
  induction fuel as [|fuel IH]; intros cur log c log' Hp H; cbn in H.
  - destruct (Qle_bool (est cur) target) eqn:E; [|discriminate]. inversion H; subst.
    split; [constructor; apply Qle_bool_iff; exact E|exact Hp].
  - destruct (Qle_bool (est cur) target) eqn:E.
    + inversion H; subst. split; [constructor; apply Qle_bool_iff; exact E|exact Hp].
    + destruct (step score cur) as [b|] eqn:Es; cbn in H; [|discriminate].
      pose proof (step_ok score cur b Hp Es) as Hg. destruct (shrinks_pos cur b Hp (proj1 Hg)) as (Hb & _).
      destruct (IH _ _ _ _ Hb H) as [A B]. split; [|exact B]. eapply D_step; [|exact Hg|exact A].
      apply Qnot_le_lt. intros Hc. apply Qle_bool_iff in Hc. congruence.
Qed.
Lemma shrink_raise target searched : forall fuel cur log e, positive cur ->
  (list_sum cur <= fuel)%nat ->
  shrink est score fuel target searched cur log = Raise e ->
  (e = RuntimeError \/ (fuel = 0)%nat) /\
  (e = RuntimeError -> (target < est (map (fun _ => 1%nat) cur))%Q).
Proof.
  induction fuel as [|fuel IH]; intros cur log e Hp Hf H; cbn in H.
  - destruct (Qle_bool (est cur) target) eqn:E; [discriminate|]. inversion H; subst. split; [auto|discriminate].
  - destruct (Qle_bool (est cur) target) eqn:E; [discriminate|].
    assert (Ht : (target < est cur)%Q) by (apply Qnot_le_lt; intros Hc; apply Qle_bool_iff in Hc; congruence).
    destruct (step score cur) as [b|e'] eqn:Es; cbn in H.
    + pose proof (step_ok score cur b Hp Es) as Hg. destruct (shrinks_pos cur b Hp (proj1 Hg)) as (Hb & Hs & Hl).
      assert (Hm : map (fun _ : nat => 1%nat) b = map (fun _ => 1%nat) cur).
      { clear - Hl. revert cur Hl. induction b as [|x b IH]; intros [|y cur] Hl; cbn in *; try lia; [reflexivity|]. f_equal. apply IH. lia. }
      destruct (IH b _ e Hb ltac:(lia) H) as [[A|A] B].
      * split; [auto|]. intros He. rewrite <- Hm. apply B. exact He.
      * exfalso. subst fuel. assert (Hz : list_sum b = 0%nat) by lia.
        destruct Hg as [(l1 & n & l2 & -> & ->) _]. clear - Hz.
        assert (Hpos : (list_sum (l1 ++ S n :: l2) > 0)%nat); [|lia].
        rewrite list_sum_app. change (list_sum (S n :: l2)) with (S n + list_sum l2)%nat. lia.
    + inversion H; subst e'. destruct (step_raise score cur e Hp Es) as [-> Hc]. split; [auto|]. intros _. rewrite <- Hc. exact Ht.
Qed.
Lemma run_ok resuming_false : forall targets cur searched log out log', resuming_false = false -> positive cur ->
  run_targets est score resuming_false targets cur searched log = Ok (out, log') ->
  exists new, out = searched ++ new /\ searched_chain est score cur targets new.
Proof.
  induction targets as [|t r IH]; intros cur searched log out log' Hr Hp H; cbn in H.
  - inversion H; subst. exists []. split; [rewrite app_nil_r; reflexivity|constructor].
  - subst resuming_false. cbn [andb] in H. destruct (Qle_bool (est cur) t) eqn:E.
    + destruct (IH _ _ _ _ _ eq_refl Hp H) as (new & -> & Hc). exists (cur :: new). rewrite <- app_assoc. split; [reflexivity|].
      constructor; [constructor; apply Qle_bool_iff; exact E|exact Hc].
    + destruct (shrink est score (list_sum cur) t searched cur log) as [[c l]|] eqn:Es; cbn in H; [|discriminate].
      destruct (shrink_ok _ _ _ _ _ _ _ Hp Es) as [Hd Hpc].
      destruct (IH _ _ _ _ _ eq_refl Hpc H) as (new & -> & Hc). exists (c :: new). rewrite <- app_assoc. split; [reflexivity|].
      constructor; assumption.
Qed.
Lemma descends_len t a c : descends est score t a c -> length c = length a.
Proof.
  induction 1 as [|a b c _ [Hs _] _ IH]; [reflexivity|]. rewrite IH. destruct Hs as (l1 & n & l2 & -> & ->).
  rewrite !app_length. reflexivity.
Qed.
Lemma ones_len (a b : list nat) : length a = length b -> map (fun _ => 1%nat) a = map (fun _ => 1%nat) b.
Proof. revert b. induction a as [|x a IH]; intros [|y b] H; cbn in *; try lia; [reflexivity|]. f_equal. apply IH. lia. Qed.
Lemma run_raise : forall targets cur searched log e, positive cur -> cur <> [] ->
  run_targets est score false targets cur searched log = Raise e ->
  e = RuntimeError /\ exists t, In t targets /\ (t < est (map (fun _ => 1%nat) cur))%Q.
Proof.
  induction targets as [|t r IH]; intros cur searched log e Hp Hne H; cbn in H; [discriminate|].
  destruct (Qle_bool (est cur) t) eqn:E.
  - destruct (IH _ _ _ _ Hp Hne H) as (A & t' & B & C). split; [exact A|]. exists t'. split; [right; exact B|exact C].
  - destruct (shrink est score (list_sum cur) t searched cur log) as [[c l]|e'] eqn:Es; cbn in H.
    + destruct (shrink_ok _ _ _ _ _ _ _ Hp Es) as [Hd Hpc]. pose proof (descends_len _ _ _ Hd) as Hl.
      assert (Hne' : c <> []) by (destruct c; [destruct cur; [congruence|discriminate]|discriminate]).
      destruct (IH _ _ _ _ Hpc Hne' H) as (A & t' & B & C). split; [exact A|]. exists t'. split; [right; exact B|].
      rewrite <- (ones_len c cur Hl). exact C.
    + inversion H; subst e'. destruct (shrink_raise t searched (list_sum cur) cur log e Hp (le_n _) Es) as [[A|A] B].
      * split; [exact A|]. exists t. split; [left; reflexivity|]. apply B. exact A.
      * exfalso. destruct cur as [|x cur]; [congruence|]. inversion Hp; subst. cbn in A. lia.
Qed.
End G.

(** * C21 *)
Definition desc_targets (ts sorted : list Q) : Prop :=
  Permutation sorted ts /\ StronglySorted (fun a b => (b <= a)%Q) sorted.
Lemma sort_targets_spec ts : desc_targets ts (sort_targets ts).
Proof.
  split; [apply stable_perm|]. apply stable_sorted.
  - intros a b H. apply negb_true_iff in H. apply Qle_bool_false. exact H.
  - intros a b H. apply negb_false_iff in H. apply Qle_bool_iff. exact H.
  - intros a b c H1 H2. eapply Qle_trans; eassumption.
Qed.
(** The search always ends.  If it succeeds there is one subnet per target (largest target
    first), each within its target and the first such on the greedy path continued from the
    previous one; it can only fail with RuntimeError, and only if the smallest subnet
    exceeds some target. *)
Theorem C21_greedy_search :
  forall est score targets max_bins,
    (forall b, In b max_bins -> 1 <= b)%nat -> max_bins <> [] ->
    exists ts, desc_targets targets ts /\
    match search est score targets max_bins with
    | Ok (out, _) =>
        length out = length targets /\ searched_chain est score max_bins ts out /\
        (forall i c t, nth_error out i = Some c -> nth_error ts i = Some t -> (est c <= t)%Q)
    | Raise e => e = RuntimeError /\ exists t, In t targets /\ (t < est (map (fun _ => 1%nat) max_bins))%Q
    end.
Proof.
  intros est score targets max_bins Hp Hne. exists (sort_targets targets).
  pose proof (sort_targets_spec targets) as [Hperm Hsorted]. split; [split; assumption|].
  assert (Hpos : positive max_bins) by (apply Forall_forall; exact Hp).
  unfold search. destruct (run_targets est score false (sort_targets targets) max_bins [] []) as [[out log]|e] eqn:E.
  - destruct (run_ok est score false _ _ _ _ _ _ eq_refl Hpos E) as (new & -> & Hc). cbn [app].
    assert (Hlen : length new = length (sort_targets targets)).
    { clear - Hc. induction Hc; cbn; congruence. }
    split; [rewrite Hlen; apply Permutation_length; exact Hperm|]. split; [exact Hc|].
    clear - Hc. induction Hc as [|a t ts c cs Hd Hc IH]; intros [|i] c' t' H1 H2; cbn in *; try discriminate.
    + inversion H1; inversion H2; subst. clear - Hd. induction Hd; assumption.
    + eapply IH; eassumption.
  - destruct (run_raise est score _ _ _ _ _ Hpos Hne E) as (A & t & B & C). split; [exact A|]. exists t. split; [|exact C].
    apply (Permutation_in _ Hperm). exact B.
Qed.
Print Assumptions C21_greedy_search.

(** FLOPs never increase along the search when the estimator charges no more for a smaller
    subnet. *)
Theorem C21_flops_decrease :
  forall est score targets max_bins out log,
    (forall a b, shrinks_one a b -> (est b <= est a)%Q) ->
    (forall b, In b max_bins -> 1 <= b)%nat ->
    search est score targets max_bins = Ok (out, log) ->
    forall i j a b, (i <= j)%nat -> nth_error out i = Some a -> nth_error out j = Some b -> (est b <= est a)%Q.
Proof.
  intros est score targets max_bins out log Hmono Hp H.
  assert (Hpos : positive max_bins) by (apply Forall_forall; exact Hp).
  destruct (run_ok est score false _ _ _ _ _ _ eq_refl Hpos H) as (new & -> & Hc). cbn [app].
  assert (Hd : forall t a c, descends est score t a c -> (est c <= est a)%Q).
  { intros t a c D. induction D as [|a b c _ [Hs _] _ IH]; [apply Qle_refl|]. eapply Qle_trans; [exact IH|]. apply Hmono. exact Hs. }
  assert (Hfirst : forall x ts cs j b, searched_chain est score x ts cs -> nth_error cs j = Some b -> (est b <= est x)%Q).
  { intros x ts cs j b C. revert j. induction C as [|a t ts c cs D C IH]; intros [|j] Hj; cbn in Hj; try discriminate.
    - inversion Hj; subst. eapply Hd. exact D.
    - eapply Qle_trans; [eapply IH; exact Hj|]. eapply Hd. exact D. }
  clear H. induction Hc as [|a t ts c cs D C IH]; intros [|i] [|j] x y Hij Hx Hy; cbn in *; try discriminate; try lia.
  - inversion Hx; inversion Hy; subst. apply Qle_refl.
  - inversion Hx; subst. eapply Hfirst; eassumption.
  - assert (H1 : positive c -> (i <= j)%nat -> (est y <= est x)%Q); [|].
    { intros Hpc Hle. eapply IH; eauto. intros b Hb. unfold positive in Hpc. rewrite Forall_forall in Hpc. apply Hpc. exact Hb. }
    apply H1; [|lia]. clear - D Hpos. induction D as [|a b c _ [Hs _] _ IH]; [exact Hpos|].
    apply IH. eapply shrinks_pos; eassumption.
Qed.
Print Assumptions C21_flops_decrease.
Definition ex_est (l : list nat) : Q := inject_Z (Z.of_nat (list_sum l)).
Definition ex_score (l : list nat) : Q := inject_Z (Z.of_nat (hd 0%nat l)).
Example C21_example :
  search ex_est ex_score [3; 5]%Q [3; 4]%nat = Ok ([[3; 2]; [2; 1]]%nat, [([3; 3], []); ([3; 2], []); ([3; 1], [[3; 2]]); ([2; 1], [[3; 2]])]%nat) /\
  (forall b, In b [3; 4]%nat -> (1 <= b)%nat).
Proof. split; [vm_compute; reflexivity|]. cbn. intros b [<-|[<-|[]]]; lia. Qed.

(** * C22 *)
(** Crash points: the search died after the last of some prefix of its checkpoint writes. *)
Definition C22_claim : Prop :=
  forall est score targets max_bins out log k c,
    (forall b, In b max_bins -> 1 <= b)%nat ->
    search est score targets max_bins = Ok (out, log) ->
    nth_error log k = Some c ->
    exists log', resume_search est score targets c = Ok (out, log').
(** The checkpoint that reaches the target is written before the subnet is recorded, and the
    resumed search skips targets already met: the subnet is lost. *)
Theorem C22_resume_refuted : ~ C22_claim.
Proof.
  intros H. specialize (H ex_est ex_score [2%Q] [3%nat] [[2%nat]] [([2%nat], [])] 0%nat ([2%nat], [])).
  destruct H as [log' H]; [intros b [<-|[]]; lia|vm_compute; reflexivity|reflexivity|]. vm_compute in H. discriminate.
Qed.
Print Assumptions C22_resume_refuted.

Section Resume.
Variables (est score : list nat -> Q).
Lemma run_skip pre : forall post cur searched log,
  (forall t, In t pre -> (est cur <= t)%Q) ->
  run_targets est score true (pre ++ post) cur searched log = run_targets est score true post cur searched log.
Proof.
  induction pre as [|t pre IH]; intros post cur searched log H; [reflexivity|]. cbn.
  rewrite (proj2 (Qle_bool_iff _ _) (H t (or_introl eq_refl))). cbn. apply IH. intros; apply H; right; assumption.
Qed.
(** While no later target is met on entry, resuming behaves like a fresh run. *)
Lemma shrink_log t searched : forall fuel cur log c l1, shrink est score fuel t searched cur log = Ok (c, l1) ->
  forall log2, exists l2, shrink est score fuel t searched cur log2 = Ok (c, l2).
Proof.
  induction fuel as [|fuel IH]; intros cur log c l1 H log2; cbn in *.
  - destruct (Qle_bool (est cur) t); [inversion H; subst; eauto|discriminate].
  - destruct (Qle_bool (est cur) t); [inversion H; subst; eauto|].
    destruct (step score cur); cbn in *; [|discriminate]. eapply IH. exact H.
Qed.
Lemma run_same : forall targets cur searched log out l1,
  run_targets est score false targets cur searched log = Ok (out, l1) ->
  (forall t, nth_error targets 0 = Some t -> (t < est cur)%Q) ->
  (forall i f t, (length searched <= i)%nat -> nth_error out i = Some f ->
     nth_error targets (S (i - length searched)) = Some t -> (t < est f)%Q) ->
  forall log2, exists l2, run_targets est score true targets cur searched log2 = Ok (out, l2).
Proof.
  induction targets as [|t r IH]; intros cur searched log out l1 H H0 H1 log2; cbn in H.
  - inversion H; subst. cbn. eauto.
  - pose proof (H0 t eq_refl) as Ht.
    assert (Eb : Qle_bool (est cur) t = false).
    { destruct (Qle_bool (est cur) t) eqn:E; [|reflexivity]. apply Qle_bool_iff in E. exfalso. eapply Qlt_not_le; eassumption. }
    rewrite Eb in H. cbn [run_targets]. rewrite Eb. cbn [andb].
    destruct (shrink est score (list_sum cur) t searched cur log) as [[c l]|] eqn:Es; cbn in H; [|discriminate].
    destruct (shrink_log t searched _ _ _ _ _ Es log2) as [l2 El2]. rewrite El2. cbn [bind fst snd].
    assert (Hout : exists more, out = (searched ++ [c]) ++ more).
    { clear - H. revert c searched l H. induction r as [|t' r IH]; intros c searched l H; cbn in H.
      - inversion H; subst. exists []. rewrite app_nil_r. reflexivity.
      - destruct (Qle_bool (est c) t').
        + destruct (IH _ _ _ H) as [more ->]. exists (c :: more). rewrite <- !app_assoc. reflexivity.
        + destruct (shrink est score (list_sum c) t' (searched ++ [c]) c l) as [[c' l']|]; cbn in H; [|discriminate].
          destruct (IH _ _ _ H) as [more ->]. exists (c' :: more). rewrite <- !app_assoc. reflexivity. }
    destruct Hout as [more Hout].
    eapply IH; [exact H| |].
    + intros t' Ht'. apply (H1 (length searched) c t'); [lia| |].
      * rewrite Hout. rewrite <- app_assoc. rewrite nth_error_app2 by lia. rewrite Nat.sub_diag. reflexivity.
      * rewrite Nat.sub_diag. exact Ht'.
    + intros i f t' Hi Hf Hn. rewrite app_length in *. cbn in *. apply (H1 i f t'); [lia|exact Hf|].
      replace (i - length searched)%nat with (S (i - (length searched + 1)))%nat by lia. exact Hn.
Qed.
Lemma run_log : forall targets rs cur searched log out l1, run_targets est score rs targets cur searched log = Ok (out, l1) ->
  forall log2, exists l2, run_targets est score rs targets cur searched log2 = Ok (out, l2).
Proof.
  induction targets as [|t r IH]; intros rs cur searched log out l1 H log2; cbn in *; [inversion H; subst; eauto|].
  destruct (rs && Qle_bool (est cur) t); [eapply IH; exact H|]. destruct (Qle_bool (est cur) t); [eapply IH; exact H|].
  destruct (shrink est score (list_sum cur) t searched cur log) as [[c l]|] eqn:Es; cbn in H; [|discriminate].
  destruct (shrink_log t searched _ _ _ _ _ Es log2) as [l2 El2]. rewrite El2. cbn. eapply IH. exact H.
Qed.
(** Every checkpoint lies on the path of the target being processed when it was written. *)
Hypothesis Hmono : forall a b, shrinks_one a b -> (est b <= est a)%Q.
Lemma shrink_fuel t searched : forall f1 f2 x l c' l', positive x -> (list_sum x <= f1)%nat -> (list_sum x <= f2)%nat ->
  shrink est score f1 t searched x l = Ok (c', l') -> shrink est score f2 t searched x l = Ok (c', l').
Proof.
  induction f1 as [|f1 IH]; intros f2 x l c' l' Hx H1 H2 H; cbn in H.
  - destruct f2; cbn; destruct (Qle_bool (est x) t); try discriminate; exact H.
  - destruct f2 as [|f2]; cbn.
    + destruct (Qle_bool (est x) t); [exact H|].
      destruct (step score x) as [y|] eqn:Ey; cbn in H; [|discriminate].
      destruct (shrinks_pos x y Hx (proj1 (step_ok score x y Hx Ey))) as (_ & ? & _). lia.
    + destruct (Qle_bool (est x) t); [exact H|]. destruct (step score x) as [y|] eqn:Ey; cbn in *; [|discriminate].
      destruct (shrinks_pos x y Hx (proj1 (step_ok score x y Hx Ey))) as (Hy & ? & _). eapply IH; [exact Hy| | |exact H]; lia.
Qed.
Lemma shrink_ckpt t searched : forall fuel cur log c l1, positive cur -> (list_sum cur <= fuel)%nat ->
  shrink est score fuel t searched cur log = Ok (c, l1) ->
  exists new, l1 = log ++ new /\ positive c /\ (est c <= est cur)%Q /\ (est c <= t)%Q /\
  forall b d, In (b, d) new -> d = searched /\ positive b /\ (est b <= est cur)%Q /\
    (exists l2 l3, shrink est score (list_sum b) t searched b l2 = Ok (c, l3)).
Proof.
  induction fuel as [|fuel IH]; intros cur log c l1 Hp Hf H; cbn in H.
  - destruct (Qle_bool (est cur) t) eqn:E; [|discriminate]. inversion H; subst. exists []. rewrite app_nil_r.
    split; [reflexivity|]. split; [exact Hp|]. split; [apply Qle_refl|]. split; [apply Qle_bool_iff; exact E|]. intros b d [].
  - destruct (Qle_bool (est cur) t) eqn:E.
    + inversion H; subst. exists []. rewrite app_nil_r.
      split; [reflexivity|]. split; [exact Hp|]. split; [apply Qle_refl|]. split; [apply Qle_bool_iff; exact E|]. intros b d [].
    + destruct (step score cur) as [b|] eqn:Es; cbn in H; [|discriminate].
      pose proof (step_ok score cur b Hp Es) as Hg. destruct (shrinks_pos cur b Hp (proj1 Hg)) as (Hb & Hs & Hl).
      pose proof (Hmono _ _ (proj1 Hg)) as Hle.
      destruct (IH b _ c l1 Hb ltac:(lia) H) as (new & -> & A & B & C & Hnew).
      exists ((b, searched) :: new). rewrite <- app_assoc. split; [reflexivity|]. split; [exact A|].
      split; [apply (Qle_trans _ (est b)); assumption|]. split; [exact C|].
      intros b' d [He|Hin].
      * inversion He; subst. split; [reflexivity|]. split; [exact Hb|]. split; [exact Hle|].
        exists (log ++ [(b', d)]). eexists. eapply shrink_fuel; [exact Hb| |apply le_n|exact H]. lia.
      * destruct (Hnew b' d Hin) as (D1 & D2 & D3 & D4). split; [exact D1|]. split; [exact D2|].
        split; [apply (Qle_trans _ (est b)); assumption|exact D4].
Qed.
Lemma run_ckpt : forall targets cur searched log out l1, positive cur ->
  run_targets est score false targets cur searched log = Ok (out, l1) ->
  exists new, l1 = log ++ new /\
  forall b d, In (b, d) new -> (est b <= est cur)%Q /\ positive b /\
    exists pre t post, targets = pre ++ t :: post /\ length d = (length searched + length pre)%nat /\
      (forall t', In t' pre -> (est b <= t')%Q) /\
      ((t < est b)%Q -> exists l2 l3, run_targets est score false (t :: post) b d l2 = Ok (out, l3)).
Proof.
  induction targets as [|t r IH]; intros cur searched log out l1 Hp H; cbn in H.
  - inversion H; subst. exists []. rewrite app_nil_r. split; [reflexivity|]. intros b d [].
  - destruct (Qle_bool (est cur) t) eqn:E.
    + destruct (IH _ _ _ _ _ Hp H) as (new & -> & Hn). exists new. split; [reflexivity|]. intros b d Hin.
      destruct (Hn b d Hin) as (A & B & pre & t' & post & -> & Hl & C & D). split; [exact A|]. split; [exact B|].
      exists (t :: pre), t', post. split; [reflexivity|]. split; [rewrite Hl, app_length; cbn; lia|]. split; [|exact D].
      intros x [<-|Hx]; [|apply C; exact Hx]. eapply Qle_trans; [exact A|]. apply Qle_bool_iff. exact E.
    + destruct (shrink est score (list_sum cur) t searched cur log) as [[c l]|] eqn:Es; cbn in H; [|discriminate].
      destruct (shrink_ckpt t searched _ _ _ _ _ Hp (le_n _) Es) as (new1 & -> & Pc & Ec & Et & H1).
      destruct (IH _ _ _ _ _ Pc H) as (new2 & -> & H2). exists (new1 ++ new2). rewrite app_assoc. split; [reflexivity|].
      intros b d Hin. apply in_app_iff in Hin as [Hin|Hin].
      * destruct (H1 b d Hin) as (-> & A & B & l2 & l3 & C). split; [exact B|]. split; [exact A|].
        exists [], t, r. split; [reflexivity|]. split; [cbn; lia|]. split; [intros x []|]. intros Hlt.
        exists l2. cbn. assert (Eb : Qle_bool (est b) t = false).
        { destruct (Qle_bool (est b) t) eqn:Eq; [|reflexivity]. apply Qle_bool_iff in Eq. exfalso. eapply Qlt_not_le; eassumption. }
        rewrite Eb, C. cbn. eapply run_log. exact H.
      * destruct (H2 b d Hin) as (A & B & pre & t' & post & -> & Hl & C & D). split; [apply (Qle_trans _ (est c)); assumption|]. split; [exact B|].
        exists (t :: pre), t', post. split; [reflexivity|]. split; [rewrite Hl, app_length; cbn; lia|]. split; [|exact D].
        intros x [<-|Hx]; [|apply C; exact Hx]. eapply Qle_trans; [exact A|]. exact Et.
Qed.
End Resume.

(** What does hold: with an estimator that charges no more for a smaller subnet, a
    checkpoint that is still above the target in progress can be resumed, provided that no
    later target is already met when the search turns to it. *)
Theorem C22_resume_partial :
  forall est score targets max_bins out log k b done,
    (forall a b, shrinks_one a b -> (est b <= est a)%Q) ->
    (forall b, In b max_bins -> 1 <= b)%nat ->
    search est score targets max_bins = Ok (out, log) ->
    nth_error log k = Some (b, done) ->
    (forall ts t, desc_targets targets ts -> nth_error ts (length done) = Some t -> (t < est b)%Q) ->
    (forall ts i f t, desc_targets targets ts -> (length done <= i)%nat ->
       nth_error out i = Some f -> nth_error ts (S i) = Some t -> (t < est f)%Q) ->
    exists log', resume_search est score targets (b, done) = Ok (out, log').
Proof.
  intros est score targets max_bins out log k b done Hmono Hp H Hk H0 H1.
  specialize (H0 (sort_targets targets)). specialize (H1 (sort_targets targets)).
  pose proof (sort_targets_spec targets) as Hst.
  assert (Hpos : positive max_bins) by (apply Forall_forall; exact Hp). unfold search in H.
  destruct (run_ckpt est score Hmono _ _ _ _ _ _ Hpos H) as (new & Hl & Hn). cbn in Hl. subst new.
  destruct (Hn b done (nth_error_In _ _ Hk)) as (_ & _ & pre & t & post & Hts & Hlen & Hskip & Hcont). cbn in Hlen.
  unfold resume_search. cbn [fst snd]. rewrite Hts. rewrite run_skip by exact Hskip.
  assert (Ht : (t < est b)%Q).
  { apply H0; [exact Hst|]. rewrite Hts, nth_error_app2 by lia. rewrite Hlen, Nat.sub_diag. reflexivity. }
  destruct (Hcont Ht) as (l2 & l3 & Hrun). eapply run_same; [exact Hrun| |].
  - intros t' Ht'. cbn in Ht'. inversion Ht'; subst. exact Ht.
  - intros i f t' Hi Hf Hn'. apply (H1 i f t' Hst Hi Hf). rewrite Hts, nth_error_app2 by lia.
    replace (S i - length pre)%nat with (S (i - length done)) by lia. exact Hn'.
Qed.
Print Assumptions C22_resume_partial.
Example C22_example :
  let out := [[3; 2]; [2; 1]]%nat in
  nth_error (snd (match search ex_est ex_score [3; 5]%Q [3; 4]%nat with Ok r => r | Raise _ => ([], []) end)) 2 = Some ([3; 1], [[3; 2]])%nat /\
  resume_search ex_est ex_score [3; 5]%Q ([3; 1], [[3; 2]])%nat = Ok (out, [([2; 1], [[3; 2]])])%nat /\ (3 < ex_est [3; 1]%nat)%Q.
Proof. split; [vm_compute; reflexivity|]. split; [vm_compute; reflexivity|]. reflexivity. Qed.
