(** C43 (Group Fisher pruning), C80 (batch importance), C81 (FLOPs normalisation),
    C82 (checkpoints at resource thresholds). *)
From Verif Require Import Prelude GroupFisher_Model.
From Coq Require Import Lqa.

(** * C43 *)

(** Order on importances. *)
Definition fle (a b : fval) : Prop :=
  match a, b with
  | Num x, Num y => (x <= y)%Q
  | Num _, PInf | PInf, PInf => True
  | _, _ => False
  end.
Definition num (v : fval) : Prop := v <> NaN.

Lemma fle_refl a : num a -> fle a a.
Proof. destruct a; cbn; intros H; [apply Qle_refl|exact I|destruct (H eq_refl)]. Qed.
Lemma fle_trans a b c : fle a b -> fle b c -> fle a c.
Proof. destruct a, b, c; cbn; try tauto. apply Qle_trans. Qed.
Lemma flt_false a b : num a -> num b -> flt a b = false <-> fle b a.
Proof.
  destruct a, b; cbn; intros Ha Hb; try (destruct (Ha eq_refl)); try (destruct (Hb eq_refl)); try tauto.
  - rewrite negb_false_iff, Qle_bool_iff. reflexivity.
  - split; [discriminate|intros []].
Qed.
Lemma flt_true a b : flt a b = true -> fle a b /\ ~ fle b a.
Proof.
  destruct a, b; cbn; try discriminate; [|tauto].
  rewrite negb_true_iff. intros H. split.
  - destruct (Qlt_le_dec q q0) as [F|F]; [apply Qlt_le_weak, F|]. apply Qle_bool_iff in F. congruence.
  - intros F. apply Qle_bool_iff in F. congruence.
Qed.
Lemma fmin_fold r : forall v, num v -> Forall num r ->
  let m := fold_left fmin2 r v in (m = v \/ In m r) /\ fle m v /\ Forall (fle m) r.
Proof.
  induction r as [|w r IH]; intros v Hv Hr; cbn.
  - split; [auto|]. split; [apply fle_refl, Hv|constructor].
  - inversion Hr as [|? ? Hw Hr']; subst.
    assert (E : fmin2 v w = v /\ fle v w \/ fmin2 v w = w /\ fle w v).
    { unfold fmin2. replace (is_nan v) with false by (destruct v; try reflexivity; destruct (Hv eq_refl)).
      replace (is_nan w) with false by (destruct w; try reflexivity; destruct (Hw eq_refl)). cbn [orb].
      destruct (flt w v) eqn:F; [right|left]; (split; [reflexivity|]).
      - apply flt_true in F. tauto.
      - apply flt_false in F; assumption. }
    assert (Hn : num (fmin2 v w)) by (destruct E as [[-> _]|[-> _]]; assumption).
    destruct (IH (fmin2 v w) Hn Hr') as (H1 & H2 & H3).
    destruct E as [[E L]|[E L]]; rewrite E in *.
    + split; [tauto|]. split; [exact H2|]. constructor; [eapply fle_trans; eauto|exact H3].
    + split; [destruct H1; auto|]. split; [eapply fle_trans; eauto|]. constructor; assumption.
Qed.
Lemma fmin_ok l : l <> [] -> Forall num l -> In (fmin l) l /\ Forall (fle (fmin l)) l.
Proof.
  destruct l as [|v r]; [congruence|]. intros _ H. inversion H as [|? ? Hv Hr]; subst.
  destruct (fmin_fold r v) as (H1 & H2 & H3); [assumption..|]. cbn. split.
  - destruct H1; [left; congruence|auto].
  - constructor; assumption.
Qed.
Lemma fmax_fold r : forall v, num v -> Forall num r ->
  let m := fold_left fmax2 r v in num m /\ fle v m /\ Forall (fun w => fle w m) r.
Proof.
  induction r as [|w r IH]; intros v Hv Hr; cbn.
  - split; [exact Hv|]. split; [apply fle_refl, Hv|constructor].
  - inversion Hr as [|? ? Hw Hr']; subst.
    assert (E : fmax2 v w = v /\ fle w v \/ fmax2 v w = w /\ fle v w).
    { unfold fmax2. replace (is_nan v) with false by (destruct v; try reflexivity; destruct (Hv eq_refl)).
      replace (is_nan w) with false by (destruct w; try reflexivity; destruct (Hw eq_refl)). cbn [orb].
      destruct (flt v w) eqn:F; [right|left]; (split; [reflexivity|]).
      - apply flt_true in F. tauto.
      - apply flt_false in F; assumption. }
    assert (Hn : num (fmax2 v w)) by (destruct E as [[-> _]|[-> _]]; assumption).
    destruct (IH (fmax2 v w) Hn Hr') as (H1 & H2 & H3).
    split; [exact H1|]. destruct E as [[E L]|[E L]]; rewrite E in *.
    + split; [exact H2|]. constructor; [eapply fle_trans; eauto|exact H3].
    + split; [eapply fle_trans; eauto|]. constructor; assumption.
Qed.
Lemma fmax_ok l : l <> [] -> Forall num l -> num (fmax l) /\ Forall (fun w => fle w (fmax l)) l.
Proof.
  destruct l as [|v r]; [congruence|]. intros _ H. inversion H as [|? ? Hv Hr]; subst.
  destruct (fmax_fold r v) as (H1 & H2 & H3); [assumption..|]. cbn. split; [assumption|constructor; assumption].
Qed.

(** Specification. *)
Definition wf (u : funit) : Prop := length (u_mask u) = length (u_fisher u).
(** Channel [c] of unit [u] is active and has importance [v]. *)
Definition act (us : list funit) (u c : nat) (v : fval) : Prop :=
  exists U, nth_error us u = Some U /\ nth_error (u_mask U) c = Some true /\ nth_error (u_fisher U) c = Some v.
(** Unit [u] has two different active channels. *)
Definition multi (us : list funit) (u : nat) : Prop :=
  exists U c d, nth_error us u = Some U /\ c <> d /\
    nth_error (u_mask U) c = Some true /\ nth_error (u_mask U) d = Some true.
Definition masks (us : list funit) : list (list bool) := map u_mask us.
Definition mask_at (us : list funit) (u c : nat) : option bool :=
  match nth_error us u with Some U => nth_error (u_mask U) c | None => None end.
Definition no_nan (us : list funit) : Prop := forall U, In U us -> Forall num (u_fisher U).

(** [us'] is [us] with exactly the channel [c] of unit [u] switched off. *)
Definition pruned_at (us us' : list funit) (u c : nat) : Prop :=
  mask_at us u c = Some true /\ mask_at us' u c = Some false /\
  (forall u' c', (u', c') <> (u, c) -> mask_at us' u' c' = mask_at us u' c') /\
  length us' = length us /\ map u_fisher us' = map u_fisher us.
(** It is a channel of minimum importance among those that may be pruned. *)
Definition is_global_min (us : list funit) (u c : nat) : Prop :=
  multi us u /\ exists v, act us u c v /\
    forall u' c' v', multi us u' -> act us u' c' v' -> fle v v'.

Lemma count_multi (l : list bool) :
  (1 < length (filter (fun b => b) l))%nat <->
  exists c d, c <> d /\ nth_error l c = Some true /\ nth_error l d = Some true.
Proof.
  assert (One : forall l : list bool, (0 < length (filter (fun b => b) l))%nat <-> exists c, nth_error l c = Some true).
  { clear. induction l as [|b l IH]; cbn.
    - split; [lia|]. intros ([|c] & H); discriminate.
    - destruct b; cbn; [split; [intros _; exists 0%nat; reflexivity|lia]|]. rewrite IH. split.
      + intros (c & H). exists (S c). exact H.
      + intros ([|c] & H); [discriminate|]. exists c. exact H. }
  induction l as [|b l IH]; cbn.
  - split; [lia|]. intros ([|c] & d & _ & H & _); discriminate.
  - destruct b; cbn.
    + split.
      * intros H. destruct (proj1 (One l) ltac:(lia)) as (c & Hc). exists 0%nat, (S c). repeat split; [lia|exact Hc].
      * intros (c & d & Hcd & Hc & Hd). assert (0 < length (filter (fun b => b) l))%nat; [|lia].
        apply One. destruct c as [|c]; [|exists c; exact Hc]. destruct d as [|d]; [congruence|exists d; exact Hd].
    + rewrite IH. split.
      * intros (c & d & Hcd & Hc & Hd). exists (S c), (S d). repeat split; [lia|exact Hc|exact Hd].
      * intros ([|c] & [|d] & Hcd & Hc & Hd); try discriminate. exists c, d. repeat split; [lia|exact Hc|exact Hd].
Qed.
Lemma multi_iff us u : multi us u <-> exists U, nth_error us u = Some U /\ (1 < activated U)%nat.
Proof.
  unfold multi, activated. split.
  - intros (U & c & d & H & Hcd & Hc & Hd). exists U. split; [exact H|]. apply count_multi. eauto.
  - intros (U & H & Hm). apply count_multi in Hm as (c & d & Hcd & Hc & Hd). exists U, c, d. auto.
Qed.

Section Fisher.
Variable add1 : Q -> Q.
Variable argmin : list fval -> nat.
(** Rounded addition of one: never decreases, and is strict below the limit 1e5 (doubles:
    strict below 2^53). *)
Hypothesis add1_ge : forall x, (x <= add1 x)%Q.
Hypothesis add1_gt : forall x, (x < inject_Z 100000)%Q -> (x < add1 x)%Q.
Hypothesis argmin_ok : forall l, l <> [] -> Forall num l ->
  exists v, nth_error l (argmin l) = Some v /\ Forall (fle v) l.
Notation importance := (importance add1).
Notation try_prune := (try_prune add1 argmin).
Notation try_unit := (try_unit add1 argmin).

Lemma imp_nth U c : wf U ->
  nth_error (importance U) c =
  match nth_error (u_mask U) c with
  | Some true => nth_error (u_fisher U) c
  | Some false => Some (plus1 add1 (fmax (u_fisher U)))
  | None => None
  end.
Proof.
  unfold wf, GroupFisher_Model.importance. generalize (plus1 add1 (fmax (u_fisher U))).
  generalize (u_fisher U) as fs. intros fs t. generalize (u_mask U) as ms.
  revert fs c. intros fs c ms. revert fs c. induction ms as [|b ms IH]; intros [|f fs] c H; try discriminate.
  - destruct c; reflexivity.
  - destruct c as [|c]; cbn; [destruct b; reflexivity|]. apply IH. cbn in H. lia.
Qed.
Lemma plus1_num v : num v -> num (plus1 add1 v).
Proof. destruct v; cbn; intros H; [discriminate|discriminate|exact H]. Qed.
Lemma plus1_ge v : num v -> fle v (plus1 add1 v).
Proof. destruct v; cbn; intros H; [apply add1_ge|exact I|destruct (H eq_refl)]. Qed.

Lemma act_fisher_ne U c : wf U -> nth_error (u_mask U) c = Some true -> u_fisher U <> [].
Proof.
  intros Hw Hc E. unfold wf in Hw. rewrite E in Hw. destruct (u_mask U); [destruct c|]; discriminate.
Qed.
Lemma imp_num U : wf U -> u_fisher U <> [] -> Forall num (u_fisher U) -> Forall num (importance U).
Proof.
  intros Hw Hne Hn. apply Forall_forall. intros v Hv. apply In_nth_error in Hv as (c & Hc).
  rewrite imp_nth in Hc by exact Hw. destruct (nth_error (u_mask U) c) as [[|]|]; [| |discriminate].
  - apply nth_error_In in Hc. rewrite Forall_forall in Hn. auto.
  - inversion Hc. apply plus1_num. apply (fmax_ok _ Hne Hn).
Qed.
Lemma imp_ne U c : wf U -> nth_error (u_mask U) c = Some true -> importance U <> [].
Proof.
  intros Hw Hc E. pose proof (imp_nth U c Hw) as H. rewrite E, Hc in H.
  assert (L : (c < length (u_mask U))%nat) by (apply nth_error_Some; congruence).
  destruct (nth_error (u_fisher U) c) eqn:F; [destruct c; discriminate|].
  apply nth_error_None in F. unfold wf in Hw. lia.
Qed.
Lemma not_existsb l : Forall num l -> existsb is_nan l = false.
Proof.
  induction 1 as [|v l Hv _ IH]; [reflexivity|]. cbn. rewrite IH. destruct v; try reflexivity. destruct (Hv eq_refl).
Qed.

(** The minimum of [importance] is below every active importance, and is reached at an
    active channel up to order. *)
Lemma fmin_imp U : wf U -> Forall num (u_fisher U) -> (exists c, nth_error (u_mask U) c = Some true) ->
  num (fmin (importance U)) /\
  (forall c v, nth_error (u_mask U) c = Some true -> nth_error (u_fisher U) c = Some v -> fle (fmin (importance U)) v).
Proof.
  intros Hw Hn (c0 & H0). pose proof (act_fisher_ne U c0 Hw H0) as Hfne.
  pose proof (imp_num U Hw Hfne Hn) as Hin.
  destruct (fmin_ok (importance U)) as [H1 H2]; [eapply imp_ne; eauto|exact Hin|]. split.
  - rewrite Forall_forall in Hin. apply Hin, H1.
  - intros c v Hc Hv. rewrite Forall_forall in H2. apply H2. apply (nth_error_In _ c).
    rewrite imp_nth, Hc by exact Hw. exact Hv.
Qed.

(** Below the limit, [argmin] of the importances is an active channel. *)
Lemma argmin_active U : wf U -> Forall num (u_fisher U) ->
  (exists c a q, nth_error (u_mask U) c = Some true /\ nth_error (u_fisher U) c = Some a /\ fle a (Num q) /\ (q < inject_Z 100000)%Q) ->
  let k := argmin (importance U) in
  nth_error (u_mask U) k = Some true /\
  exists v, nth_error (u_fisher U) k = Some v /\
    (forall w, In w (importance U) -> fle v w).
Proof.
  intros Hw Hn (c & a & q & Hc & Ha & Haq & Hq) k.
  pose proof (act_fisher_ne U c Hw Hc) as Hfne. pose proof (imp_num U Hw Hfne Hn) as Hin.
  destruct (argmin_ok (importance U)) as (v & Hv & Hmin); [eapply imp_ne; eauto|exact Hin|].
  fold k in Hv. rewrite Forall_forall in Hmin.
  pose proof Hv as Hv'. rewrite imp_nth in Hv by exact Hw.
  assert (Hva : fle v a).
  { apply Hmin. apply (nth_error_In _ c). rewrite imp_nth, Hc by exact Hw. exact Ha. }
  destruct (nth_error (u_mask U) k) as [[|]|] eqn:E; [| |discriminate].
  - split; [reflexivity|]. exists v. auto.
  - exfalso. inversion Hv; subst v. clear Hv. destruct (fmax_ok _ Hfne Hn) as [Hm1 Hm2].
    rewrite Forall_forall in Hm2. specialize (Hm2 a (nth_error_In _ _ Ha)).
    destruct (fmax (u_fisher U)) as [m| |]; [| |destruct (Hm1 eq_refl)].
    + destruct a as [a| |]; [|destruct Haq..]. cbn in *.
      destruct (Qlt_le_dec m (inject_Z 100000)) as [L|L].
      * pose proof (add1_gt m L). lra.
      * pose proof (add1_ge m). unfold inject_Z in *. lra.
    + destruct a; [exact Hva|destruct Haq|exact Hva].
Qed.

Lemma find_min_ok us : forall i m k0,
  (forall U, In U us -> (1 < activated U)%nat -> Forall num (importance U) /\ importance U <> []) -> num m ->
  exists k, find_min add1 i us m k0 = Some k /\
    ((k = k0 /\ (forall U, In U us -> (1 < activated U)%nat -> fle m (fmin (importance U)))) \/
     exists j U, k = (i + j)%nat /\ nth_error us j = Some U /\ (1 < activated U)%nat /\
       flt (fmin (importance U)) m = true /\
       forall V, In V us -> (1 < activated V)%nat -> fle (fmin (importance U)) (fmin (importance V))).
Proof.
  induction us as [|u us IH]; intros i m k0 Hn Hm; cbn [find_min].
  - exists k0. split; [reflexivity|]. left. split; [reflexivity|]. intros U [].
  - assert (Hn' : forall U, In U us -> (1 < activated U)%nat -> Forall num (importance U) /\ importance U <> []).
    { intros U HU. apply Hn. right. exact HU. }
    destruct (Nat.ltb_spec 1 (activated u)) as [Ha|Ha].
    + destruct (Hn u (or_introl eq_refl) Ha) as [Hi Hne]. rewrite (not_existsb _ Hi).
      destruct (fmin_ok _ Hne Hi) as [F1 _].
      assert (Fn : num (fmin (importance u))) by (rewrite Forall_forall in Hi; apply Hi, F1).
      destruct (flt (fmin (importance u)) m) eqn:F.
      * destruct (IH (S i) (fmin (importance u)) i Hn' Fn) as (k & E & [[-> H]|(j & U & -> & Hj & HU & HF & H)]).
        -- exists i. split; [exact E|]. right. exists 0%nat, u. split; [lia|]. split; [reflexivity|].
           split; [exact Ha|]. split; [exact F|]. intros V [<-|HV] HVa; [apply fle_refl, Fn|auto].
        -- exists (S i + j)%nat. split; [exact E|]. right. exists (S j), U. split; [lia|]. split; [exact Hj|].
           split; [exact HU|]. apply flt_true in HF as HF'. apply flt_true in F as F'.
           destruct (Hn' U (nth_error_In _ _ Hj) HU) as [HiU HneU]. destruct (fmin_ok _ HneU HiU) as [FU _].
           assert (FnU : num (fmin (importance U))) by (rewrite Forall_forall in HiU; apply HiU, FU).
           split.
           ++ destruct (flt (fmin (importance U)) m) eqn:G; [reflexivity|]. apply flt_false in G; try assumption.
              exfalso. apply (proj2 F'). eapply fle_trans; [exact G|exact (proj1 HF')].
           ++ intros V [<-|HV] HVa; [exact (proj1 HF')|auto].
      * apply flt_false in F; try assumption.
        destruct (IH (S i) m k0 Hn' Hm) as (k & E & [[-> H]|(j & U & -> & Hj & HU & HF & H)]).
        -- exists k0. split; [exact E|]. left. split; [reflexivity|]. intros U [<-|HU] HUa; auto.
        -- exists (S i + j)%nat. split; [exact E|]. right. exists (S j), U. split; [lia|]. split; [exact Hj|].
           split; [exact HU|]. split; [exact HF|]. intros V [<-|HV] HVa; [|auto].
           apply flt_true in HF. eapply fle_trans; [exact (proj1 HF)|exact F].
    + destruct (IH (S i) m k0 Hn' Hm) as (k & E & [[-> H]|(j & U & -> & Hj & HU & HF & H)]).
      * exists k0. split; [exact E|]. left. split; [reflexivity|]. intros U [<-|HU] HUa; [lia|auto].
      * exists (S i + j)%nat. split; [exact E|]. right. exists (S j), U. split; [lia|]. split; [exact Hj|].
        split; [exact HU|]. split; [exact HF|]. intros V [<-|HV] HVa; [lia|auto].
Qed.

Lemma upd_nth k f us i : nth_error (upd_unit k f us) i =
  if Nat.eqb i k then option_map f (nth_error us i) else nth_error us i.
Proof.
  revert k i. induction us as [|u us IH]; intros [|k] [|i]; cbn; try reflexivity.
  - destruct (Nat.eqb i k); reflexivity.
  - apply IH.
Qed.
Lemma upd_length k f us : length (upd_unit k f us) = length us.
Proof. revert k. induction us as [|u us IH]; intros [|k]; cbn; auto. Qed.
Lemma clear_nth k l i : nth_error (clear k l) i =
  if Nat.eqb i k then option_map (fun _ => false) (nth_error l i) else nth_error l i.
Proof.
  revert k i. induction l as [|b l IH]; intros [|k] [|i]; cbn; try reflexivity.
  - destruct (Nat.eqb i k); reflexivity.
  - apply IH.
Qed.
Lemma upd_fisher k us : map u_fisher (upd_unit k (fun u => fst (try_unit u)) us) = map u_fisher us.
Proof.
  revert k. induction us as [|u us IH]; intros [|k]; cbn; try reflexivity; f_equal; auto.
  unfold GroupFisher_Model.try_unit. destruct (1 <? activated u)%nat; reflexivity.
Qed.

(** The full claim: whenever some unit can be pruned, exactly one channel, of globally
    minimum importance, is switched off. *)
Definition C43_claim : Prop :=
  forall us, Forall wf us -> no_nan us -> (exists u, multi us u) ->
  exists us' u c, try_prune us = Ok us' /\ is_global_min us u c /\ pruned_at us us' u c.

(** It holds as soon as one prunable channel has an importance below 1e5. *)
Theorem C43_step_partial :
  forall us, Forall wf us -> no_nan us ->
    (exists u c q, multi us u /\ act us u c (Num q) /\ (q < inject_Z 100000)%Q) ->
  exists us' u c, try_prune us = Ok us' /\ is_global_min us u c /\ pruned_at us us' u c.
Proof.
  intros us Hw Hn (u0 & c0 & q & Hm0 & Ha0 & Hq).
  destruct (proj1 (multi_iff us u0) Hm0) as (U0 & HU0 & HA0).
  destruct Ha0 as (U0' & HU0' & Hmk0 & Hf0). rewrite HU0 in HU0'. inversion HU0'; subst U0'. clear HU0'.
  rewrite Forall_forall in Hw.
  assert (Himp : forall U, In U us -> (1 < activated U)%nat -> Forall num (importance U) /\ importance U <> []).
  { intros U HU HA. unfold activated in HA. apply count_multi in HA as (c & d & _ & Hc & _). split.
    - apply imp_num; [auto| |apply Hn, HU]. eapply act_fisher_ne; eauto.
    - eapply imp_ne; eauto. }
  destruct (find_min_ok us 0%nat (Num (inject_Z 100000)) 0%nat Himp ltac:(discriminate)) as (k & E & [[-> H]|(j & U & -> & Hj & HU & HF & H)]).
  - exfalso. specialize (H U0 (nth_error_In _ _ HU0) HA0).
    destruct (fmin_imp U0 (Hw _ (nth_error_In _ _ HU0)) (Hn _ (nth_error_In _ _ HU0)) (ex_intro _ c0 Hmk0)) as [_ F].
    specialize (F c0 (Num q) Hmk0 Hf0). pose proof (fle_trans _ _ _ H F) as G. cbn in G. unfold inject_Z in *. lra.
  - cbn [Nat.add] in *.
    set (c := argmin (importance U)).
    assert (HIU : In U us) by (eapply nth_error_In; eauto).
    destruct (count_multi (u_mask U)) as [Hcm _]. destruct (Hcm HU) as (c1 & d1 & _ & Hc1 & _).
    destruct (Himp U HIU HU) as [HiU HneU].
    (* the selected unit has an active channel below the limit *)
    assert (Hlow : exists c a q, nth_error (u_mask U) c = Some true /\ nth_error (u_fisher U) c = Some a /\ fle a (Num q) /\ (q < inject_Z 100000)%Q).
    { destruct (fmin_ok _ HneU HiU) as [HI _].
      destruct (fmin (importance U)) as [m| |] eqn:Em; try discriminate.
      cbn in HF. apply negb_true_iff in HF.
      assert (Lm : (m < inject_Z 100000)%Q).
      { destruct (Qlt_le_dec m (inject_Z 100000)) as [L|L]; [exact L|]. apply Qle_bool_iff in L. congruence. }
      apply In_nth_error in HI as (c2 & Hc2). rewrite imp_nth in Hc2 by auto.
      destruct (nth_error (u_mask U) c2) as [[|]|] eqn:Ec2; [| |discriminate].
      - exists c2, (Num m), m. split; [exact Ec2|]. split; [exact Hc2|]. split; [apply Qle_refl|exact Lm].
      - (* the minimum is the filler: then every active channel is below it *)
        inversion Hc2 as [Hpl]. pose proof (act_fisher_ne U c1 (Hw _ HIU) Hc1) as Hfne.
        destruct (fmax_ok _ Hfne (Hn _ HIU)) as [Hm1 Hm2].
        destruct (nth_error (u_fisher U) c1) as [a|] eqn:Ea.
        + exists c1, a, m. split; [exact Hc1|]. split; [exact Ea|]. split; [|exact Lm].
          rewrite <- Hpl. rewrite Forall_forall in Hm2. eapply fle_trans; [apply Hm2; eapply nth_error_In; eauto|].
          apply plus1_ge, Hm1.
        + exfalso. apply nth_error_None in Ea. pose proof (Hw _ HIU) as W. unfold wf in W.
          assert (c1 < length (u_mask U))%nat by (apply nth_error_Some; congruence). lia. }
    destruct (argmin_active U (Hw _ HIU) (Hn _ HIU) Hlow) as (Hact & v & Hv & Hmin). fold c in Hact, Hv.
    exists (upd_unit j (fun u => fst (try_unit u)) us), j, c. split; [|split; [|split; [|split; [|split; [|split]]]]].
    + unfold GroupFisher_Model.try_prune. destruct us; [destruct j; discriminate|]. rewrite E. reflexivity.
    + split; [apply multi_iff; exists U; auto|]. exists v. split.
      * exists U. auto.
      * intros u' c' v' Hm' (U' & HU' & Hmk' & Hf'). apply multi_iff in Hm' as (U'' & HU'' & HA').
        rewrite HU' in HU''. inversion HU''; subst U''. assert (HIU' : In U' us) by (eapply nth_error_In; eauto).
        destruct (fmin_imp U' (Hw _ HIU') (Hn _ HIU') (ex_intro _ c' Hmk')) as [_ F].
        eapply fle_trans; [|apply (F c' v' Hmk' Hf')]. eapply fle_trans; [|apply (H U' HIU' HA')].
        apply Hmin. apply fmin_ok; assumption.
    + unfold mask_at. rewrite Hj. exact Hact.
    + unfold mask_at. rewrite upd_nth, Nat.eqb_refl, Hj. cbn [option_map].
      unfold GroupFisher_Model.try_unit. destruct (Nat.ltb_spec 1 (activated U)); [|lia]. cbn [fst u_mask].
      rewrite clear_nth. fold c. rewrite Nat.eqb_refl, Hact. reflexivity.
    + intros u' c' Hne. unfold mask_at. rewrite upd_nth. destruct (Nat.eqb_spec u' j) as [->|Hj']; [|reflexivity].
      rewrite Hj. cbn [option_map]. unfold GroupFisher_Model.try_unit.
      destruct (Nat.ltb_spec 1 (activated U)); [|lia]. cbn [fst u_mask].
      rewrite clear_nth. fold c. destruct (Nat.eqb_spec c' c) as [->|]; [congruence|reflexivity].
    + apply upd_length.
    + apply upd_fisher.
Qed.

(** ** Safety: for arbitrary values (NaN and infinity included) *)
Lemma clear_count k l : (length (filter (fun b => b) l) <= S (length (filter (fun b => b) (clear k l))))%nat /\
  (length (filter (fun b => b) (clear k l)) <= length (filter (fun b => b) l))%nat.
Proof. revert k. induction l as [|b l IH]; intros [|k]; cbn; try lia; [destruct b; cbn; lia|].
  specialize (IH k). destruct b; cbn; lia. Qed.

(** One call never empties a unit, never switches a channel on and switches at most one
    off, and only in a unit with several active channels. *)
Theorem C43_never_empty :
  forall us us', try_prune us = Ok us' ->
  length us' = length us /\
  forall u U, nth_error us u = Some U -> exists U', nth_error us' u = Some U' /\
    length (u_mask U') = length (u_mask U) /\
    (forall c, nth_error (u_mask U') c = Some true -> nth_error (u_mask U) c = Some true) /\
    ((0 < activated U)%nat -> (0 < activated U')%nat) /\
    (activated U <= S (activated U'))%nat /\
    (u_mask U' <> u_mask U -> (1 < activated U)%nat /\ forall u2, u2 <> u -> nth_error us' u2 = nth_error us u2).
Proof.
  intros us us' E. unfold GroupFisher_Model.try_prune in E. destruct us as [|u0 us0] eqn:Eus; [discriminate|].
  rewrite <- Eus in *. clear Eus.
  assert (Same : forall U : funit, length (u_mask U) = length (u_mask U) /\
     (forall c, nth_error (u_mask U) c = Some true -> nth_error (u_mask U) c = Some true) /\
     ((0 < activated U)%nat -> (0 < activated U)%nat) /\ (activated U <= S (activated U))%nat).
  { intros U. repeat split; auto. }
  destruct (find_min add1 0 us (Num (inject_Z 100000)) 0) as [k|]; apply Ok_inj in E; subst us'.
  - split; [apply upd_length|]. intros u U HU. rewrite upd_nth, HU.
    destruct (Nat.eqb_spec u k) as [->|Hk]; cbn [option_map].
    + eexists. split; [reflexivity|]. unfold GroupFisher_Model.try_unit.
      destruct (Nat.ltb_spec 1 (activated U)) as [HA|HA]; cbn [fst u_mask].
      * assert (Hlen : forall j l, length (clear j l) = length l).
        { clear. intros j l. revert j. induction l as [|b l IH]; intros [|j]; cbn; auto. }
        pose proof (clear_count (argmin (importance U)) (u_mask U)) as [C1 C2]. unfold activated in *. cbn [u_mask].
        split; [apply Hlen|]. split; [|split; [lia|]].
        -- intros c. rewrite clear_nth. destruct (Nat.eqb c _); [|auto]. destruct (nth_error (u_mask U) c); discriminate.
        -- split; [lia|]. intros _. split; [exact HA|]. intros u2 Hu2. rewrite upd_nth.
           destruct (Nat.eqb_spec u2 k); [congruence|reflexivity].
      * destruct (Same U) as (S1 & S2 & S3 & S4). split; [exact S1|]. split; [exact S2|].
        split; [exact S3|]. split; [exact S4|]. congruence.
    + exists U. split; [reflexivity|]. destruct (Same U) as (S1 & S2 & S3 & S4). repeat split; auto; congruence.
  - split; [reflexivity|]. intros u U HU. exists U. destruct (Same U) as (S1 & S2 & S3 & S4). repeat split; auto; congruence.
Qed.

(** Whole trainings: the importances may change in any way between the prune steps. *)
Fixpoint run (interval : Z) (its : list (Z * (list funit -> list funit))) (us : list funit) : outcome (list funit) :=
  match its with
  | [] => Ok us
  | (i, upd) :: r => do us' <- train_step add1 argmin interval i upd us; run interval r us'
  end.
Theorem C43_history :
  forall interval its us us',
    (forall i upd, In (i, upd) its -> forall vs, masks (upd vs) = masks vs) ->
    Forall (fun U => exists c, nth_error (u_mask U) c = Some true) us ->
    run interval its us = Ok us' ->
    length us' = length us /\
    Forall (fun U => exists c, nth_error (u_mask U) c = Some true) us' /\
    (forall u c, mask_at us' u c = Some true -> mask_at us u c = Some true).
Proof.
  intros interval its us us' Hu Ha E.
  assert (One : forall l : list bool, (0 < length (filter (fun b => b) l))%nat <-> exists c, nth_error l c = Some true).
  { clear. induction l as [|b l IH]; cbn.
    - split; [lia|]. intros ([|c] & H); discriminate.
    - destruct b; cbn; [split; [intros _; exists 0%nat; reflexivity|lia]|]. rewrite IH. split.
      + intros (c & H). exists (S c). exact H.
      + intros ([|c] & H); [discriminate|]. exists c. exact H. }
  assert (Gen : forall its ms us', (forall i upd, In (i, upd) its -> forall vs, masks (upd vs) = masks vs) ->
     forall us, masks us = ms -> Forall (fun m => exists c, nth_error m c = Some true) ms ->
     run interval its us = Ok us' -> length us' = length ms /\ Forall (fun m => exists c, nth_error m c = Some true) (masks us') /\
       forall u c, (match nth_error (masks us') u with Some m => nth_error m c | None => None end) = Some true ->
                   (match nth_error ms u with Some m => nth_error m c | None => None end) = Some true).
  { clear - One. induction its as [|[i upd] its IH]; intros ms us' Hu us Hms Ha E; cbn [run] in E.
    - apply Ok_inj in E. subst. split; [unfold masks; rewrite map_length; reflexivity|]. auto.
    - unfold train_step in E. destruct (interval =? 0); [discriminate|].
      pose proof (Hu i upd (or_introl eq_refl) us) as Hupd.
      assert (Hu' : forall i upd, In (i, upd) its -> forall vs, masks (upd vs) = masks vs) by (intros; eapply Hu; right; eauto).
      destruct (i mod interval =? 0).
      + destruct (try_prune (upd us)) as [us1|] eqn:Ep; [|discriminate]. cbn [bind] in E.
        destruct (C43_never_empty _ _ Ep) as [L1 P1].
        assert (Hr : masks (reset_imp us1) = masks us1).
        { unfold masks, reset_imp. rewrite map_map. reflexivity. }
        assert (Rel : forall u m1, nth_error (masks us1) u = Some m1 -> exists m, nth_error ms u = Some m /\
            (forall c, nth_error m1 c = Some true -> nth_error m c = Some true) /\
            ((exists c, nth_error m c = Some true) -> exists c, nth_error m1 c = Some true)).
        { intros u m1 H1. unfold masks in H1.
          assert (exists U1, nth_error us1 u = Some U1 /\ u_mask U1 = m1) as (U1 & HU1 & <-).
          { revert H1. generalize us1 u. clear. induction us1 as [|x l IH]; intros [|u] H; try discriminate; cbn in *.
            - inversion H. eauto. - apply IH, H. }
          assert (exists U, nth_error (upd us) u = Some U) as (U & HU).
          { destruct (nth_error (upd us) u) eqn:F; [eauto|]. apply nth_error_None in F.
            assert (u < length us1)%nat by (apply nth_error_Some; congruence). lia. }
          destruct (P1 u U HU) as (U1' & HU1' & _ & P2 & P3 & _). rewrite HU1 in HU1'. inversion HU1'; subst U1'.
          exists (u_mask U). split; [rewrite <- Hms, <- Hupd; unfold masks; apply map_nth_error, HU|].
          split; [exact P2|]. intros H. apply One. apply P3. apply One. exact H. }
        assert (Hlen : length us1 = length ms).
        { rewrite L1, <- Hms, <- Hupd. unfold masks. rewrite map_length. reflexivity. }
        destruct (IH (masks us1) us' Hu' (reset_imp us1) Hr) as (I1 & I2 & I3); [|exact E|].
        * apply Forall_forall. intros m1 Hm1. apply In_nth_error in Hm1 as (u & Hm1).
          destruct (Rel u m1 Hm1) as (m & Hm & _ & R). apply R. rewrite Forall_forall in Ha. apply Ha.
          eapply nth_error_In; eauto.
        * split; [rewrite I1; unfold masks; rewrite map_length; exact Hlen|]. split; [exact I2|].
          intros u c Hc. specialize (I3 u c Hc). destruct (nth_error (masks us1) u) as [m1|] eqn:F; [|discriminate].
          destruct (Rel u m1 F) as (m & -> & R & _). auto.
      + cbn [bind] in E. apply (IH ms us' Hu' (upd us)); [congruence|exact Ha|exact E]. }
  destruct (Gen its (masks us) us' Hu us eq_refl) as (G1 & G2 & G3); [|exact E|].
  - unfold masks. rewrite Forall_map. exact Ha.
  - split; [rewrite G1; unfold masks; apply map_length|]. split.
    + unfold masks in G2. rewrite Forall_map in G2. exact G2.
    + intros u c H. specialize (G3 u c). unfold mask_at, masks in *.
      assert (M : forall (l : list funit) i, nth_error (map u_mask l) i = option_map u_mask (nth_error l i)).
      { clear. induction l as [|x l IH]; intros [|i]; cbn; auto. }
      rewrite !M in G3. destruct (nth_error us' u); [|discriminate]. cbn in G3.
      specialize (G3 H). destruct (nth_error us u); [exact G3|discriminate].
Qed.
End Fisher.
Print Assumptions C43_step_partial.
Print Assumptions C43_never_empty.
Print Assumptions C43_history.

(** A concrete [argmin]: the first position of the minimum. *)
Fixpoint first_min (i best : nat) (b : fval) (l : list fval) : nat :=
  match l with [] => best | v :: r => if flt v b then first_min (S i) i v r else first_min (S i) best b r end.
Definition argmin_first (l : list fval) : nat := match l with [] => 0%nat | v :: r => first_min 1 0 v r end.

Definition ex_big : list funit :=
  [{| u_mask := [true; true]; u_fisher := [Num 200000; Num 300000] |};
   {| u_mask := [true; true]; u_fisher := [Num 150000; Num 160000] |}].
(** All importances at least 1e5: the first unit is pruned although the minimum is in the
    second one. *)
Theorem C43_step_refuted : ~ C43_claim (fun x => x + 1)%Q argmin_first.
Proof.
  intros H. destruct (H ex_big) as (us' & u & c & E & (_ & v & Hv & Hmin) & (P1 & P2 & _)).
  - repeat constructor.
  - intros U [<-|[<-|[]]]; repeat constructor; discriminate.
  - exists 0%nat, (nth 0 ex_big (Build_funit [] [])), 0%nat, 1%nat. repeat split; discriminate.
  - vm_compute in E. apply Ok_inj in E. subst us'.
    assert (Hm : fle v (Num 150000)).
    { apply (Hmin 1%nat 0%nat).
      - exists (nth 1 ex_big (Build_funit [] [])), 0%nat, 1%nat. repeat split; discriminate.
      - exists (nth 1 ex_big (Build_funit [] [])). repeat split. }
    destruct Hv as (U & HU & _ & Hf). unfold mask_at in *.
    destruct u as [|[|u]].
    + cbn in HU. inversion HU; subst U. destruct c as [|[|c]]; cbn in Hf.
      * inversion Hf; subst v. cbn in Hm. apply Hm. reflexivity.
      * inversion Hf; subst v. cbn in Hm. apply Hm. reflexivity.
      * destruct c; discriminate.
    + cbn in P1, P2. destruct c as [|[|[|c]]]; cbn in P2; discriminate.
    + destruct u; discriminate.
Qed.
Print Assumptions C43_step_refuted.

(** If the first unit has a single channel nothing is pruned at all, although the second
    unit has two. *)
Theorem C43_stuck_refuted :
  exists us, Forall wf us /\ no_nan us /\ multi us 1 /\
    try_prune (fun x => x + 1)%Q argmin_first us = Ok us.
Proof.
  exists [{| u_mask := [true]; u_fisher := [Num 7] |};
          {| u_mask := [true; true]; u_fisher := [Num 150000; Num 160000] |}].
  split; [repeat constructor|]. split; [intros U [<-|[<-|[]]]; repeat constructor; discriminate|]. split.
  - eexists. exists 0%nat, 1%nat. cbn. repeat split; discriminate.
  - vm_compute. reflexivity.
Qed.
Print Assumptions C43_stuck_refuted.

Lemma argmin_first_ok l : l <> [] -> Forall num l ->
  exists v, nth_error l (argmin_first l) = Some v /\ Forall (fle v) l.
Proof.
  assert (Gen : forall r pre best b, nth_error pre best = Some b -> num b -> Forall (fle b) pre -> Forall num r ->
    exists v, nth_error (pre ++ r) (first_min (length pre) best b r) = Some v /\ Forall (fle v) (pre ++ r)).
  { induction r as [|w r IH]; intros pre best b Hb Hnb Hpre Hr; cbn [first_min].
    - rewrite app_nil_r. eauto.
    - inversion Hr as [|? ? Hw Hr']; subst.
      replace (pre ++ w :: r) with ((pre ++ [w]) ++ r) by (rewrite <- app_assoc; reflexivity).
      replace (S (length pre)) with (length (pre ++ [w])) by (rewrite app_length; cbn; lia).
      destruct (flt w b) eqn:F.
      + apply IH; try assumption.
        * rewrite nth_error_app2, Nat.sub_diag by lia. reflexivity.
        * apply flt_true in F. apply Forall_app. split.
          -- eapply Forall_impl; [|exact Hpre]. intros x Hx. eapply fle_trans; [exact (proj1 F)|exact Hx].
          -- constructor; [apply fle_refl, Hw|constructor].
      + apply flt_false in F; try assumption. apply IH; try assumption.
        * rewrite nth_error_app1; [exact Hb|]. apply nth_error_Some. congruence.
        * apply Forall_app. split; [exact Hpre|]. constructor; [exact F|constructor]. }
  destruct l as [|v r]; [congruence|]. intros _ H. inversion H; subst.
  apply (Gen r [v] 0%nat v); try assumption; [reflexivity|]. constructor; [apply fle_refl; assumption|constructor].
Qed.
(** The hypotheses on [add1] and [argmin] are met, and the least channel is pruned. *)
Definition ex_units : list funit :=
  [{| u_mask := [true; false; true]; u_fisher := [Num 5; Num 0; Num 4] |};
   {| u_mask := [true]; u_fisher := [Num 1] |};
   {| u_mask := [true; true]; u_fisher := [PInf; Num 3] |}].
Example C43_example :
  (forall x, x <= x + 1)%Q /\ (forall x, x < inject_Z 100000 -> x < x + 1)%Q /\
  try_prune (fun x => x + 1)%Q argmin_first ex_units
  = Ok [{| u_mask := [true; false; true]; u_fisher := [Num 5; Num 0; Num 4] |};
        {| u_mask := [true]; u_fisher := [Num 1] |};
        {| u_mask := [true; false]; u_fisher := [PInf; Num 3] |}].
Proof. split; [intros; lra|]. split; [intros; lra|]. vm_compute. reflexivity. Qed.
Example C43_history_example :
  exists us', run (fun x => x + 1)%Q argmin_first 2 [(1, fun us => us); (2, fun us => us); (4, fun us => us)] ex_units = Ok us' /\
    masks us' = [[false; false; true]; [true]; [true; false]].
Proof. eexists. split; vm_compute; reflexivity. Qed.

(** Only in every [interval]-th iteration something is pruned, and after it the importances of all units start at zero again; in the others the new ones are
    kept. *)
Theorem C43_reset : forall add1 argmin interval iter upd us us', train_step add1 argmin interval iter upd us = Ok us' ->
  (iter mod interval = 0 -> forall u v, In u us' -> In v (u_fisher u) -> v = Num 0) /\ (iter mod interval <> 0 -> us' = upd us).
Proof.
  intros add1 argmin interval iter upd us us' E. unfold train_step in E. destruct (interval =? 0); [discriminate |].
  destruct (Z.eqb_spec (iter mod interval) 0) as [M | M]; split; intro X; try contradiction.
  - destruct (try_prune add1 argmin (upd us)) as [us2 | e]; [| discriminate]. cbn [bind] in E. apply Ok_inj in E. subst us'. intros u v I J.
    unfold reset_imp in I. apply in_map_iff in I. destruct I as (u0 & <- & _). cbn [u_fisher] in J. apply in_map_iff in J. destruct J as (x & <- & _). reflexivity.
  - apply Ok_inj in E. symmetry. exact E.
Qed.
Example C43_reset_example :
  train_step (fun x => x + 1)%Q argmin_first 2 4 (fun us => us) [{| u_mask := [true; true]; u_fisher := [Num 3; Num 2] |}]
  = Ok [{| u_mask := [true; false]; u_fisher := [Num 0; Num 0] |}].
Proof. vm_compute. reflexivity. Qed.
Print Assumptions C43_reset.
