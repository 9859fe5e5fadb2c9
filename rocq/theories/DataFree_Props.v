(** Data-free distillation: the gradients that the student and the generator step with (C143), and the
    logs (C144). *)
From Coq Require Import Reals Lra String.
From Verif Require Import Prelude Evolution_Model Recorder_Model Darts_Model Darts_Props DataFree_Model.
Local Open Scope string_scope.
Local Open Scope list_scope.
Local Open Scope R_scope.

Section Props.
Variables N I SW SG : Type.
Variable image : N -> vec -> I.
Variable dS : I -> vec -> vec.
Variable logS : I -> vec -> subnet.
Variables gS gG : N -> vec -> vec -> vec.
Variable logG : N -> vec -> vec -> subnet.
Variable stepW : SW -> vec -> vec -> SW * vec.
Variable stepG : SG -> vec -> vec -> SG * vec.
Variable to_none : bool.
Notation state := (dfd SW SG).
Notation step := (train_step N I SW SG image dS logS gS gG logG stepW stepG to_none).
Notation run := (train_run N I SW SG image dS logS gS gG logG stepW stepG to_none).
Notation dafl := (dafl_run N I SW SG image dS logS gS gG logG stepW stepG to_none).

(** * Specification *)

(** What training produces: the weights and the states of the optimizers. *)
Definition view (s : state) : SW * vec * SG * vec := (f_sw _ _ s, f_w _ _ s, f_sg _ _ s, f_g _ _ s).
(** The rounds of the student: the first steps along the gradient of the distillation losses plus [c], the others
    along that gradient alone. *)
Fixpoint rounds (c : option vec) (zs : list N) (g : vec) (x : SW * vec) : SW * vec :=
  match zs with [] => x | z :: r => rounds None r g (stepW (fst x) (snd x) (plus c (dS (image z g) (snd x)))) end.
(** The documented training: the generator steps along the gradient of its losses, the student along that of the
    distillation losses. *)
Fixpoint ideal (first : bool) (its : list (list N * N)) (v : SW * vec * SG * vec) : SW * vec * SG * vec :=
  match its with
  | [] => v
  | (zs, z) :: r =>
      let '(sw, w, sg, g) := v in
      if first then
        let '(sw', w') := rounds None zs g (sw, w) in let '(sg', g') := stepG sg g (gG z w' g) in ideal first r (sw', w', sg', g')
      else
        let '(sg', g') := stepG sg g (gG z w g) in let '(sw', w') := rounds None zs g' (sw, w) in ideal first r (sw', w', sg', g')
  end.
(** What happens: the gradient of the generator's losses for the student's weights is added to the next step of the student. *)
Fixpoint polluted (first : bool) (its : list (list N * N)) (c : option vec) (v : SW * vec * SG * vec) : SW * vec * SG * vec :=
  match its with
  | [] => v
  | (zs, z) :: r =>
      let '(sw, w, sg, g) := v in
      if first then
        let '(sw', w') := rounds c zs g (sw, w) in let '(sg', g') := stepG sg g (gG z w' g) in polluted first r (Some (gS z w' g)) (sw', w', sg', g')
      else
        let '(sg', g') := stepG sg g (gG z w g) in let '(sw', w') := rounds (Some (plus c (gS z w g))) zs g' (sw, w) in polluted first r None (sw', w', sg', g')
  end.
(** DAFL: both losses with the same images, and the same addition. *)
Fixpoint dafl_polluted (zs : list N) (v : SW * vec * SG * vec) : SW * vec * SG * vec :=
  match zs with
  | [] => v
  | z :: r =>
      let '(sw, w, sg, g) := v in
      let '(sg', g') := stepG sg g (gG z w g) in
      let '(sw', w') := stepW sw w (vadd (gS z w g) (dS (image z g) w)) in dafl_polluted r (sw', w', sg', g')
  end.
Fixpoint dafl_ideal (zs : list N) (v : SW * vec * SG * vec) : SW * vec * SG * vec :=
  match zs with
  | [] => v
  | z :: r =>
      let '(sw, w, sg, g) := v in
      let '(sg', g') := stepG sg g (gG z w g) in
      let '(sw', w') := stepW sw w (dS (image z g) w) in dafl_ideal r (sw', w', sg', g')
  end.

(** * Lemmas *)
Variables nw ng : nat.
Hypothesis dS_length : forall i w, length (dS i w) = nw.
Hypothesis gS_length : forall z w g, length (gS z w g) = nw.
Hypothesis gG_length : forall z w g, length (gG z w g) = ng.
Definition holds (n : nat) (o c : option vec) : Prop := (c = None /\ nothing n o) \/ (exists x, c = Some x /\ o = Some x).
Lemma accum_holds n o c g : holds n o c -> length g = n -> accum o g = Some (plus c g).
Proof.
  intros [[-> H]|(x & -> & ->)] L; [|reflexivity]. destruct H as [->|(x & -> & Hx)]; cbn [accum plus]; [reflexivity|]. rewrite vadd_zero by congruence. reflexivity.
Qed.
Lemma cleared_nothing n o : (forall x, o = Some x -> length x = n) -> nothing n (cleared to_none o).
Proof. unfold cleared, nothing. intros H. destruct o as [x|]; [|left; reflexivity]. destruct to_none; [left; reflexivity|]. right. exists x. split; [reflexivity|auto]. Qed.
Lemma vadd_length a : forall b, length a = length b -> length (vadd a b) = length b.
Proof. induction a as [|x a IH]; intros [|y b] H; cbn in *; try discriminate; [reflexivity|]. rewrite IH; congruence. Qed.
Lemma plus_length n c g : (forall x, c = Some x -> length x = n) -> length g = n -> length (plus c g) = n.
Proof. destruct c as [x|]; intros H L; cbn [plus]; [|exact L]. rewrite vadd_length; [exact L|]. rewrite (H x eq_refl). congruence. Qed.

Lemma student_rounds_spec zs : forall s logs c, holds nw (f_gw _ _ s) c -> (forall x, c = Some x -> length x = nw) ->
  let s' := fst (student_rounds N I SW SG image dS logS stepW to_none zs s logs) in
  (f_sw _ _ s', f_w _ _ s') = rounds c zs (f_g _ _ s) (f_sw _ _ s, f_w _ _ s) /\ f_g _ _ s' = f_g _ _ s /\ f_sg _ _ s' = f_sg _ _ s /\ f_gg _ _ s' = f_gg _ _ s /\
  holds nw (f_gw _ _ s') (match zs with [] => c | _ => None end).
Proof.
  induction zs as [|z r IH]; intros s logs c H Hc; cbn [student_rounds fst rounds snd]; [auto|].
  unfold update_student, backward_student. cbn [f_w f_gw f_sw f_g f_gg f_sg]. rewrite (accum_holds nw _ c _ H (dS_length _ _)).
  destruct (stepW _ _ _) as [o w] eqn:E.
  match goal with |- context [student_rounds _ _ _ _ _ _ _ _ _ r ?s1 ?l1] => specialize (IH s1 l1 None) end.
  cbn [f_w f_gw f_sw f_g f_gg f_sg] in IH. destruct IH as (A & B & C & D & F).
  - left. split; [reflexivity|]. apply cleared_nothing. intros x Hx. injection Hx as <-. apply plus_length; auto.
  - discriminate.
  - split; [exact A|]. repeat split; try assumption. destruct r; exact F.
Qed.
Lemma generator_spec z s c : holds nw (f_gw _ _ s) c -> nothing ng (f_gg _ _ s) ->
  let s' := fst (train_generator N SW SG gS gG logG stepG to_none z s) in
  (f_sg _ _ s', f_g _ _ s') = stepG (f_sg _ _ s) (f_g _ _ s) (gG z (f_w _ _ s) (f_g _ _ s)) /\ f_w _ _ s' = f_w _ _ s /\ f_sw _ _ s' = f_sw _ _ s /\
  nothing ng (f_gg _ _ s') /\ f_gw _ _ s' = Some (plus c (gS z (f_w _ _ s) (f_g _ _ s))).
Proof.
  intros H Hg. unfold train_generator, update_generator, backward_generator. cbn [fst f_w f_gw f_sw f_g f_gg f_sg].
  rewrite (accum_holds ng (f_gg _ _ s) None _ (or_introl (conj eq_refl Hg)) (gG_length _ _ _)). cbn [plus]. rewrite (accum_holds nw _ c _ H (gS_length _ _ _)).
  destruct (stepG _ _ _) as [o g]. cbn [f_w f_gw f_sw f_g f_gg f_sg]. repeat split. apply cleared_nothing. intros x Hx. injection Hx as <-. apply gG_length.
Qed.
Lemma step_spec first zs z s s' l c : holds nw (f_gw _ _ s) c -> (forall x, c = Some x -> length x = nw) -> nothing ng (f_gg _ _ s) -> step first zs z s = Ok (s', l) ->
  zs <> [] /\ nothing ng (f_gg _ _ s') /\
  (if first then
     let '(sw', w') := rounds c zs (f_g _ _ s) (f_sw _ _ s, f_w _ _ s) in let '(sg', g') := stepG (f_sg _ _ s) (f_g _ _ s) (gG z w' (f_g _ _ s)) in
     view s' = (sw', w', sg', g') /\ holds nw (f_gw _ _ s') (Some (gS z w' (f_g _ _ s)))
   else
     let '(sg', g') := stepG (f_sg _ _ s) (f_g _ _ s) (gG z (f_w _ _ s) (f_g _ _ s)) in
     let '(sw', w') := rounds (Some (plus c (gS z (f_w _ _ s) (f_g _ _ s)))) zs g' (f_sw _ _ s, f_w _ _ s) in
     view s' = (sw', w', sg', g') /\ holds nw (f_gw _ _ s') None).
Proof.
  intros H Hc Hg E. unfold train_step, train_student in E. destruct first.
  - destruct (student_rounds _ _ _ _ _ _ _ _ _ zs s None) as [s1 l1] eqn:E1. destruct l1 as [l1|]; cbn [bind] in E; [|discriminate]. apply Ok_inj in E. apply (f_equal fst) in E. cbn [fst] in E. subst s'.
    pose proof (student_rounds_spec zs s None c H Hc) as P. rewrite E1 in P. cbn [fst] in P. destruct P as (A & B & C & D & F).
    assert (Z0 : zs <> []) by (intros ->; cbn in E1; congruence). split; [exact Z0|]. destruct zs as [|z0 zr]; [congruence|].
    destruct (generator_spec z s1 None F) as (P1 & P2 & P3 & P4 & P5); [rewrite D; exact Hg|]. split; [exact P4|].
    rewrite <- A. rewrite B, C in P1. rewrite <- P1. unfold view. rewrite P2, P3. split; [reflexivity|]. right. rewrite P5, B. cbn [plus]. eauto.
  - destruct (generator_spec z s c H Hg) as (P1 & P2 & P3 & P4 & P5).
    set (s1 := fst (train_generator N SW SG gS gG logG stepG to_none z s)) in *.
    destruct (student_rounds _ _ _ _ _ _ _ _ _ zs s1 None) as [s2 l2] eqn:E1. destruct l2 as [l2|]; cbn [bind] in E; [|discriminate]. apply Ok_inj in E. apply (f_equal fst) in E. cbn [fst] in E. subst s'.
    pose proof (student_rounds_spec zs s1 None (Some (plus c (gS z (f_w _ _ s) (f_g _ _ s))))) as P. rewrite E1 in P. cbn [fst] in P. destruct P as (A & B & C & D & F).
    { right. eauto. } { intros x Hx. injection Hx as <-. apply plus_length; auto. }
    assert (Z0 : zs <> []) by (intros ->; cbn in E1; congruence). split; [exact Z0|]. destruct zs as [|z0 zr]; [congruence|].
    split; [rewrite D; exact P4|]. rewrite <- P1. rewrite P2, P3 in A. rewrite <- A. unfold view. rewrite B, C. auto.
Qed.

(** * C143 *)

Theorem C143_run_partial first its : forall c s s', holds nw (f_gw _ _ s) c -> (forall x, c = Some x -> length x = nw) -> nothing ng (f_gg _ _ s) ->
  run first its s = Ok s' -> view s' = polluted first its c (view s).
Proof.
  induction its as [|[zs z] r IH]; intros c s s' H Hc Hg E; cbn [train_run polluted] in *; [apply Ok_inj in E; congruence|].
  destruct (step first zs z s) as [[s1 l]|] eqn:E1; cbn [bind fst] in E; [|discriminate].
  destruct (step_spec _ _ _ _ _ _ _ H Hc Hg E1) as (_ & G1 & P). unfold view at 2. destruct first.
  - destruct (rounds c zs _ _) as [sw' w']. destruct (stepG _ _ _) as [sg' g']. destruct P as [P1 P2]. rewrite (IH _ _ _ P2 (fun x Hx => ltac:(injection Hx as <-; apply gS_length)) G1 E). congruence.
  - destruct (stepG _ _ _) as [sg' g']. destruct (rounds _ zs _ _) as [sw' w']. destruct P as [P1 P2]. rewrite (IH _ _ _ P2 (fun x Hx => ltac:(discriminate Hx)) G1 E). congruence.
Qed.
Theorem C143_dafl_partial zs : forall s, nothing nw (f_gw _ _ s) -> nothing ng (f_gg _ _ s) -> view (dafl zs s) = dafl_polluted zs (view s).
Proof.
  induction zs as [|z r IH]; intros s Hw Hg; cbn [dafl_run dafl_polluted]; [reflexivity|].
  unfold dafl_step, update_generator, update_student, backward_generator. unfold view at 2. cbn [fst f_w f_gw f_sw f_g f_gg f_sg].
  rewrite (accum_holds ng (f_gg _ _ s) None _ (or_introl (conj eq_refl Hg)) (gG_length _ _ _)). rewrite (accum_holds nw (f_gw _ _ s) None _ (or_introl (conj eq_refl Hw)) (gS_length _ _ _)).
  cbn [plus]. destruct (stepG _ _ _) as [sg' g']. cbn [f_w f_gw f_sw f_g f_gg f_sg accum]. destruct (stepW _ _ _) as [sw' w'].
  rewrite IH; cbn [f_gw f_gg]; [reflexivity| |].
  - apply cleared_nothing. intros x Hx. injection Hx as <-. rewrite vadd_length; rewrite ?gS_length; rewrite dS_length; reflexivity.
  - apply cleared_nothing. intros x Hx. injection Hx as <-. apply gG_length.
Qed.
(** If the generator's losses have no gradient for the student's weights, training is the documented one. *)
Lemma rounds_zero x zs g y : length x = nw -> rounds (Some (vscale 0 x)) zs g y = rounds None zs g y.
Proof. intros L. destruct zs as [|z r]; [reflexivity|]. cbn [rounds plus]. rewrite vadd_zero by (rewrite dS_length; exact L). reflexivity. Qed.
Theorem C143_ideal_partial first its s s' : (forall z w g, exists x, gS z w g = vscale 0 x) -> nothing nw (f_gw _ _ s) -> nothing ng (f_gg _ _ s) ->
  run first its s = Ok s' -> view s' = ideal first its (view s).
Proof.
  intros Hz Hw Hg E. rewrite (C143_run_partial first its None s s' (or_introl (conj eq_refl Hw)) (fun x Hx => ltac:(discriminate Hx)) Hg E). clear E.
  assert (X : forall its c v, (c = None \/ exists x, c = Some (vscale 0 x) /\ length x = nw) -> polluted first its c v = ideal first its v).
  { clear - Hz dS_length gS_length. intros its. induction its as [|[zs z] r IH]; intros c [[[sw w] sg] g] Hc; cbn [polluted ideal]; [reflexivity|].
    assert (Z0 : forall w' g', exists x, gS z w' g' = vscale 0 x /\ length x = nw).
    { intros w' g'. destruct (Hz z w' g') as [x Hx]. exists x. split; [exact Hx|]. rewrite <- (gS_length z w' g'), Hx. symmetry. apply vscale_length. }
    destruct first.
    - assert (rounds c zs g (sw, w) = rounds None zs g (sw, w)) as -> by (destruct Hc as [->|(x & -> & L)]; [reflexivity|apply rounds_zero; exact L]).
      destruct (rounds None zs g (sw, w)) as [sw' w']. destruct (stepG _ _ _) as [sg' g']. apply IH. right. destruct (Z0 w' g) as (x & -> & L). eauto.
    - destruct (stepG _ _ _) as [sg' g']. destruct (Z0 w g) as (x & Ex & L).
      assert (plus c (gS z w g) = vscale 0 x) as -> by (destruct Hc as [->|(y & -> & L')]; cbn [plus]; [exact Ex|]; rewrite vadd_zero; [exact Ex|rewrite gS_length; exact L']).
      rewrite rounds_zero by exact L. destruct (rounds None zs g' (sw, w)) as [sw' w']. apply IH. left. reflexivity. }
  apply X. left. reflexivity.
Qed.

(** * C144 *)

(** A step succeeds exactly if the student trains at least one round. *)
Theorem C144_rounds first zs z s : (exists r, step first zs z s = Ok r) <-> zs <> [].
Proof.
  assert (X : forall zs s, zs <> [] -> exists r, train_student N I SW SG image dS logS stepW to_none zs s = Ok r).
  { intros zs0 s0 H. unfold train_student. assert (Y : forall zs s logs, logs <> None \/ zs <> [] -> snd (student_rounds N I SW SG image dS logS stepW to_none zs s logs) <> None).
    { clear. induction zs as [|z r IH]; intros s logs H; cbn [student_rounds snd]; [destruct H; congruence|]. apply IH. left. discriminate. }
    specialize (Y zs0 s0 None (or_intror H)). destruct (student_rounds _ _ _ _ _ _ _ _ _ zs0 s0 None) as [s1 [l|]]; cbn [snd] in Y; [eauto|congruence]. }
  split.
  - intros [r E] ->. unfold train_step, train_student in E. cbn [student_rounds] in E. destruct first; discriminate.
  - intros H. unfold train_step. destruct first.
    + destruct (X zs s H) as [a ->]. cbn [bind]. eauto.
    + destruct (X zs (fst (train_generator N SW SG gS gG logG stepG to_none z s)) H) as [a ->]. cbn [bind]. eauto.
Qed.
Hypothesis logS_nodup : forall i w, NoDup (map fst (logS i w)).
Hypothesis logG_nodup : forall z w g, NoDup (map fst (logG z w g)).
Lemma last_round zs : forall z s logs, snd (student_rounds N I SW SG image dS logS stepW to_none (zs ++ [z]) s logs) =
  Some (logS (image z (f_g _ _ s)) (f_w _ _ (fst (student_rounds N I SW SG image dS logS stepW to_none zs s logs)))).
Proof.
  induction zs as [|y r IH]; intros z s logs; cbn [app student_rounds snd fst]; [reflexivity|].
  match goal with |- context [student_rounds _ _ _ _ _ _ _ _ _ (r ++ [z]) ?s1 ?l1] => specialize (IH z s1 l1); assert (E : f_g _ _ s1 = f_g _ _ s) end.
  { unfold update_student. cbn [backward_student f_gw]. destruct (accum _ _); [destruct (stepW _ _ _)|]; reflexivity. }
  rewrite E in IH. exact IH.
Qed.
Lemma nodup_dupdate d : forall e, NoDup (map fst d) -> NoDup (map fst (dupdate d e)).
Proof.
  assert (X : forall d k v, NoDup (map fst d) -> NoDup (map fst (dput d k v)) /\ forall x, In x (map fst (dput d k v)) -> x = k \/ In x (map fst d)).
  { clear. induction d as [|[k0 v0] r IH]; intros k v H; cbn [dput map fst].
    - split; [constructor; [intros []|constructor]|intros x [<-|[]]; auto].
    - inversion H as [|? ? N ND]; subst. destruct (String.eqb_spec k0 k) as [->|Ne]; cbn [map fst].
      + split; [constructor; assumption|]. intros x [<-|Hx]; auto. right. right. exact Hx.
      + destruct (IH k v ND) as [A B]. split; [constructor; [|exact A]|].
        * intros K. destruct (B _ K) as [->|K']; [congruence|contradiction].
        * intros x [<-|Hx]; [right; left; reflexivity|]. destruct (B _ Hx) as [->|K]; auto. right. right. exact K. }
  unfold dupdate. intros e. revert d. induction e as [|[k v] r IH]; intros d H; cbn [fold_left fst snd]; [exact H|]. apply IH. apply X. exact H.
Qed.
(** The logs: the distillation losses of the last round, with the weights that round started with, and the generator's
    losses, under their prefixes. *)
Theorem C144_logs first zs z0 z c s s' l k : holds nw (f_gw _ _ s) c -> (forall x, c = Some x -> length x = nw) -> nothing ng (f_gg _ _ s) ->
  step first (zs ++ [z0]) z s = Ok (s', l) ->
  (let g := f_g _ _ (if first then s else s') in
   let w := snd (rounds (if first then c else Some (plus c (gS z (f_w _ _ s) (f_g _ _ s)))) zs g (f_sw _ _ s, f_w _ _ s)) in
   at_key l ("distill." ++ k)%string = at_key (logS (image z0 g) w) k) /\
  (exists w, at_key l ("generator." ++ k)%string = at_key (logG z w (f_g _ _ s)) k /\ (first = false -> w = f_w _ _ s) /\ (first = true -> w = f_w _ _ s')).
Proof.
  intros Hw Hc Hg E.
  assert (P : forall a b, NoDup (map fst a) -> NoDup (map fst b) ->
    at_key (dupdate (dupdate [] (dupdate [] (add_prefix "distill" a))) (dupdate [] (add_prefix "generator" b))) ("distill." ++ k)%string = at_key a k /\
    at_key (dupdate (dupdate [] (dupdate [] (add_prefix "distill" a))) (dupdate [] (add_prefix "generator" b))) ("generator." ++ k)%string = at_key b k).
  { intros a b Na Nb. pose proof (prefix_nodup "distill" a Na) as N1. pose proof (prefix_nodup "generator" b Nb) as N2.
    assert (M1 : NoDup (map fst (dupdate [] (add_prefix "distill" a)))) by (apply nodup_dupdate; constructor).
    assert (M2 : NoDup (map fst (dupdate [] (add_prefix "generator" b)))) by (apply nodup_dupdate; constructor).
    rewrite !(at_dupdate _ M2), !(at_dupdate _ N2), !(at_dupdate _ M1), !(at_dupdate _ N1). cbn [at_key].
    pose proof (at_prefix "distill" a k) as A1. pose proof (at_prefix "generator" b k) as A2. cbn [append] in A1, A2. cbn [append]. rewrite A1, A2.
    pose proof (other_prefix "generator" "distill" b k (fun x H => ltac:(discriminate H))) as O1. cbn [append] in O1. rewrite O1.
    destruct (at_key a k), (at_key b k); auto. split; [reflexivity|].
    pose proof (other_prefix "distill" "generator" a k (fun x H => ltac:(discriminate H))) as O2. cbn [append] in O2. rewrite O2. reflexivity. split; [reflexivity|].
    pose proof (other_prefix "distill" "generator" a k (fun x H => ltac:(discriminate H))) as O2. cbn [append] in O2. rewrite O2. reflexivity. }
  assert (G : forall zs s logs, f_g _ _ (fst (student_rounds N I SW SG image dS logS stepW to_none zs s logs)) = f_g _ _ s).
  { clear. induction zs as [|z r IH]; intros s logs; cbn [student_rounds fst]; [reflexivity|]. rewrite IH. unfold update_student. cbn [backward_student f_gw]. destruct (accum _ _); [destruct (stepW _ _ _)|]; reflexivity. }
  assert (W : forall z s, f_w _ _ (fst (train_generator N SW SG gS gG logG stepG to_none z s)) = f_w _ _ s).
  { clear. intros z s. unfold train_generator, update_generator. cbn [fst backward_generator f_gg]. destruct (accum _ _); [destruct (stepG _ _ _)|]; reflexivity. }
  unfold train_step, train_student in E. destruct first.
  - pose proof (last_round zs z0 s None) as Hl. destruct (student_rounds_spec zs s None c Hw Hc) as (Q & _). apply (f_equal snd) in Q. cbn [snd] in Q.
    rewrite Q in Hl. clear Q. set (w := snd (rounds c zs (f_g _ _ s) (f_sw _ _ s, f_w _ _ s))) in *. specialize (G (zs ++ [z0]) s None). destruct (student_rounds _ _ _ _ _ _ _ _ _ (zs ++ [z0]) s None) as [s1 l1]. cbn [snd fst] in *. subst l1.
    cbn [bind fst snd] in E. apply Ok_inj in E. pose proof (f_equal fst E) as E1. pose proof (f_equal snd E) as E2. cbn [fst snd] in E1, E2. subst l s'.
    unfold train_generator at 1 2. cbn [snd]. destruct (P _ _ (logS_nodup (image z0 (f_g _ _ s)) w) (logG_nodup z (f_w _ _ s1) (f_g _ _ s1))) as [P1 P2]. split.
    + exact P1.
    + exists (f_w _ _ s1). split; [rewrite G in P2; rewrite <- P2; unfold train_generator; cbn [snd]; rewrite G; reflexivity|]. split; [discriminate|]. intros _. symmetry. apply W.
  - set (s1 := fst (train_generator N SW SG gS gG logG stepG to_none z s)) in *.
    destruct (generator_spec z s c Hw Hg) as (P1 & P2 & P3 & P4 & P5). fold s1 in P1, P2, P3, P4, P5.
    pose proof (last_round zs z0 s1 None) as Hl. destruct (student_rounds_spec zs s1 None (Some (plus c (gS z (f_w _ _ s) (f_g _ _ s))))) as (Q & _).
    { right. eauto. } { intros x Hx. injection Hx as <-. apply plus_length; auto. }
    apply (f_equal snd) in Q. cbn [snd] in Q. rewrite P2, P3 in Q. rewrite Q in Hl. clear Q P1 P2 P3 P4 P5.
    set (w := snd (rounds _ zs _ _)) in *. specialize (G (zs ++ [z0]) s1 None). destruct (student_rounds _ _ _ _ _ _ _ _ _ (zs ++ [z0]) s1 None) as [s2 l2]. cbn [snd fst] in *. subst l2.
    cbn [bind fst snd] in E. apply Ok_inj in E. pose proof (f_equal fst E) as E1. pose proof (f_equal snd E) as E2. cbn [fst snd] in E1, E2. subst l s'.
    destruct (P _ _ (logS_nodup (image z0 (f_g _ _ s1)) w) (logG_nodup z (f_w _ _ s) (f_g _ _ s))) as [P1 P2]. split.
    + rewrite G. exact P1.
    + exists (f_w _ _ s). split; [exact P2|]. split; [reflexivity|discriminate].
Qed.
(** DAFL logs both losses with the weights the step started with. *)
Theorem C144_dafl z s k :
  let l := snd (dafl_step N I SW SG image dS logS gS gG logG stepW stepG to_none z s) in
  at_key l ("distill." ++ k)%string = at_key (logS (image z (f_g _ _ s)) (f_w _ _ s)) k /\
  at_key l ("generator." ++ k)%string = at_key (logG z (f_w _ _ s) (f_g _ _ s)) k.
Proof.
  cbv zeta. unfold dafl_step. cbn [snd].
  pose proof (logS_nodup (image z (f_g _ _ s)) (f_w _ _ s)) as Na. pose proof (logG_nodup z (f_w _ _ s) (f_g _ _ s)) as Nb.
  set (a := logS _ _) in *. set (b := logG _ _ _) in *. clearbody a b.
  rewrite !(at_dupdate _ (prefix_nodup "distill" a Na)), !(at_dupdate _ (prefix_nodup "generator" b Nb)). cbn [at_key].
  pose proof (at_prefix "distill" a k) as A1. pose proof (at_prefix "generator" b k) as A2. cbn [append] in A1, A2. cbn [append]. rewrite A1, A2.
  pose proof (other_prefix "generator" "distill" b k (fun x H => ltac:(discriminate H))) as O1. cbn [append] in O1. rewrite O1.
  pose proof (other_prefix "distill" "generator" a k (fun x H => ltac:(discriminate H))) as O2. cbn [append] in O2. rewrite O2.
  destruct (at_key a k), (at_key b k); auto.
Qed.
End Props.

(** * Examples and counterexamples *)
(** Noise and images are numbers; the losses of the student and the generator are linear with opposite signs. *)
Definition demo_dS (i : R) (w : vec) : vec := [i].
Definition demo_gS (z : R) (w g : vec) : vec := [- z].
Definition demo_gG (z : R) (w g : vec) : vec := [z].
Definition demo_opt (o : unit) (w g : vec) : unit * vec := (tt, vadd w (vscale (-1) g)).
Definition demo_state : dfd unit unit := {| f_w := [10]; f_gw := None; f_sw := tt; f_g := [5]; f_gg := None; f_sg := tt |}.
Definition demo_logS (i : R) (w : vec) : subnet := [("loss", "s")].
Definition demo_logG (z : R) (w g : vec) : subnet := [("loss", "g")].
Notation demo_run first its := (train_run R R unit unit (fun z _ => z) demo_dS demo_logS demo_gS demo_gG demo_logG demo_opt demo_opt true first its demo_state).
Definition C143_claim (first : bool) : Prop :=
  forall its s', demo_run first its = Ok s' -> view unit unit s' = ideal R R unit unit (fun z _ => z) demo_dS demo_gG demo_opt demo_opt first its (view unit unit demo_state).
Definition C143_dafl_claim : Prop :=
  forall zs, view unit unit (dafl_run R R unit unit (fun z _ => z) demo_dS demo_logS demo_gS demo_gG demo_logG demo_opt demo_opt true zs demo_state) =
    dafl_ideal R R unit unit (fun z _ => z) demo_dS demo_gG demo_opt demo_opt zs (view unit unit demo_state).
Ltac reals := cbv -[Rplus Rmult Ropp Rinv IZR Rdiv Rminus Rabs].
(** Two rounds of the student with the images 1 and 2; the generator's noise is 3. *)
Example C143_example : exists s, demo_run false [([1; 2], 3)] = Ok s /\ f_w _ _ s = [10 - (-3 + 1) - 2] /\ f_g _ _ s = [5 - 3].
Proof. eexists. split; [reals; reflexivity|]. reals. split; f_equal; lra. Qed.
(** The first step of the student in each iteration also ascends the generator's losses. *)
Theorem C143_refuted : ~ C143_claim false.
Proof.
  intros H. destruct C143_example as (s & E & Ew & _). specialize (H _ s E). unfold view in H. rewrite Ew in H.
  apply (f_equal (fun x => hd 0 (snd (fst (fst x))))) in H. revert H. reals. lra.
Qed.
Example C143_example_first : exists s, demo_run true [([1], 3); ([2], 4)] = Ok s /\ f_w _ _ s = [10 - 1 - (-3 + 2)].
Proof. eexists. split; [reals; reflexivity|]. reals. f_equal; lra. Qed.
(** If the student trains first, this starts with the second iteration. *)
Theorem C143_first_refuted : ~ C143_claim true.
Proof.
  intros H. destruct C143_example_first as (s & E & Ew). specialize (H _ s E). unfold view in H. rewrite Ew in H.
  apply (f_equal (fun x => hd 0 (snd (fst (fst x))))) in H. revert H. reals. lra.
Qed.
Theorem C143_dafl_refuted : ~ C143_dafl_claim.
Proof.
  intros H. specialize (H [1]). apply (f_equal (fun x => hd 0 (snd (fst (fst x))))) in H. revert H. reals. lra.
Qed.
(** Losses of the generator that do not depend on the student. *)
Example C143_example_ideal : exists s, train_run R R unit unit (fun z _ => z) demo_dS demo_logS (fun _ _ _ => vscale 0 [1]) demo_gG demo_logG demo_opt demo_opt true false [([1; 2], 3)] demo_state = Ok s /\ f_w _ _ s = [10 - 1 - 2].
Proof. eexists. split; [reals; reflexivity|]. reals. f_equal; lra. Qed.
Example C144_example : exists s, train_step R R unit unit (fun z _ => z) demo_dS demo_logS demo_gS demo_gG demo_logG demo_opt demo_opt true false ([1] ++ [2]) 3 demo_state = Ok (s, [("distill.loss", "s"); ("generator.loss", "g")]).
Proof. eexists. reals. reflexivity. Qed.
Example C144_example_dafl : snd (dafl_step R R unit unit (fun z _ => z) demo_dS demo_logS demo_gS demo_gG demo_logG demo_opt demo_opt true 3 demo_state) = [("generator.loss", "g"); ("distill.loss", "s")].
Proof. reals. reflexivity. Qed.
Example C144_example_none : train_step R R unit unit (fun z _ => z) demo_dS demo_logS demo_gS demo_gG demo_logG demo_opt demo_opt true false [] 3 demo_state = Raise GenericException.
Proof. reflexivity. Qed.

Print Assumptions C143_run_partial.
Print Assumptions C143_dafl_partial.
Print Assumptions C143_ideal_partial.
Print Assumptions C143_refuted.
Print Assumptions C143_first_refuted.
Print Assumptions C143_dafl_refuted.
Print Assumptions C144_rounds.
Print Assumptions C144_logs.
Print Assumptions C144_dafl.
