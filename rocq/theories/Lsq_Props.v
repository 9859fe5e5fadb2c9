(** C132: the modes of LearnableFakeQuantize. C133: the statistics behind its scale. *)
From Coq Require Import Reals Lra.
From Verif Require Import Prelude Lsq_Model.
Local Open Scope list_scope.
Local Open Scope R_scope.

(** ** Specification *)
(** Nothing but forward passes and steps of the optimizer. *)
Definition training (c : op) : Prop := match c with Forward _ | Step _ _ => True | _ => False end.
Definition inputs (ops : list op) : list tensor := flat_map (fun c => match c with Forward X => [X] | _ => [] end) ops.
(** Calls that say whether the parameters are learned. *)
Definition about_learning (c : op) : Prop := match c with EnableParamLearning | EnableStaticEstimate | EnableVal | EnableStaticObservation | ToggleLearning _ => True | _ => False end.
(** A tensor of [n] channels, none of them empty. *)
Definition channels (n : nat) (X : tensor) : Prop := length X = n /\ Forall (fun c => c <> []) X.
(** [v] is the least (greatest) of all values of a channel. *)
Definition is_least (Xs : list tensor) (c : nat) (v : R) : Prop := (exists X, In X Xs /\ In v (nth c X [])) /\ forall X x, In X Xs -> In x (nth c X []) -> v <= x.
Definition is_greatest (Xs : list tensor) (c : nat) (v : R) : Prop := (exists X, In X Xs /\ In v (nth c X [])) /\ forall X x, In X Xs -> In x (nth c X []) -> x <= v.

Section Modes.
Variable quant_max : R.
Variable zero_points : list R -> list R -> list R.
Variable fake : list R -> list R -> tensor -> tensor.
Variable eps : R.
Local Notation run := (run quant_max zero_points fake eps).
Local Notation step := (step quant_max zero_points fake eps).

Lemma run_app ops1 : forall s ops2, run s (ops1 ++ ops2) = do x <- run s ops1; do y <- run (fst x) ops2; Ok (fst y, snd x ++ snd y).
Proof.
  induction ops1 as [|c r IH]; intros s ops2; cbn [app Lsq_Model.run].
  - cbn [bind fst snd app]. destruct (run s ops2) as [[a b]|]; reflexivity.
  - destruct (step s c) as [[s1 o1]|]; cbn [bind fst snd]; [|reflexivity]. rewrite IH. destruct (run s1 r) as [[s2 o2]|]; cbn [bind fst snd]; [|reflexivity].
    destruct (run s2 ops2) as [[s3 o3]|]; cbn [bind fst snd]; [|reflexivity]. now rewrite app_assoc.
Qed.
(** Invariants of all states that can be reached. *)
Definition sound (s : lsq) : Prop := trainable s = false -> zero_point_grad s = false.
Lemma step_sound s c s' o : step s c = Ok (s', o) -> sound s -> sound s'.
Proof.
  unfold sound. intros H Hs. destruct c; cbn [Lsq_Model.step] in H; try (apply Ok_inj in H; injection H as <- <-; cbn; destruct (trainable s); intuition congruence).
  unfold forward in H. destruct (static_enabled s).
  - destruct (observe (obs s) X); cbn [bind] in H; [|discriminate]. destruct (observer_qparams _ _ _); cbn [bind] in H; [|discriminate]. apply Ok_inj in H. injection H as <- <-. exact Hs.
  - cbn [bind] in H. apply Ok_inj in H. injection H as <- <-. exact Hs.
Qed.
Lemma run_sound : forall ops s s' o, run s ops = Ok (s', o) -> sound s -> sound s'.
Proof.
  induction ops as [|c r IH]; intros s s' o H Hs; cbn in H; [apply Ok_inj in H; injection H as <- <-; exact Hs|].
  destruct (step s c) as [[s1 o1]|] eqn:E; cbn [bind fst snd] in H; [|discriminate]. destruct (run s1 r) as [[s2 o2]|] eqn:E2; cbn [bind fst snd] in H; [|discriminate]. apply Ok_inj in H. injection H as <- <-.
  apply (IH _ _ _ E2). exact (step_sound _ _ _ _ E Hs).
Qed.
Lemma reached tr before s o : run (init tr) before = Ok (s, o) -> sound s.
Proof. intros H. apply (run_sound _ _ _ _ H). intros E. exact E. Qed.

(** *** C132 *)
(** Validation: the quantizer neither observes nor learns, whatever happened before. *)
Theorem C132_val_partial tr before s o ops : run (init tr) before = Ok (s, o) -> Forall training ops -> Forall (fun v => eps <= v) (scale s) ->
  exists s', run s (EnableVal :: ops) = Ok (s', map (fake (scale s) (zero_point s)) (inputs ops)) /\ scale s' = scale s /\ zero_point s' = zero_point s /\ obs s' = obs s.
Proof.
  intros Hr Hops He. apply reached in Hr. cbn [Lsq_Model.run Lsq_Model.step bind fst snd app].
  set (s0 := enable_val s). assert (F : fake_quant_enabled s0 = true /\ static_enabled s0 = false /\ scale_grad s0 = false /\ zero_point_grad s0 = false).
  { unfold s0, enable_val. cbn. repeat split. unfold sound in Hr. destruct (trainable s); auto. }
  assert (K : scale s0 = scale s /\ zero_point s0 = zero_point s /\ obs s0 = obs s) by (unfold s0; cbn; auto). clearbody s0.
  assert (G : forall ops s0, Forall training ops -> fake_quant_enabled s0 = true /\ static_enabled s0 = false /\ scale_grad s0 = false /\ zero_point_grad s0 = false -> scale s0 = scale s /\ zero_point s0 = zero_point s /\ obs s0 = obs s ->
    exists s', run s0 ops = Ok (s', map (fake (scale s) (zero_point s)) (inputs ops)) /\ scale s' = scale s /\ zero_point s' = zero_point s /\ obs s' = obs s).
  { clear - He. induction ops as [|c r IH]; intros s0 Ht (F1 & F2 & F3 & F4) (K1 & K2 & K3).
    - exists s0. cbn. auto.
    - inversion Ht as [|? ? Hc Hr]; subst. destruct c; try destruct Hc; cbn [Lsq_Model.run Lsq_Model.step].
      + unfold forward. rewrite F2. cbn [bind fst snd fake_quant_enabled scale zero_point]. rewrite F1.
        assert (Em : map (Rmax eps) (scale s0) = scale s). { rewrite K1. clear - He. induction He as [|v l Hv _ IHl]; [reflexivity|]. cbn. rewrite IHl, (Rmax_right eps v Hv). reflexivity. }
        rewrite Em, K2. match goal with |- context [run ?x r] => destruct (IH x Hr) as (s' & -> & I) end; cbn; [auto|auto|]. cbn [bind fst snd]. exists s'. split; [reflexivity|exact I].
      + rewrite F3, F4. cbn [bind fst snd]. match goal with |- context [run ?x r] => destruct (IH x Hr) as (s' & -> & I) end; cbn; [auto|auto|]. exists s'. split; [reflexivity|exact I]. }
  destruct (G ops s0 Hops F K) as (s' & E & I). rewrite E. exists s'. split; [reflexivity|exact I].
Qed.
(** Learning: the observer sees nothing, and no forward pass uses a scale below eps. *)
Theorem C132_learning s ops : Forall training ops ->
  exists s' outs, run s (EnableParamLearning :: ops) = Ok (s', outs) /\ obs s' = obs s /\
    Forall2 (fun X y => exists sc z, y = fake sc z X /\ Forall (fun v => eps <= v) sc) (inputs ops) outs.
Proof.
  intros Hops. cbn [Lsq_Model.run Lsq_Model.step bind fst snd app]. set (s0 := enable_param_learning s).
  assert (F : fake_quant_enabled s0 = true /\ static_enabled s0 = false) by (unfold s0; cbn; auto). assert (K : obs s0 = obs s) by reflexivity. clearbody s0.
  assert (G : forall ops s0, Forall training ops -> fake_quant_enabled s0 = true /\ static_enabled s0 = false -> obs s0 = obs s ->
    exists s' outs, run s0 ops = Ok (s', outs) /\ obs s' = obs s /\ Forall2 (fun X y => exists sc z, y = fake sc z X /\ Forall (fun v => eps <= v) sc) (inputs ops) outs).
  { clear. induction ops as [|c r IH]; intros s0 Ht (F1 & F2) K.
    - exists s0, []. cbn. auto.
    - inversion Ht as [|? ? Hc Hr]; subst. destruct c; try destruct Hc; cbn [Lsq_Model.run Lsq_Model.step].
      + unfold forward. rewrite F2. cbn [bind fst snd fake_quant_enabled scale zero_point]. rewrite F1.
        match goal with |- context [run ?x r] => destruct (IH x Hr) as (s' & outs & -> & I1 & I2) end; cbn; [auto|auto|]. do 2 eexists. split; [reflexivity|]. split; [exact I1|]. constructor; [|exact I2].
        do 2 eexists. split; [reflexivity|]. clear. induction (scale s0); cbn; constructor; auto. apply Rmax_l.
      + cbn [bind fst snd]. match goal with |- context [run ?x r] => destruct (IH x Hr) as (s' & outs & -> & I1 & I2) end; cbn; [auto|auto|]. exists s', outs. auto. }
  destruct (G ops s0 Hops F K) as (s' & outs & E & I). rewrite E. exists s', outs. split; [reflexivity|exact I].
Qed.
(** Observation: the outputs are the inputs. *)
Theorem C132_observation_partial s ops s' outs : Forall training ops -> run s (EnableStaticObservation :: ops) = Ok (s', outs) -> outs = inputs ops.
Proof.
  intros Hops H. cbn [Lsq_Model.run Lsq_Model.step bind fst snd app] in H. set (s0 := enable_static_observation s) in H.
  assert (F : fake_quant_enabled s0 = false) by reflexivity. clearbody s0. destruct (run s0 ops) as [[s1 o1]|] eqn:E; [|discriminate]. apply Ok_inj in H. cbn in H. injection H as <- <-.
  revert s0 s1 o1 F E. induction ops as [|c r IH]; intros s0 s1 o1 F E; cbn in E; [apply Ok_inj in E; injection E as _ <-; reflexivity|].
  inversion Hops as [|? ? Hc Hr]; subst. destruct (step s0 c) as [[s2 o2]|] eqn:Es; cbn [bind fst snd] in E; [|discriminate]. destruct (run s2 r) as [[s3 o3]|] eqn:E3; cbn [bind fst snd] in E; [|discriminate].
  apply Ok_inj in E. injection E as <- <-. 
  assert (G : fake_quant_enabled s2 = false /\ o2 = match c with Forward X => [X] | _ => [] end).
  { destruct c; try destruct Hc; cbn [Lsq_Model.step] in Es.
    - unfold forward in Es. destruct (static_enabled s0).
      + destruct (observe (obs s0) X); cbn [bind] in Es; [|discriminate]. destruct (observer_qparams _ _ _); cbn [bind] in Es; [|discriminate]. apply Ok_inj in Es. injection Es as <- <-. cbn. rewrite F. auto.
      + cbn [bind] in Es. apply Ok_inj in Es. injection Es as <- <-. cbn. rewrite F. auto.
    - apply Ok_inj in Es. injection Es as <- <-. cbn. auto. }
  destruct G as [G1 ->]. cbn [inputs flat_map]. f_equal. exact (IH Hr s2 s3 o3 G1 E3).
Qed.
(** Gradients are required if and only if learning is on, once any method has said so. *)
Theorem C132_gradients_partial tr ops s o : run (init tr) ops = Ok (s, o) -> Exists about_learning ops ->
  scale_grad s = learning_enabled s /\ zero_point_grad s = (tr && learning_enabled s)%bool.
Proof.
  assert (S1 : forall c s s' o, step s c = Ok (s', o) -> trainable s' = trainable s /\ (about_learning c -> sound s -> scale_grad s' = learning_enabled s' /\ zero_point_grad s' = (trainable s && learning_enabled s')%bool) /\
     (~ about_learning c -> scale_grad s' = scale_grad s /\ zero_point_grad s' = zero_point_grad s /\ learning_enabled s' = learning_enabled s)).
  { clear. intros c s s' o H. unfold sound. destruct c; cbn [Lsq_Model.step] in H; try (apply Ok_inj in H; injection H as <- <-; cbn; destruct (trainable s); intuition auto).
    unfold forward in H. destruct (static_enabled s).
    - destruct (observe (obs s) X); cbn [bind] in H; [|discriminate]. destruct (observer_qparams _ _ _); cbn [bind] in H; [|discriminate]. apply Ok_inj in H. injection H as <- <-. cbn. intuition auto.
    - cbn [bind] in H. apply Ok_inj in H. injection H as <- <-. cbn. intuition auto. }
  assert (D : forall c, about_learning c \/ ~ about_learning c) by (intros []; cbn; auto).
  assert (G : forall ops s s' o, run s ops = Ok (s', o) -> sound s -> trainable s' = trainable s /\
     (Exists about_learning ops \/ (scale_grad s = learning_enabled s /\ zero_point_grad s = (trainable s && learning_enabled s)%bool) -> scale_grad s' = learning_enabled s' /\ zero_point_grad s' = (trainable s && learning_enabled s')%bool)).
  { clear - S1 D. induction ops as [|c r IH]; intros s s' o H Hs; cbn in H.
    - apply Ok_inj in H. injection H as <- <-. split; [reflexivity|]. intros [H|H]; [inversion H|exact H].
    - destruct (step s c) as [[s1 o1]|] eqn:E; cbn [bind fst snd] in H; [|discriminate]. destruct (run s1 r) as [[s2 o2]|] eqn:E2; cbn [bind fst snd] in H; [|discriminate]. apply Ok_inj in H. injection H as <- <-.
      destruct (S1 c s s1 o1 E) as (T & A & N). destruct (IH s1 s2 o2 E2 (step_sound _ _ _ _ E Hs)) as [T2 I]. rewrite T in *. split; [exact T2|]. intros H. apply I.
      destruct (D c) as [Dc|Dc]; [right; apply A; assumption|]. destruct (N Dc) as (N1 & N2 & N3). rewrite N1, N2, N3. destruct H as [H|H]; [|auto]. inversion H as [? ? H1|? ? H1]; subst; [easy|auto]. }
  intros H Hex. assert (Hs : sound (init tr)) by (intros E; exact E). destruct (G ops (init tr) s o H Hs) as [_ I]. exact (I (or_introl Hex)).
Qed.

(** *** C133 *)
Lemma fold_min : forall l a, (In (fold_left Rmin l a) (a :: l)) /\ forall x, In x (a :: l) -> fold_left Rmin l a <= x.
Proof.
  induction l as [|b l IH]; intros a; cbn [fold_left].
  - split; [left; reflexivity|]. intros x [<-|[]]. lra.
  - destruct (IH (Rmin a b)) as [I1 I2]. split.
    + destruct I1 as [E|I1]; [|right; right; exact I1]. rewrite <- E. unfold Rmin. destruct (Rle_dec a b); [left|right; left]; reflexivity.
    + intros x [<-|[<-|Hx]]; [| |apply I2; right; exact Hx].
      * eapply Rle_trans; [apply I2; left; reflexivity|apply Rmin_l].
      * eapply Rle_trans; [apply I2; left; reflexivity|apply Rmin_r].
Qed.
Lemma fold_max : forall l a, (In (fold_left Rmax l a) (a :: l)) /\ forall x, In x (a :: l) -> x <= fold_left Rmax l a.
Proof.
  induction l as [|b l IH]; intros a; cbn [fold_left].
  - split; [left; reflexivity|]. intros x [<-|[]]. lra.
  - destruct (IH (Rmax a b)) as [I1 I2]. split.
    + destruct I1 as [E|I1]; [|right; right; exact I1]. rewrite <- E. unfold Rmax. destruct (Rle_dec a b); [right; left|left]; reflexivity.
    + intros x [<-|[<-|Hx]]; [| |apply I2; right; exact Hx].
      * eapply Rle_trans; [apply Rmax_l|apply I2; left; reflexivity].
      * eapply Rle_trans; [apply Rmax_r|apply I2; left; reflexivity].
Qed.
Lemma least_spec l : l <> [] -> In (least l) l /\ forall x, In x l -> least l <= x.
Proof. destruct l as [|a l]; [easy|]. intros _. apply fold_min. Qed.
Lemma greatest_spec l : l <> [] -> In (greatest l) l /\ forall x, In x l -> x <= greatest l.
Proof. destruct l as [|a l]; [easy|]. intros _. apply fold_max. Qed.
Lemma zip_spec f : forall a b, length a = length b -> exists r, zip f a b = Ok r /\ length r = length a /\ forall c, (c < length a)%nat -> nth c r 0 = f (nth c a 0) (nth c b 0).
Proof.
  induction a as [|x a IH]; intros [|y b] L; try discriminate; cbn [zip]; [exists []; cbn; repeat split; lia|]. injection L as L. destruct (IH b L) as (r & -> & Lr & Hr). cbn [bind]. exists (f x y :: r).
  cbn [length]. split; [reflexivity|]. split; [lia|]. intros [|c] Hc; [reflexivity|]. cbn. apply Hr. lia.
Qed.
Lemma channels_numel n X : (0 < n)%nat -> channels n X -> Nat.eqb (numel X) 0 = false.
Proof. intros Hn [L F]. apply Nat.eqb_neq. unfold numel. destruct X as [|c X]; [cbn in L; lia|]. inversion F; subst. destruct c; [easy|]. cbn. lia. Qed.
Lemma nth_channel n X c : channels n X -> (c < n)%nat -> nth c X [] <> [].
Proof. intros [L F] Hc. rewrite Forall_forall in F. apply F, nth_In. lia. Qed.
(** What the observer knows after the batches [Xs]. *)
Definition knows (n : nat) (Xs : list tensor) (o : observer) : Prop :=
  length (o_min o) = n /\ length (o_max o) = n /\ forall c, (c < n)%nat -> is_least Xs c (nth c (o_min o) 0) /\ is_greatest Xs c (nth c (o_max o) 0).
Lemma least_nth n X c : channels n X -> (c < n)%nat -> nth c (map least X) 0 = least (nth c X []).
Proof. intros [L _] Hc. change 0 with (least []). apply map_nth. Qed.
Lemma greatest_nth n X c : channels n X -> (c < n)%nat -> nth c (map greatest X) 0 = greatest (nth c X []).
Proof. intros [L _] Hc. change 0 with (greatest []). apply map_nth. Qed.
Lemma observe_first n X o : (0 < n)%nat -> channels n X -> o_min o = [] -> exists o', observe o X = Ok o' /\ knows n [X] o' /\ o_norm o' = Some (map mean_abs X).
Proof.
  intros Hn Hc E. unfold observe. rewrite (channels_numel n X Hn Hc), E. cbn [bind]. eexists. split; [reflexivity|]. split; [|reflexivity]. unfold knows. cbn [o_min o_max]. rewrite !map_length. destruct Hc as [L F]. split; [exact L|]. split; [exact L|].
  intros c Hc. rewrite (least_nth n X c (conj L F) Hc), (greatest_nth n X c (conj L F) Hc). destruct (least_spec _ (nth_channel n X c (conj L F) Hc)) as [A1 A2]. destruct (greatest_spec _ (nth_channel n X c (conj L F) Hc)) as [B1 B2].
  split; (split; [exists X; split; [left; reflexivity|assumption]|intros Y x [<-|[]]; auto]).
Qed.
Lemma observe_next n X Xs o : (0 < n)%nat -> channels n X -> knows n Xs o -> exists o', observe o X = Ok o' /\ knows n (Xs ++ [X]) o' /\ o_norm o' = Some (map mean_abs X).
Proof.
  intros Hn Hc (L1 & L2 & K). unfold observe. rewrite (channels_numel n X Hn Hc). destruct (o_min o) as [|m1 ms] eqn:Em; [cbn in L1; lia|]. destruct (o_max o) as [|x1 xs] eqn:Ex; [cbn in L2; lia|]. rewrite <- Em, <- Ex in *.
  assert (Lx := proj1 Hc). destruct (zip_spec Rmin (map least X) (o_min o)) as (lo & Elo & Llo & Hlo); [rewrite map_length; lia|]. destruct (zip_spec Rmax (map greatest X) (o_max o)) as (hi & Ehi & Lhi & Hhi); [rewrite map_length; lia|].
  rewrite Em in *. rewrite Ex in *. rewrite Elo. cbn [bind]. rewrite Ehi. cbn [bind]. rewrite <- Em in *. rewrite <- Ex in *. eexists. split; [reflexivity|]. split; [|reflexivity]. unfold knows. cbn [o_min o_max]. rewrite map_length in *. split; [lia|]. split; [lia|].
  intros c Hlt. rewrite Hlo, Hhi by lia. rewrite (least_nth n X c Hc Hlt), (greatest_nth n X c Hc Hlt).
  destruct (least_spec _ (nth_channel n X c Hc Hlt)) as [A1 A2]. destruct (greatest_spec _ (nth_channel n X c Hc Hlt)) as [B1 B2]. destruct (K c Hlt) as [[(Y & Y1 & Y2) Y3] [(Z0 & Z1 & Z2) Z3]]. split; split.
  - unfold Rmin. destruct (Rle_dec _ _); [exists X; split; [apply in_app_iff; right; left; reflexivity|exact A1]|exists Y; split; [apply in_app_iff; auto|exact Y2]].
  - intros W w HW Hw. apply in_app_iff in HW as [HW|[<-|[]]]; [eapply Rle_trans; [apply Rmin_r|exact (Y3 W w HW Hw)]|eapply Rle_trans; [apply Rmin_l|exact (A2 w Hw)]].
  - unfold Rmax. destruct (Rle_dec _ _); [exists Z0; split; [apply in_app_iff; auto|exact Z2]|exists X; split; [apply in_app_iff; right; left; reflexivity|exact B1]].
  - intros W w HW Hw. apply in_app_iff in HW as [HW|[<-|[]]]; [eapply Rle_trans; [exact (Z3 W w HW Hw)|apply Rmax_r]|eapply Rle_trans; [exact (B2 w Hw)|apply Rmax_l]].
Qed.
(** After static estimates over any batches, the bounds are those of all the data; the scale is that of
    the last batch alone, and the outputs use the parameters of their own time. *)
Theorem C133_statistics_partial tr n Xs X : (0 < n)%nat -> Forall (channels n) (Xs ++ [X]) ->
  exists s outs, run (init tr) (EnableStaticEstimate :: map Forward (Xs ++ [X])) = Ok (s, outs ++ [fake (scale s) (zero_point s) X]) /\
    length (o_min (obs s)) = n /\ length (o_max (obs s)) = n /\
    (forall c, (c < n)%nat -> is_least (Xs ++ [X]) c (nth c (o_min (obs s)) 0) /\ is_greatest (Xs ++ [X]) c (nth c (o_max (obs s)) 0)) /\
    scale s = map (fun ch => 2 * mean_abs ch / sqrt quant_max) X /\ zero_point s = zero_points (o_min (obs s)) (o_max (obs s)).
Proof.
  intros Hn Hf. cbn [Lsq_Model.run Lsq_Model.step bind fst snd app]. set (s0 := enable_static_estimate (init tr)).
  assert (I0 : static_enabled s0 = true /\ fake_quant_enabled s0 = true /\ o_min (obs s0) = []) by (cbn; auto). clearbody s0.
  assert (G : forall Xs s0 Ys, (Ys = [] /\ o_min (obs s0) = [] \/ knows n Ys (obs s0)) -> static_enabled s0 = true -> fake_quant_enabled s0 = true -> Forall (channels n) Xs -> forall X, channels n X ->
    exists s outs, run s0 (map Forward (Xs ++ [X])) = Ok (s, outs ++ [fake (scale s) (zero_point s) X]) /\ knows n (Ys ++ Xs ++ [X]) (obs s) /\ scale s = map (fun ch => 2 * mean_abs ch / sqrt quant_max) X /\ zero_point s = zero_points (o_min (obs s)) (o_max (obs s))).
  { clear - Hn. intros Xs. induction Xs as [|Y Xs IH]; intros s0 Ys K St Fk Hf X HX; cbn [app map Lsq_Model.run Lsq_Model.step].
    - assert (O : exists o', observe (obs s0) X = Ok o' /\ knows n (Ys ++ [X]) o' /\ o_norm o' = Some (map mean_abs X)) by (destruct K as [[-> K]|K]; [apply observe_first; assumption|apply observe_next; assumption]).
      destruct O as (o' & E & Kn & Nm). unfold forward. rewrite St, E. cbn [bind]. unfold observer_qparams. rewrite Nm. cbn [bind fst snd fake_quant_enabled scale zero_point]. rewrite Fk.
      match goal with |- exists _ _, Ok (?a, _) = _ /\ _ => exists a, [] end. cbn [app obs scale zero_point]. split; [reflexivity|]. split; [exact Kn|]. split; [apply map_map|reflexivity].
    - inversion Hf as [|? ? HY Hf']; subst.
      assert (O : exists o', observe (obs s0) Y = Ok o' /\ knows n (Ys ++ [Y]) o' /\ o_norm o' = Some (map mean_abs Y)) by (destruct K as [[-> K]|K]; [apply observe_first; assumption|apply observe_next; assumption]).
      destruct O as (o' & E & Kn & Nm). unfold forward. rewrite St, E. cbn [bind]. unfold observer_qparams. rewrite Nm. cbn [bind fst snd fake_quant_enabled scale zero_point].
      match goal with |- context [run ?x (map Forward _)] => destruct (IH x (Ys ++ [Y]) (or_intror Kn) eq_refl Fk Hf' X HX) as (s & outs & -> & Ks & Es & Ez) end.
      cbn [bind fst snd]. match goal with |- exists _ _, Ok (_, [?a] ++ _) = _ /\ _ => exists s, (a :: outs) end. split; [reflexivity|]. rewrite <- app_assoc in Ks. auto. }
  apply Forall_app in Hf as [Hf HX]. inversion HX; subst. destruct I0 as (A & B & C). destruct (G Xs s0 [] (or_introl (conj eq_refl C)) A B Hf X) as (s & outs & E & (K1 & K2 & K3) & Es & Ez); [assumption|].
  rewrite E. exists s, outs. cbn [bind fst snd]. auto 10.
Qed.
(** A scale is never negative, and zero exactly for a channel of zeros. *)
Lemma sum_abs l : 0 <= fold_right Rplus 0 (map Rabs l) /\ (fold_right Rplus 0 (map Rabs l) = 0 <-> Forall (fun x => x = 0) l).
Proof.
  induction l as [|x l [I1 I2]]; cbn; [split; [lra|split; auto]|]. assert (A := Rabs_pos x). split; [lra|]. split.
  - intros H. assert (Rabs x = 0) by lra. constructor; [destruct (Req_dec x 0); [assumption|exfalso; apply (Rabs_no_R0 x); assumption]|apply I2; lra].
  - intros H. inversion H; subst. rewrite Rabs_R0. apply I2 in H3. lra.
Qed.
Theorem C133_scale_partial ch : 0 < quant_max -> ch <> [] -> 0 <= 2 * mean_abs ch / sqrt quant_max /\ (2 * mean_abs ch / sqrt quant_max = 0 <-> Forall (fun x => x = 0) ch).
Proof.
  intros Hq Hc. assert (Sq := sqrt_lt_R0 quant_max Hq). assert (L : 0 < INR (length ch)) by (destruct ch; [easy|]; apply lt_0_INR; cbn; lia).
  destruct (sum_abs ch) as [A B]. unfold mean_abs.
  assert (P : 0 < 2 * / INR (length ch) * / sqrt quant_max) by (repeat apply Rmult_lt_0_compat; try lra; apply Rinv_0_lt_compat; assumption).
  replace (2 * (fold_right Rplus 0 (map Rabs ch) / INR (length ch)) / sqrt quant_max) with (fold_right Rplus 0 (map Rabs ch) * (2 * / INR (length ch) * / sqrt quant_max)) by (unfold Rdiv; ring).
  split; [apply Rmult_le_pos; lra|]. rewrite <- B. split; [|intros ->; apply Rmult_0_l]. intros H. apply Rmult_integral in H as [H|H]; [exact H|lra].
Qed.
End Modes.

(** ** What the documentation says, and where it does not hold *)
Definition z0 (lo hi : list R) : list R := map (fun _ => 0) lo.
Definition fk (sc z : list R) (X : tensor) : tensor := X ++ [sc].
Local Notation run1 := (run 4 z0 fk 1).
Lemma root4 : sqrt 4 = 2.
Proof. replace 4 with (2 * 2) by lra. apply sqrt_square. lra. Qed.
Lemma one_batch x tr : run1 (init tr) [EnableStaticEstimate; Forward [[x]]] =
  Ok (Lsq [2 * mean_abs [x] / sqrt 4] [0] tr true true false false (if tr then false else tr) (Observer [x] [x] (Some [mean_abs [x]])), [[[x]; [2 * mean_abs [x] / sqrt 4]]]).
Proof. reflexivity. Qed.
Lemma mean_one x : 2 * mean_abs [x] / sqrt 4 = Rabs x.
Proof. rewrite root4. unfold mean_abs. cbn. lra. Qed.
(** [enable_static_observation] "doesn't update the quantization parameters". *)
Definition C132_observation_claim : Prop := forall tr before s o ops s' outs, run1 (init tr) before = Ok (s, o) -> Forall training ops ->
  run1 s (EnableStaticObservation :: ops) = Ok (s', outs) -> scale s' = scale s /\ zero_point s' = zero_point s.
Theorem C132_observation_refuted : ~ C132_observation_claim.
Proof.
  intros H. destruct (H false [] (init false) [] [Forward [[5]]] (Lsq [2 * mean_abs [5] / sqrt 4] [0] false false true false false false (Observer [5] [5] (Some [mean_abs [5]]))) [[[5]]]) as [E _].
  - reflexivity.
  - repeat constructor.
  - reflexivity.
  - cbn [scale init] in E. injection E as E. rewrite mean_one, Rabs_pos_eq in E; lra.
Qed.
(** [enable_val] "doesn't update the quantization parameters". *)
Definition C132_val_claim : Prop := forall tr before s o ops s' outs, run1 (init tr) before = Ok (s, o) -> Forall training ops ->
  run1 s (EnableVal :: ops) = Ok (s', outs) -> scale s' = scale s /\ zero_point s' = zero_point s.
Theorem C132_val_refuted : ~ C132_val_claim.
Proof.
  intros H. destruct (H false [Step [0] [0]] (Lsq [0] [0] false true true false true false (Observer [] [] None)) [] [Forward [[5]]] (Lsq [Rmax 1 0] [0] false true false false false false (Observer [] [] None)) [[[5]; [Rmax 1 0]]]) as [E _].
  - reflexivity.
  - repeat constructor.
  - reflexivity.
  - cbn [scale] in E. injection E as E. unfold Rmax in E. destruct (Rle_dec 1 0); lra.
Qed.
(** A module that is not to learn does not require gradients: not so for a new one. *)
Theorem C132_gradients_refuted : ~ (forall tr ops s o, run1 (init tr) ops = Ok (s, o) -> scale_grad s = learning_enabled s).
Proof. intros H. specialize (H false [] (init false) [] eq_refl). discriminate. Qed.
(** [_calculate_scale]: "computed on either the initial weights values or the first batch of activations". *)
Definition C133_first_claim : Prop := forall tr X Xs s outs, Forall (channels 1) (X :: Xs) -> run1 (init tr) (EnableStaticEstimate :: map Forward (X :: Xs)) = Ok (s, outs) ->
  scale s = map (fun ch => 2 * mean_abs ch / sqrt 4) X.
Theorem C133_first_refuted : ~ C133_first_claim.
Proof.
  intros H. specialize (H false [[1]] [[[3]]]). eassert (E := H _ _ _ eq_refl). cbn [scale map] in E. injection E as E. rewrite !mean_one, !Rabs_pos_eq in E; lra.
  Unshelve. repeat constructor; discriminate.
Qed.
(** No division by a scale below eps: not so while the scale is estimated. *)
Definition C133_positive_claim : Prop := forall tr ops s outs, run1 (init tr) ops = Ok (s, outs) -> (exists X, last ops EnableVal = Forward X) -> Forall (fun v => 1 <= v) (scale s).
Theorem C133_positive_refuted : ~ C133_positive_claim.
Proof. intros H. specialize (H false [EnableStaticEstimate; Forward [[0]]] _ _ (one_batch 0 false)). cbn [scale] in H. rewrite mean_one, Rabs_R0 in H. assert (A : Forall (fun v => 1 <= v) [0]) by (apply H; eexists; reflexivity). inversion A; lra. Qed.
(** An input without elements is let through by the observer, but not by the quantizer if it is the first. *)
Theorem C133_empty_refuted : ~ (forall tr ops, Forall training ops -> exists r, run1 (init tr) (EnableStaticEstimate :: ops) = Ok r).
Proof. intros H. destruct (H false [Forward [[]]]) as (r & E); [repeat constructor|]. discriminate E. Qed.

(** ** Examples *)
(** Estimate with a batch, validate with two others: the scale of the first batch is kept. *)
Example C132_val_ex : exists s, run1 (init false) [EnableStaticEstimate; Forward [[5]]] = Ok (s, [[[5]; [5]]]) /\ Forall (fun v => 1 <= v) (scale s) /\
  exists s', run1 s [EnableVal; Forward [[7]]; Step [100] [100]; Forward [[8]]] = Ok (s', [[[7]; [5]]; [[8]; [5]]]).
Proof.
  eexists. split; [rewrite one_batch, mean_one, Rabs_pos_eq by lra; reflexivity|]. split; [repeat constructor; lra|].
  destruct (C132_val_partial 4 z0 fk 1 false [EnableStaticEstimate; Forward [[5]]] (Lsq [5] [0] false true true false false false (Observer [5] [5] (Some [mean_abs [5]]))) [[[5]; [5]]] [Forward [[7]]; Step [100] [100]; Forward [[8]]]) as (s' & E & _).
  - rewrite one_batch, mean_one, Rabs_pos_eq by lra. reflexivity.
  - repeat constructor.
  - repeat constructor; cbn; lra.
  - exists s'. exact E.
Qed.
Example C132_learning_ex : exists s' outs, run1 (init true) [EnableParamLearning; Step [0] [3]; Forward [[7]]] = Ok (s', outs) /\ scale s' = [1] /\ zero_point s' = [3].
Proof. do 2 eexists. split; [reflexivity|]. split; [|reflexivity]. assert (E : Rmax 1 0 = 1) by (apply Rmax_left; lra). change ([Rmax 1 0] = [1]). now rewrite E. Qed.
Example C132_observation_ex : exists s', run1 (init true) [EnableStaticObservation; Forward [[7]]] = Ok (s', [[[7]]]).
Proof. eexists. reflexivity. Qed.
Example C132_gradients_ex : exists s o, run1 (init true) [EnableParamLearning; ToggleObserver true] = Ok (s, o) /\ Exists about_learning [EnableParamLearning; ToggleObserver true] /\ zero_point_grad s = true.
Proof. do 2 eexists. split; [reflexivity|]. split; [left; exact I|reflexivity]. Qed.
Example C133_ex : Forall (channels 2) [[[1; -3]; [2; 2]]; [[0; 1]; [5; 4]]] /\ 2 * mean_abs [5; 3] / sqrt 4 = 4.
Proof. split; [repeat constructor; discriminate|]. rewrite root4. unfold mean_abs. cbn. rewrite !Rabs_pos_eq by lra. lra. Qed.
Print Assumptions C132_val_partial.
Print Assumptions C132_learning.
Print Assumptions C132_observation_partial.
Print Assumptions C132_gradients_partial.
Print Assumptions C132_observation_refuted.
Print Assumptions C132_val_refuted.
Print Assumptions C132_gradients_refuted.
Print Assumptions C133_statistics_partial.
Print Assumptions C133_scale_partial.
Print Assumptions C133_first_refuted.
Print Assumptions C133_positive_refuted.
Print Assumptions C133_empty_refuted.
