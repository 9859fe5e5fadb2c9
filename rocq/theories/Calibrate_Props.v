(** C38. *)
From Verif Require Import Prelude Calibrate_Model Dynamic_Model Dynamic_Lemmas.
From Coq Require Import Qfield.
Open Scope Z_scope.

(** ** Specification *)
(** Number of samples and weighted sum of one statistic over what a layer sees. *)
Definition tsize (O : list obs) : Z := fold_right Z.add 0 (map o_size O).
Definition wsum (f : obs -> list Q) (c : nat) (O : list obs) : Q := fold_right Qplus 0%Q (map (fun o => inject_Z (o_size o) * nth c (f o) 0)%Q O).
(** [used] are the batches [xs], in order, up to [n] samples: whole batches, then a beginning of
    the next one. *)
Definition first_samples {T} (n : Z) (xs used : list (list T)) : Prop :=
  concat used = firstn (Z.to_nat n) (concat xs) /\
  exists k, used = firstn k xs \/ exists j b, nth_error xs k = Some b /\ used = firstn k xs ++ [firstn j b].
(** What layer [i] sees of them. *)
Definition seen {T} (observe : list T -> nat -> list obs) (used : list (list T)) (i : nat) : list obs := concat (map (fun u => observe u i) used).

(** ** Meters *)
Lemma vscale_nth k v c : nth c (vscale k v) 0%Q == (nth c v 0 * k)%Q.
Proof. unfold vscale. revert c. induction v as [|x v IH]; intros [|c]; cbn [map nth]; try ring; try reflexivity. apply IH. Qed.
Lemma vadd_nth u v c : length u = length v -> nth c (vadd u v) 0%Q == (nth c u 0 + nth c v 0)%Q.
Proof. unfold vadd. revert v c. induction u as [|x u IH]; intros [|y v] [|c] H; try discriminate H; cbn [combine map nth fst snd]; try ring; try reflexivity. apply IH. injection H as H. exact H. Qed.
Lemma vadd_length u v : length u = length v -> length (vadd u v) = length v.
Proof. intros H. unfold vadd. rewrite map_length, combine_length. lia. Qed.
Lemma vscale_length k v : length (vscale k v) = length v. Proof. apply map_length. Qed.

Definition tracks (f : obs -> list Q) (d : nat) (O : list obs) (m : meter) : Prop :=
  m_count m = tsize O /\
  match O with
  | [] => m = meter0
  | _ => exists s, m_sum m = Some s /\ length s = d /\ (forall c, nth c s 0%Q == wsum f c O) /\ m_avg m = Some (vscale (/ inject_Z (m_count m))%Q s)
  end.
Lemma tsize_app O P : tsize (O ++ P) = tsize O + tsize P.
Proof. unfold tsize. induction O as [|o O IH]; cbn; [reflexivity|]. unfold tsize in *. lia. Qed.
Lemma wsum_app f c O P : wsum f c (O ++ P) == (wsum f c O + wsum f c P)%Q.
Proof. unfold wsum. induction O as [|o O IH]; cbn; [ring|]. rewrite IH. ring. Qed.
Lemma tracks_update f d O m o : tracks f d O m -> length (f o) = d -> tracks f d (O ++ [o]) (update m (f o) (o_size o)).
Proof.
  intros [HC HM] Hd. split.
  - cbn [update m_count]. rewrite HC, tsize_app. unfold tsize. cbn. lia.
  - destruct O as [|o0 O]; cbn [app].
    + subst m. cbn [update m_sum meter0 m_avg m_count]. eexists. split; [reflexivity|]. split; [rewrite vscale_length; exact Hd|]. split; [|reflexivity].
      intros c. rewrite vscale_nth. unfold wsum. cbn. ring.
    + destruct HM as (s & Es & Ls & Ns & _). unfold update. rewrite Es. cbn [m_sum m_avg m_count]. eexists. split; [reflexivity|].
      split; [rewrite vadd_length; rewrite ?vscale_length; congruence|]. split; [|reflexivity].
      intros c. rewrite vadd_nth by (rewrite vscale_length; congruence). rewrite Ns, vscale_nth. change (o0 :: O ++ [o]) with ((o0 :: O) ++ [o]). rewrite wsum_app. unfold wsum at 3. cbn. ring.
Qed.
Lemma tracks_avg f d O m : tracks f d O m -> O <> [] ->
  exists a, m_avg m = Some a /\ length a = d /\ forall c, nth c a 0%Q == (wsum f c O / inject_Z (tsize O))%Q.
Proof.
  intros [HC HM] NE. destruct O as [|o O]; [congruence|]. destruct HM as (s & Es & Ls & Ns & Ea). exists (vscale (/ inject_Z (m_count m))%Q s). split; [exact Ea|]. split; [rewrite vscale_length; exact Ls|].
  intros c. rewrite vscale_nth, Ns, HC. reflexivity.
Qed.

(** ** The loop *)
Section C38.
  Variable S : Type.
  Variable observe : list S -> nat -> list obs.
  Variable momentum : nat -> list Q -> list Q -> list Q.
  Notation hook := (hook momentum).
  Lemma forward_nth xs ls k i : nth_error (forward_from S observe momentum xs k ls) i = option_map (forward_layer S observe momentum xs (k + i)) (nth_error ls i).
  Proof.
    revert k i. induction ls as [|l ls IH]; intros k [|i]; cbn [forward_from nth_error option_map]; try reflexivity; [rewrite Nat.add_0_r; reflexivity|].
    rewrite IH. do 2 f_equal. lia.
  Qed.
  Lemma py_prefix_firstn {T} n (l : list T) : 0 <= n -> py_prefix n l = firstn (Z.to_nat n) l.
  Proof.
    intros H. unfold py_prefix, slice_stop. rewrite (proj2 (Z.ltb_ge n 0)) by lia. destruct (Nat.le_ge_cases (length l) (Z.to_nat n)).
    - rewrite Nat.min_l by lia. rewrite firstn_all, firstn_all2 by lia. reflexivity.
    - rewrite Nat.min_r by lia. reflexivity.
  Qed.
  Lemma loop_spec xs : forall n ls, 0 < n -> exists used ls', first_samples n xs used /\ loop S observe momentum n (map (TensorBatch S) xs) ls = Ok ls' /\
    forall i, nth_error ls' i = option_map (fun l => fold_left (hook i) (seen observe used i) l) (nth_error ls i).
  Proof.
    induction xs as [|x xs IH]; intros n ls Hn; cbn [map loop].
    - exists [], ls. split; [split; [rewrite firstn_nil; reflexivity|exists 0%nat; left; reflexivity]|]. split; [reflexivity|]. intros i. cbn. destruct (nth_error ls i); reflexivity.
    - unfold cut_batch. cbn [batch_len]. destruct (Z.geb_spec (Z.of_nat (length x)) n) as [H|H].
      + cbn [bind inputs]. rewrite py_prefix_firstn by lia. rewrite firstn_length_le by lia. rewrite (proj2 (Z.leb_le _ _)) by lia.
        exists [firstn (Z.to_nat n) x]. eexists. split.
        { split; [cbn; rewrite app_nil_r, firstn_app; replace (Z.to_nat n - length x)%nat with 0%nat by lia; cbn; rewrite app_nil_r; reflexivity|]. exists 0%nat. right. exists (Z.to_nat n), x. split; reflexivity. }
        split; [reflexivity|]. intros i. rewrite forward_nth. unfold seen. cbn [map concat Nat.add]. rewrite app_nil_r. reflexivity.
      + cbn [bind inputs]. rewrite (proj2 (Z.leb_gt _ _)) by lia. destruct (IH (n - Z.of_nat (length x)) (forward_from S observe momentum x 0 ls)) as (used & ls' & [F1 (k & F2)] & E & N); [lia|].
        exists (x :: used), ls'. split.
        { split; [cbn [concat]; rewrite F1, firstn_app, (firstn_all2 x) by lia; do 2 f_equal; lia|]. exists (1 + k)%nat. destruct F2 as [->|(j & b & Eb & ->)]; [left; reflexivity|right]. exists j, b. split; [exact Eb|reflexivity]. }
        split; [exact E|]. intros i. rewrite N, forward_nth. cbn [Nat.add]. unfold seen. cbn [map concat]. destruct (nth_error ls i); cbn [option_map]; [|reflexivity]. rewrite fold_left_app. reflexivity.
  Qed.
  Lemma hooks_track i d e O : forall l P, tracks o_mean d P (l_mm l) -> tracks o_var e P (l_vm l) ->
    Forall (fun o => length (o_mean o) = d /\ length (o_var o) = e) O ->
    tracks o_mean d (P ++ O) (l_mm (fold_left (hook i) O l)) /\ tracks o_var e (P ++ O) (l_vm (fold_left (hook i) O l)).
  Proof.
    induction O as [|o O IH]; intros l P HM HV F; cbn [fold_left]; [rewrite app_nil_r; auto|]. apply Forall_cons_iff in F as [[F1 F2] F].
    change (o :: O) with ([o] ++ O). rewrite app_assoc. apply IH; [| |exact F]; cbn [Calibrate_Model.hook l_mm l_vm]; apply tracks_update; assumption.
  Qed.
  Lemma hooks_lengths i O : (forall r b, length (momentum i r b) = length r) -> forall l,
    length (l_mean (fold_left (hook i) O l)) = length (l_mean l) /\ length (l_var (fold_left (hook i) O l)) = length (l_var l).
  Proof. intros H. induction O as [|o O IH]; intros l; cbn [fold_left]; [auto|]. destruct (IH (hook i l o)) as [-> ->]. cbn. rewrite !H. auto. Qed.
  Lemma mapM_nth {A B} (f : A -> outcome B) l r : mapM f l = Ok r -> length r = length l /\ forall i x, nth_error l i = Some x -> exists y, f x = Ok y /\ nth_error r i = Some y.
  Proof.
    revert r. induction l as [|a l IH]; intros r E; cbn [mapM] in E; [apply Ok_inj in E; subst r; split; [reflexivity|intros [|i] x; discriminate]|].
    destruct (f a) as [y|] eqn:Ea; [|discriminate]. cbn [bind] in E. destruct (mapM f l) as [ys|]; [|discriminate]. cbn [bind] in E. apply Ok_inj in E. subst r.
    destruct (IH ys eq_refl) as [L N]. split; [cbn; lia|]. intros [|i] x Hx; cbn in Hx |- *; [injection Hx as <-; eauto|apply N; exact Hx].
  Qed.
  Lemma mapM_all {A B} (f : A -> outcome B) l : (forall i x, nth_error l i = Some x -> exists y, f x = Ok y) -> exists r, mapM f l = Ok r.
  Proof.
    induction l as [|a l IH]; intros H; cbn [mapM]; [eauto|]. destruct (H 0%nat a eq_refl) as [y ->]. cbn [bind]. destruct IH as [r ->]; [intros i x Hx; apply (H (1 + i)%nat x Hx)|]. cbn [bind]. eauto.
  Qed.
End C38.
Lemma tsize_pos O : O <> [] -> Forall (fun o => 0 < o_size o) O -> 0 < tsize O.
Proof.
  intros NE F. assert (G : forall O, Forall (fun o => 0 < o_size o) O -> 0 <= tsize O) by (clear; intros O F; unfold tsize; induction F as [|o O Ho F IH]; cbn; [lia|unfold tsize in *; lia]).
  destruct F as [|o O Ho F]; [congruence|]. specialize (G O F). unfold tsize in *. cbn. lia.
Qed.

(** * C38 in one process, batches as tensors *)
(** The observations of layer [i] have [d i] channels and positive sizes. *)
Definition uniform (d : nat) (O : list obs) : Prop := Forall (fun o => 0 < o_size o /\ length (o_mean o) = d /\ length (o_var o) = d) O.
(** The calibration of layers with running statistics [running] over [n] samples of [xs]
    succeeds; every layer that sees something gets the weighted averages (in its first [d i]
    channels), the others are left alone. *)
Definition calibrated {S} (observe : list S -> nat -> list obs) (d : nat -> nat) (n : Z) (xs : list (list S)) (running : list (list Q * list Q)) (r : outcome (list (list Q * list Q))) : Prop :=
  exists used res, first_samples n xs used /\ r = Ok res /\ length res = length running /\
    forall i m v, nth_error running i = Some (m, v) ->
      exists m' v', nth_error res i = Some (m', v') /\ length m' = length m /\ length v' = length v /\
        let O := seen observe used i in
        (O = [] -> m' = m /\ v' = v) /\
        (O <> [] -> forall c, (c < d i)%nat -> nth c m' 0%Q == (wsum o_mean c O / inject_Z (tsize O))%Q /\ nth c v' 0%Q == (wsum o_var c O / inject_Z (tsize O))%Q).
(** Layers: sizes of statistics. *)
Definition layers_ok {S} (observe : list S -> nat -> list obs) (momentum : nat -> list Q -> list Q -> list Q) (d : nat -> nat) (running : list (list Q * list Q)) : Prop :=
  (forall i r b, length (momentum i r b) = length r) /\ (forall u i, uniform (d i) (observe u i)) /\
  (forall i m v, nth_error running i = Some (m, v) -> (d i <= length m)%nat /\ (d i <= length v)%nat).
Definition C38_claim : Prop :=
  forall S (observe : list S -> nat -> list obs) momentum d n batches running, 0 < n -> layers_ok observe momentum d running ->
    calibrated observe d n (map (inputs S) batches) running (calibrate S observe momentum n batches running).
Theorem C38_tensor_partial :
  forall S (observe : list S -> nat -> list obs) momentum d n xs running, 0 < n -> layers_ok observe momentum d running ->
    calibrated observe d n xs running (calibrate S observe momentum n (map (TensorBatch S) xs) running).
Proof.
  intros S observe momentum d n xs running Hn (Hm & HU & HL).
  destruct (loop_spec S observe momentum xs n (map (fun r => {| l_mean := fst r; l_var := snd r; l_mm := meter0; l_vm := meter0 |}) running) Hn) as (used & ls & FS & E & N).
  assert (HS : forall i, uniform (d i) (seen observe used i)).
  { intros i. unfold seen, uniform. apply Forall_concat. apply Forall_map. apply Forall_forall. intros u _. apply HU. }
  assert (HFin : forall i m v, nth_error running i = Some (m, v) -> exists l m' v', nth_error ls i = Some l /\ finish l = Ok (m', v') /\ length m' = length m /\ length v' = length v /\
    (seen observe used i = [] -> m' = m /\ v' = v) /\
    (seen observe used i <> [] -> forall c, (c < d i)%nat -> nth c m' 0%Q == (wsum o_mean c (seen observe used i) / inject_Z (tsize (seen observe used i)))%Q /\ nth c v' 0%Q == (wsum o_var c (seen observe used i) / inject_Z (tsize (seen observe used i)))%Q)).
  { intros i m v Ei. specialize (N i). rewrite nth_error_map, Ei in N. cbn [option_map fst snd] in N. specialize (HS i). destruct (HL i m v Ei) as [Lm Lv].
    set (l0 := {| l_mean := m; l_var := v; l_mm := meter0; l_vm := meter0 |}) in *. set (O := seen observe used i) in *.
    assert (HS2 : Forall (fun o => length (o_mean o) = d i /\ length (o_var o) = d i) O) by (eapply Forall_impl; [|exact HS]; intros o (_ & ? & ?); auto).
    assert (HS1 : Forall (fun o => 0 < o_size o) O) by (eapply Forall_impl; [|exact HS]; intros o (? & _); auto).
    destruct (hooks_track momentum i (d i) (d i) O l0 [] (conj eq_refl eq_refl) (conj eq_refl eq_refl) HS2) as [T1 T2]. cbn [app] in T1, T2.
    destruct (hooks_lengths momentum i O (Hm i) l0) as [L1 L2]. cbn [l0 l_mean l_var] in L1, L2.
    destruct O as [|o O'] eqn:EO.
    - exists l0, m, v. split; [exact N|]. split; [reflexivity|]. split; [reflexivity|]. split; [reflexivity|]. split; [auto|]. intros K. congruence.
    - rewrite <- EO in *. assert (NE : O <> []) by congruence. pose proof (tsize_pos O NE HS1) as TP.
      destruct (tracks_avg _ _ _ _ T1 NE) as (a & Ea & La & Na). destruct (tracks_avg _ _ _ _ T2 NE) as (b & Eb & Lb & Nb).
      eexists. exists (a ++ skipn (length a) (l_mean (fold_left (hook momentum i) O l0))), (b ++ skipn (length b) (l_var (fold_left (hook momentum i) O l0))).
      split; [exact N|]. split.
      { unfold finish. rewrite (proj1 T1), (proj1 T2). destruct (Z.eqb_spec (tsize O) 0); [lia|]. cbn [orb]. rewrite Ea, Eb. unfold copy_prefix. rewrite La, Lb, L1, L2.
        destruct (Nat.leb_spec (d i) (length m)); [|lia]. destruct (Nat.leb_spec (d i) (length v)); [|lia]. reflexivity. }
      split; [rewrite app_length, skipn_length; lia|]. split; [rewrite app_length, skipn_length; lia|]. split; [intros K; congruence|].
      intros _ c Hc. rewrite !app_nth1 by lia. rewrite Na, Nb. split; reflexivity. }
  assert (LL : length ls = length running).
  { assert (K : forall i, nth_error ls i = None <-> nth_error running i = None).
    { intros i. rewrite N, nth_error_map. destruct (nth_error running i); cbn; split; congruence. }
    pose proof (proj2 (nth_error_None ls (length ls)) (le_n _)) as K1. apply K in K1. apply nth_error_None in K1.
    pose proof (proj2 (nth_error_None running (length running)) (le_n _)) as K2. apply K in K2. apply nth_error_None in K2. lia. }
  destruct (mapM_all finish ls) as [res Er].
  { intros i l El. assert (Hi : (i < length running)%nat) by (rewrite <- LL; apply nth_error_Some; congruence). destruct (nth_error running i) as [[m v]|] eqn:Ei; [|apply nth_error_None in Ei; lia].
    destruct (HFin i m v Ei) as (l' & m' & v' & El' & Ef & _). rewrite El in El'. injection El' as <-. eauto. }
  exists used, res. split; [exact FS|]. split; [unfold calibrate; rewrite E; cbn [bind]; exact Er|]. destruct (mapM_nth _ _ _ Er) as [Lr Nr]. split; [lia|].
  intros i m v Ei. destruct (HFin i m v Ei) as (l' & m' & v' & El' & Ef & L1 & L2 & H1 & H2). destruct (Nr i l' El') as (y & Ey & Ny). rewrite Ef in Ey. apply Ok_inj in Ey. subst y. eauto 10.
Qed.
Print Assumptions C38_tensor_partial.

(** Samples are numbers; layer 0 sees the mean of a batch in its only channel, layer 1 is not
    on the path. *)
Definition avg (u : list Z) : Q := (inject_Z (fold_right Z.add 0%Z u) / inject_Z (Z.of_nat (length u)))%Q.
Definition observe1 (u : list Z) (i : nat) : list obs := match i with O => match u with [] => [] | _ => [{| o_size := Z.of_nat (length u); o_mean := [avg u]; o_var := [1%Q] |}] end | _ => [] end.
Definition momentum1 (i : nat) (r b : list Q) : list Q := map (fun x => x * (9 # 10))%Q r.
Lemma observe1_ok running : (forall i m v, nth_error running i = Some (m, v) -> (1 <= length m)%nat /\ (1 <= length v)%nat) -> layers_ok observe1 momentum1 (fun _ => 1%nat) running.
Proof.
  intros H. split; [intros; apply map_length|]. split; [|exact H]. intros u [|i]; [|constructor]. destruct u; constructor; [|constructor]. split; [cbn; lia|split; reflexivity].
Qed.
Example C38_tensor_example :
  let running := [([50], [50]); ([7; 8], [9; 9])]%Q in
  layers_ok observe1 momentum1 (fun _ => 1%nat) running /\
  exists a b, calibrate Z observe1 momentum1 5 (map (TensorBatch Z) [[1; 2; 3]; [4; 10; 100]; [1000]]) running = Ok [([a], [b]); ([7; 8], [9; 9])]%Q /\ a == 4 /\ b == 1.
Proof.
  cbv zeta. split.
  - apply observe1_ok. intros [|[|[|i]]] m v E; cbn in E; try discriminate; injection E as <- <-; cbn; lia.
  - do 2 eexists. split; [vm_compute; reflexivity|]. split; reflexivity.
Qed.

(** Batches that are dicts: slicing raises if the dict has at least as many keys as samples are
    still wanted ... *)
Theorem C38_dict_raises :
  forall S (observe : list S -> nat -> list obs) momentum n k xs batches running, n <= Z.of_nat k ->
    calibrate S observe momentum n (DictBatch S k xs :: batches) running = Raise TypeError.
Proof. intros. unfold calibrate. cbn [loop]. unfold cut_batch. cbn [batch_len]. rewrite (proj2 (Z.geb_le _ _)) by lia. reflexivity. Qed.
Theorem C38_dict_refuted : ~ C38_claim.
Proof.
  intro H. specialize (H Z observe1 momentum1 (fun _ => 1%nat) 2 [DictBatch Z 2 [1; 2]] [([50], [50])]%Q ltac:(lia)).
  rewrite C38_dict_raises in H by lia. destruct H as (used & res & _ & E & _); [|discriminate].
  apply observe1_ok. intros [|[|i]] m v E; cbn in E; try discriminate; injection E as <- <-; cbn; lia.
Qed.
(** ... and otherwise too many samples are used. *)
Theorem C38_dict_overshoot_refuted :
  exists xs running, layers_ok observe1 momentum1 (fun _ => 1%nat) running /\
    (exists r, calibrate Z observe1 momentum1 3 [DictBatch Z 2 xs] running = Ok r) /\
    ~ calibrated observe1 (fun _ => 1%nat) 3 [xs] running (calibrate Z observe1 momentum1 3 [DictBatch Z 2 xs] running).
Proof.
  exists [1; 1; 1; 9], [([50], [50])]%Q. split; [apply observe1_ok; intros [|[|i]] m v E; cbn in E; try discriminate; injection E as <- <-; cbn; lia|].
  split; [eexists; vm_compute; reflexivity|]. intros (used & res & [F (k & K)] & E & _ & N). vm_compute in E. apply Ok_inj in E. subst res.
  destruct (N 0%nat _ _ eq_refl) as (m' & v' & E & _ & _ & _ & G). cbn in E. injection E as <- <-. cbn [concat] in F.
  assert (HU : used = [[1; 1; 1]] \/ used = [[1; 1; 1]; []]).
  { change (firstn (Z.to_nat 3) ([1; 1; 1; 9] ++ [])) with [1; 1; 1] in F. destruct k as [|[|k]]; cbn in K.
    - destruct K as [->|(j & b & Eb & ->)]; [discriminate F|]. injection Eb as <-. cbn in F. left. destruct j as [|[|[|[|j]]]]; cbn in F |- *; try discriminate F; reflexivity.
    - destruct K as [->|(j & b & Eb & ->)]; discriminate.
    - destruct K as [->|(j & b & Eb & ->)]; [destruct k; discriminate F|destruct k; discriminate Eb]. }
  destruct HU as [-> | ->].
  - specialize (G ltac:(discriminate) 0%nat ltac:(lia)). destruct G as [G _]. vm_compute in G. discriminate.
  - specialize (G ltac:(discriminate) 0%nat ltac:(lia)). destruct G as [G _]. vm_compute in G. discriminate.
Qed.
Print Assumptions C38_dict_raises.
Print Assumptions C38_dict_refuted.
Print Assumptions C38_dict_overshoot_refuted.

(** * Dynamic layers *)
(** A dynamic layer with mask [mask] evaluates active channel number c with entry c of the
    selected running statistics: they should be the averages. *)
Definition C38_mask_claim : Prop :=
  forall S (observe : list S -> nat -> list obs) momentum n xs mask m v m' v',
    0 < n -> layers_ok observe momentum (fun _ => count_true mask) [(m, v)] -> length mask = length m -> length mask = length v ->
    calibrate S observe momentum n (map (TensorBatch S) xs) [(m, v)] = Ok [(m', v')] ->
    exists used, first_samples n xs used /\ let O := seen observe used 0 in
      O <> [] -> forall c, (c < count_true mask)%nat ->
        nth c (sel mask m') 0%Q == (wsum o_mean c O / inject_Z (tsize O))%Q /\ nth c (sel mask v') 0%Q == (wsum o_var c O / inject_Z (tsize O))%Q.
(** The averages are written to the first channels, whichever channels are active. *)
Definition momentum_last (i : nat) (r b : list Q) : list Q := match r, b with [x; y], [z] => [x; y * (9 # 10) + z * (1 # 10)]%Q | _, _ => r end.
Theorem C38_mask_refuted : ~ C38_mask_claim.
Proof.
  intro H. specialize (H Z observe1 momentum_last 2 [[1; 3]] [false; true] [10; 20]%Q [10; 20]%Q).
  destruct (calibrate Z observe1 momentum_last 2 (map (TensorBatch Z) [[1; 3]]) [([10; 20]%Q, [10; 20]%Q)]) as [[|[m' v'] [|]]|] eqn:E; vm_compute in E; try discriminate.
  specialize (H m' v' ltac:(lia)). apply Ok_inj in E. injection E as E1 E2. destruct H as (used & [F _] & G); try reflexivity.
  - split; [|split].
    + intros i r b. unfold momentum_last. destruct r as [|x [|y [|z r]]]; try reflexivity. destruct b as [|w [|]]; reflexivity.
    + intros u [|i]; [|constructor]. destruct u; constructor; [|constructor]. split; [cbn; lia|split; reflexivity].
    + intros [|[|i]] m v E; cbn in E; try discriminate. injection E as <- <-. cbn. lia.
  - cbn in F.
    assert (NE : seen observe1 used 0 <> [] /\ (wsum o_mean 0 (seen observe1 used 0) == 4)%Q /\ tsize (seen observe1 used 0) = 2).
    { clear - F. assert (P : forall used, tsize (seen observe1 used 0) = Z.of_nat (length (concat used)) /\ (wsum o_mean 0 (seen observe1 used 0) == inject_Z (fold_right Z.add 0%Z (concat used)))%Q).
      { clear. induction used as [|u used [I1 I2]]; [split; reflexivity|]. unfold seen in *. cbn [map concat]. rewrite tsize_app, wsum_app, app_length, I1, I2. destruct u as [|z u]; [split; cbn; [lia|ring]|]. split.
        - cbn [observe1]. unfold tsize. cbn [map fold_right o_size]. lia.
        - cbn [observe1]. unfold wsum. cbn [map fold_right o_size o_mean nth]. unfold avg. rewrite fold_right_app. assert (NZ : ~ inject_Z (Z.of_nat (length (z :: u))) == 0) by (unfold Qeq; cbn; lia).
          assert (EA : forall a l, fold_right Z.add a l = fold_right Z.add 0 l + a) by (clear; intros a l; induction l as [|x l IH]; cbn; lia). rewrite (EA (fold_right Z.add 0 (concat used))). rewrite inject_Z_plus. field. exact NZ. }
      destruct (P used) as [P1 P2]. rewrite F in P1, P2. split; [|split; [exact P2|exact P1]]. intro K. rewrite K in P1. discriminate. }
    destruct NE as (NE & W & T). specialize (G NE 0%nat ltac:(cbn; lia)). destruct G as [G _]. rewrite W, T in G. subst m'. vm_compute in G. discriminate.
Qed.
Theorem C38_mask_partial :
  forall S (observe : list S -> nat -> list obs) momentum n xs k rest m v m' v',
    let mask := repeat true k ++ repeat false rest in
    0 < n -> layers_ok observe momentum (fun _ => count_true mask) [(m, v)] -> length mask = length m -> length mask = length v ->
    calibrate S observe momentum n (map (TensorBatch S) xs) [(m, v)] = Ok [(m', v')] ->
    exists used, first_samples n xs used /\ let O := seen observe used 0 in
      O <> [] -> forall c, (c < count_true mask)%nat ->
        nth c (sel mask m') 0%Q == (wsum o_mean c O / inject_Z (tsize O))%Q /\ nth c (sel mask v') 0%Q == (wsum o_var c O / inject_Z (tsize O))%Q.
Proof.
  intros S observe momentum n xs k rest m v m' v' mask Hn HL Lm Lv E.
  destruct (C38_tensor_partial S observe momentum _ n xs _ Hn HL) as (used & res & FS & Er & _ & N). rewrite E in Er. apply Ok_inj in Er. subst res.
  exists used. split; [exact FS|]. destruct (N 0%nat m v eq_refl) as (m1 & v1 & E1 & L1 & L2 & _ & G). cbn in E1. injection E1 as <- <-.
  assert (CT : count_true mask = k) by (unfold mask; rewrite count_app, count_repeat; assert (Z0 : count_true (repeat false rest) = 0%nat) by (clear; induction rest; cbn; auto); lia).
  assert (LM : length mask = (k + rest)%nat) by (unfold mask; rewrite app_length, !repeat_length; reflexivity).
  assert (SP : forall l : list Q, length l = length mask -> forall c, (c < k)%nat -> nth c (sel mask l) 0%Q = nth c l 0%Q).
  { intros l Hl c Hc. rewrite <- (firstn_skipn k l). unfold mask. rewrite sel_app by (rewrite repeat_length, firstn_length_le; lia). rewrite sel_true by (rewrite firstn_length_le; lia).
    rewrite !app_nth1 by (rewrite firstn_length_le; lia). reflexivity. }
  intros O NE c Hc. destruct (G NE c Hc) as [G1 G2]. rewrite CT in Hc. rewrite !SP by lia. split; assumption.
Qed.
Example C38_mask_example :
  let mask := repeat true 1 ++ repeat false 1 in
  let momentum_first (i : nat) (r b : list Q) := match r, b with [x; y], [z] => [x * (9 # 10) + z * (1 # 10); y]%Q | _, _ => r end in
  length mask = 2%nat /\
  exists m' v', calibrate Z observe1 momentum_first 2 (map (TensorBatch Z) [[1; 3]; [7]]) [([10; 20]%Q, [10; 20]%Q)] = Ok [(m', v')] /\
    (nth 0 m' 0 == 2)%Q /\ nth 1 m' 0%Q = 20%Q.
Proof. split; [reflexivity|]. do 2 eexists. split; [vm_compute; reflexivity|]. split; reflexivity. Qed.
Print Assumptions C38_mask_refuted.
Print Assumptions C38_mask_partial.

(** * Distributed calibration *)
Definition obs_of {S} (mean : list S -> list Q) (b : list S) : obs := {| o_size := Z.of_nat (length b); o_mean := mean b; o_var := [] |}.
(** The steps used, all batches of the last one cut to the same size. *)
Definition first_steps {T} (steps used : list (list (list T))) : Prop :=
  exists k, used = firstn k steps \/ exists j bs, nth_error steps k = Some bs /\ used = firstn k steps ++ [map (firstn j) bs].
Definition dist_calibrated {S} (mean : list S -> list Q) (d W : nat) (n : Z) (steps : list (list (list S))) (r : list (option (list Q))) : Prop :=
  exists used, first_steps steps used /\
    let O := map (obs_of mean) (concat used) in
    (n <= tsize O \/ used = steps) /\ length r = W /\
    (O <> [] -> Forall (fun a => exists v, a = Some v /\ length v = d /\ forall c, nth c v 0%Q == (wsum o_mean c O / inject_Z (tsize O))%Q) r).
Definition steps_ok {S} (W : nat) (steps : list (list (list S))) : Prop := Forall (fun bs => length bs = W /\ Forall (fun b => (0 < length b)%nat) bs) steps.
Definition C38_dist_claim : Prop :=
  forall S (mean : list S -> list Q) d W n steps, 0 < n -> (0 < W)%nat -> steps_ok W steps -> (forall u, length (mean u) = d) ->
    dist_calibrated mean d W n steps (dist_calibrate S mean W n steps).
(** Batches of different sizes: the workers disagree. *)
Theorem C38_dist_refuted : ~ C38_dist_claim.
Proof.
  intro H. specialize (H Z (fun u => [avg u]) 1%nat 2%nat 3 [[[1]; [4; 4]]] ltac:(lia) ltac:(lia)).
  destruct H as (used & [k K] & HN & _ & G).
  - repeat constructor.
  - reflexivity.
  - assert (U : used = [[[1]; [4; 4]]]).
    { destruct HN as [HN|HN]; [|exact HN]. destruct k as [|[|k]]; cbn in K.
      - destruct K as [->|(j & bs & E & ->)]; [cbn in HN; lia|]. injection E as <-. destruct j as [|[|[|j]]]; cbn in HN |- *; try (unfold tsize in HN; cbn in HN; lia); reflexivity.
      - destruct K as [->|(j & bs & E & _)]; [reflexivity|discriminate].
      - destruct K as [->|(j & bs & E & _)]; [destruct k; reflexivity|destruct k; discriminate]. }
    subst used. specialize (G ltac:(discriminate)). vm_compute in G. apply Forall_inv in G. destruct G as (v & E & _ & G). injection E as <-. specialize (G 0%nat). vm_compute in G. discriminate.
Qed.
Print Assumptions C38_dist_refuted.
(** All batches of a step have the same size. *)
Definition equal_sizes {S} (steps : list (list (list S))) : Prop := Forall (fun bs => exists k, Forall (fun b => length b = k) bs) steps.
Lemma tracks_combine f d O m P val total : tracks f d O m -> P <> [] -> total = tsize P -> length val = d ->
  (forall c, (nth c val 0 * inject_Z total == wsum f c P)%Q) -> tracks f d (O ++ P) (update m val total).
Proof.
  intros [HC HM] NP -> Hd HV. split; [cbn; rewrite HC, tsize_app; reflexivity|]. destruct P as [|p P]; [congruence|]. destruct O as [|o0 O]; cbn [app].
  - subst m. cbn [update m_sum meter0 m_avg m_count]. eexists. split; [reflexivity|]. split; [rewrite vscale_length; exact Hd|]. split; [|reflexivity]. intros c. rewrite vscale_nth. apply HV.
  - destruct HM as (s & Es & Ls & Ns & _). unfold update. rewrite Es. cbn [m_sum m_avg m_count]. eexists. split; [reflexivity|].
    split; [rewrite vadd_length; rewrite ?vscale_length; congruence|]. split; [|reflexivity].
    intros c. rewrite vadd_nth by (rewrite vscale_length; congruence). rewrite Ns, vscale_nth, HV. change (o0 :: O ++ p :: P) with ((o0 :: O) ++ p :: P). rewrite wsum_app. reflexivity.
Qed.
Lemma vsum_nth d vs c : vs <> [] -> Forall (fun v => length v = d) vs -> length (vsum vs) = d /\ nth c (vsum vs) 0%Q == fold_right Qplus 0%Q (map (fun v => nth c v 0%Q) vs).
Proof.
  intros NE F. destruct F as [|v vs Hv F]; [congruence|]. cbn [vsum]. clear NE. revert v Hv. induction F as [|u vs Hu F IH]; intros v Hv; cbn [fold_left]; [split; [exact Hv|cbn; ring]|].
  destruct (IH (vadd v u)) as [I1 I2]; [rewrite vadd_length; congruence|]. split; [exact I1|]. rewrite I2. cbn [map fold_right]. rewrite vadd_nth by congruence. ring.
Qed.
Section Dist.
  Variables (S : Type) (mean : list S -> list Q) (d W : nat).
  Hypothesis Hd : forall u, length (mean u) = d.
  Hypothesis HW : (0 < W)%nat.
  Definition step_obs (bs : list (list S)) : list obs := map (obs_of mean) bs.
  Lemma step_tsize k (bs : list (list S)) : Forall (fun b => length b = k) bs -> tsize (step_obs bs) = Z.of_nat (length bs) * Z.of_nat k.
  Proof. unfold tsize, step_obs. induction 1 as [|b bs Hb F IH]; cbn [map fold_right length obs_of o_size]; [lia|]. rewrite IH, Hb. lia. Qed.
  Lemma step_wsum k (bs : list (list S)) c : Forall (fun b => length b = k) bs ->
    wsum o_mean c (step_obs bs) == (inject_Z (Z.of_nat k) * fold_right Qplus 0%Q (map (fun v => nth c v 0%Q) (map mean bs)))%Q.
  Proof. unfold wsum, step_obs. induction 1 as [|b bs Hb F IH]; cbn [map fold_right obs_of o_size o_mean]; [ring|]. rewrite IH, Hb. ring. Qed.
  Lemma dist_step k (bs : list (list S)) ms O : (0 < k)%nat -> length bs = W -> length ms = W -> Forall (fun b => length b = k) bs -> Forall (tracks o_mean d O) ms ->
    length (dist_update (map (fun mb => (fst mb, mean (snd mb), Z.of_nat (length (snd mb)))) (combine ms bs))) = W /\
    Forall (tracks o_mean d (O ++ step_obs bs)) (dist_update (map (fun mb => (fst mb, mean (snd mb), Z.of_nat (length (snd mb)))) (combine ms bs))).
  Proof.
    intros Hk Lb Lm Fb Fm. unfold dist_update. rewrite !map_map. cbn [fst snd]. split; [rewrite map_length, combine_length; lia|].
    assert (E1 : map (fun x : meter * list S => mean (snd x)) (combine ms bs) = map mean bs) by (rewrite <- (map_map snd mean), map_snd_combine by lia; reflexivity).
    assert (E2 : map (fun x : meter * list S => Z.of_nat (length (snd x))) (combine ms bs) = map (fun b => Z.of_nat (length b)) bs) by (rewrite <- (map_map snd (fun b => Z.of_nat (length b))), map_snd_combine by lia; reflexivity).
    rewrite E1, E2. assert (ET : fold_right Z.add 0 (map (fun b : list S => Z.of_nat (length b)) bs) = tsize (step_obs bs)) by (unfold tsize, step_obs; rewrite map_map; reflexivity). rewrite ET.
    assert (NE : bs <> []) by (intros ->; cbn in Lb; lia). assert (NM : map mean bs <> []) by (intro K; apply map_eq_nil in K; contradiction).
    assert (FM : Forall (fun v => length v = d) (map mean bs)) by (apply Forall_map, Forall_forall; intros; apply Hd).
    apply Forall_map, Forall_forall. intros [m b] I. cbn [fst snd]. pose proof (in_combine_l _ _ _ _ I) as Im. pose proof (in_combine_r _ _ _ _ I) as Ib.
    rewrite Forall_forall in Fm. pose proof Fb as Fb'. rewrite Forall_forall in Fb'. rewrite (Fb' b Ib).
    apply tracks_combine; [apply Fm; exact Im|intro K; apply map_eq_nil in K; contradiction|reflexivity|rewrite vscale_length; apply (vsum_nth d _ 0 NM FM)|].
    intros c. rewrite vscale_nth, (proj2 (vsum_nth d _ c NM FM)), (step_wsum k bs c Fb), (step_tsize k bs Fb), Lb, inject_Z_mult.
    assert (~ inject_Z (Z.of_nat k) == 0) by (unfold Qeq; cbn; lia). assert (~ inject_Z (Z.of_nat W) == 0) by (unfold Qeq; cbn; lia). field. split; assumption.
  Qed.
  Lemma dist_cut_all n k (bs : list (list S)) : 0 < n -> Forall (fun b => length b = k) bs ->
    map (dist_cut S n) bs = map (firstn (Z.to_nat n)) bs /\ (Z.of_nat k < n -> map (dist_cut S n) bs = bs).
  Proof.
    intros Hn F. split.
    - apply map_ext_in. intros b I. unfold dist_cut. destruct (Z.geb_spec (Z.of_nat (length b)) n); [apply py_prefix_firstn; lia|]. rewrite firstn_all2 by lia. reflexivity.
    - intros Hk. rewrite <- (map_id bs) at 2. apply map_ext_in. intros b I. rewrite Forall_forall in F. unfold dist_cut. rewrite (F b I). destruct (Z.geb_spec (Z.of_nat k) n); [lia|reflexivity].
  Qed.
  Lemma dist_loop_ok steps : forall n ms O, 0 < n -> steps_ok W steps -> equal_sizes steps -> length ms = W -> Forall (tracks o_mean d O) ms ->
    exists used, first_steps steps used /\ (n <= tsize (step_obs (concat used)) \/ used = steps) /\
      length (dist_loop S mean n steps ms) = W /\ Forall (tracks o_mean d (O ++ step_obs (concat used))) (dist_loop S mean n steps ms).
  Proof.
    induction steps as [|bs steps IH]; intros n ms O Hn HS HE Lm Fm.
    - exists []. split; [exists 0%nat; left; reflexivity|]. split; [right; reflexivity|]. cbn [dist_loop concat step_obs map]. rewrite app_nil_r. split; assumption.
    - apply Forall_cons_iff in HS as [[Lb Pb] HS]. apply Forall_cons_iff in HE as [[k Fk] HE].
      assert (Hk : (0 < k)%nat). { destruct Fk as [|b bs Hb Fk]; [cbn in Lb; lia|]. apply Forall_inv in Pb. lia. }
      destruct (dist_cut_all n k bs Hn Fk) as [C1 C2]. set (bs' := map (dist_cut S n) bs) in *.
      assert (F' : Forall (fun b => length b = Nat.min (Z.to_nat n) k) bs').
      { rewrite C1. apply Forall_map. eapply Forall_impl; [|exact Fk]. intros b Hb. cbn beta in Hb |- *. rewrite firstn_length, Hb. reflexivity. }
      assert (Lb' : length bs' = W) by (unfold bs'; rewrite map_length; exact Lb).
      destruct (dist_step (Nat.min (Z.to_nat n) k) bs' ms O) as [L' T']; [lia|exact Lb'|exact Lm|exact F'|exact Fm|].
      assert (ET : fold_right Z.add 0 (map (fun b : list S => Z.of_nat (length b)) bs') = tsize (step_obs bs')) by (unfold tsize, step_obs; rewrite map_map; reflexivity).
      cbn [dist_loop]. fold bs'. rewrite ET. pose proof (step_tsize _ bs' F') as TS. rewrite Lb' in TS.
      destruct (Z.leb_spec (n - tsize (step_obs bs')) 0) as [HL|HL].
      + exists [bs']. split; [exists 0%nat; right; exists (Z.to_nat n), bs; split; [reflexivity|cbn; rewrite C1; reflexivity]|]. split; [left; cbn [concat]; rewrite app_nil_r; lia|].
        cbn [concat]. rewrite app_nil_r. split; assumption.
      + assert (Kn : Z.of_nat k < n). { destruct (Z.lt_ge_cases (Z.of_nat k) n); [assumption|]. rewrite Nat.min_l in TS by lia. nia. }
        rewrite (C2 Kn) in *. destruct (IH (n - tsize (step_obs bs)) _ (O ++ step_obs bs) ltac:(lia) HS HE L' T') as (used & [q Q1] & Q2 & Q3 & Q4).
        exists (bs :: used). split; [exists (1 + q)%nat; destruct Q1 as [->|(j & b & Eb & ->)]; [left; reflexivity|right; exists j, b; split; [exact Eb|reflexivity]]|].
        assert (AP : step_obs (concat (bs :: used)) = step_obs bs ++ step_obs (concat used)) by (unfold step_obs; cbn [concat]; apply map_app). rewrite AP, tsize_app.
        split; [destruct Q2 as [Q2|Q2]; [left; lia|right; congruence]|]. rewrite app_assoc. split; assumption.
  Qed.
End Dist.
Theorem C38_dist_partial :
  forall S (mean : list S -> list Q) d W n steps, 0 < n -> (0 < W)%nat -> steps_ok W steps -> (forall u, length (mean u) = d) -> equal_sizes steps ->
    dist_calibrated mean d W n steps (dist_calibrate S mean W n steps).
Proof.
  intros S mean d W n steps Hn HW HS Hd HE.
  destruct (dist_loop_ok S mean d W Hd HW steps n (repeat meter0 W) [] Hn HS HE (repeat_length _ _)) as (used & F & N & L & T).
  { apply Forall_forall. intros m I. apply repeat_spec in I. subst m. split; reflexivity. }
  exists used. split; [exact F|]. cbv zeta. split; [exact N|]. split; [unfold dist_calibrate; rewrite map_length; exact L|]. intros NE.
  unfold dist_calibrate. apply Forall_map. eapply Forall_impl; [|exact T]. intros m Hm. destruct (tracks_avg _ _ _ _ Hm NE) as (a & Ea & La & Na). exists a. split; [exact Ea|]. split; [exact La|exact Na].
Qed.
Print Assumptions C38_dist_partial.
Example C38_dist_example :
  steps_ok 2 [[[1; 3]; [5; 7]]; [[0; 9]; [0; 9]]] /\ equal_sizes [[[1; 3]; [5; 7]]; [[0; 9]; [0; 9]]] /\
  exists a b, dist_calibrate Z (fun u => [avg u]) 2 6 [[[1; 3]; [5; 7]]; [[0; 9]; [0; 9]]] = [Some [a]; Some [b]] /\ (a == 34 # 8)%Q /\ (b == 34 # 8)%Q.
Proof.
  split; [repeat constructor|]. split; [repeat constructor; exists 2%nat; repeat constructor|]. do 2 eexists. split; [vm_compute; reflexivity|]. split; reflexivity.
Qed.
(** More samples than requested are used when several workers finish together: 8 instead of 6
    above. *)
Theorem C38_dist_samples_refuted :
  ~ (forall S (mean : list S -> list Q) W n steps m, 0 < n -> (0 < W)%nat -> steps_ok W steps -> equal_sizes steps ->
       In m (dist_loop S mean n steps (repeat meter0 W)) -> m_count m <= n).
Proof.
  intro H. specialize (H Z (fun u => [avg u]) 2%nat 6 [[[1; 3]; [5; 7]]; [[0; 9]; [0; 9]]]). eassert (K : In _ (dist_loop Z (fun u => [avg u]) 6 [[[1; 3]; [5; 7]]; [[0; 9]; [0; 9]]] (repeat meter0 2))) by (vm_compute; left; reflexivity).
  specialize (H _ ltac:(lia) ltac:(lia) ltac:(repeat constructor) ltac:(repeat constructor; exists 2%nat; repeat constructor) K). cbn in H. lia.
Qed.
Print Assumptions C38_dist_samples_refuted.
