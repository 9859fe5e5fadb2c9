(** C84: the alias table draws every outcome with its own probability. *)
From Verif Require Import Prelude Alias_Model.
From Coq Require Import QArith Lqa Permutation.
Open Scope Q_scope.

(** * Specification: the chance that one draw gives outcome [j] when the cell is uniform and
    the bit is 1 with the probability of the cell. *)
Definition qn (n : nat) : Q := inject_Z (Z.of_nat n).
Definition hit (i j : nat) : Q := if Nat.eqb i j then 1 else 0.
Definition sumf (f : nat -> Q) (l : list nat) : Q := fold_right (fun k s => f k + s) 0 l.
Definition chance (t : list Q * list nat) (j : nat) : Q :=
  let n := length (fst t) in
  sumf (fun kk => (1 / qn n) * (nth kk (fst t) 0 * hit (draw1 t kk 1) j
                                + (1 - nth kk (fst t) 0) * hit (draw1 t kk 0) j)) (seq 0 n).
(** A table the sampler accepts: probabilities of cells in [0, 1], aliases in range. *)
Definition usable (n : nat) (t : list Q * list nat) : Prop :=
  length (fst t) = n /\ length (snd t) = n /\
  (forall k, (k < n)%nat -> 0 <= nth k (fst t) 0 /\ nth k (fst t) 0 <= 1) /\
  (forall k, (k < n)%nat -> (nth k (snd t) 0 < n)%nat).
Definition weights (probs : list Q) : Prop := probs <> [] /\ Forall (Qle 0) probs /\ 0 < qsum probs.

(** The full claim: for all non-negative weights the draws are proportional to them. *)
Definition C84_claim : Prop :=
  forall probs, weights probs ->
    forall j, (j < length probs)%nat ->
      chance (snd (alias_init probs)) j == nth j probs 0 / qsum probs.

(** * Sums *)
Lemma upd_length {A} (l : list A) : forall i x, length (upd l i x) = length l.
Proof. induction l as [|y l IH]; intros [|i] x; cbn; auto. Qed.
Lemma upd_same {A} (l : list A) d : forall i x, (i < length l)%nat -> nth i (upd l i x) d = x.
Proof. induction l as [|y l IH]; intros [|i] x H; cbn in *; try lia; auto. apply IH. lia. Qed.
Lemma upd_other {A} (l : list A) d : forall i j x, i <> j -> nth j (upd l i x) d = nth j l d.
Proof.
  induction l as [|y l IH]; intros [|i] [|j] x H; cbn; auto; try congruence.
Qed.

Lemma sumf_cons f k l : sumf f (k :: l) = f k + sumf f l.
Proof. reflexivity. Qed.
Lemma sumf_ext f g l : (forall k, In k l -> f k == g k) -> sumf f l == sumf g l.
Proof.
  induction l as [|k l IH]; intros H; [reflexivity|]. rewrite !sumf_cons.
  rewrite (H k) by (left; auto). rewrite IH by (intros; apply H; right; auto). reflexivity.
Qed.
Lemma sumf_app f l m : sumf f (l ++ m) == sumf f l + sumf f m.
Proof. induction l as [|k l IH]; cbn [app]; [change (sumf f []) with 0; lra|]. rewrite !sumf_cons, IH. lra. Qed.
Lemma sumf_perm f l m : Permutation l m -> sumf f l == sumf f m.
Proof. induction 1; rewrite ?sumf_cons; try lra. Qed.
Lemma sumf_plus f g l : sumf (fun k => f k + g k) l == sumf f l + sumf g l.
Proof. induction l as [|k l IH]; [unfold sumf, fold_right; lra|]. rewrite !sumf_cons, IH. lra. Qed.
Lemma sumf_scale c f l : sumf (fun k => c * f k) l == c * sumf f l.
Proof. induction l as [|k l IH]; [unfold sumf, fold_right; lra|]. rewrite !sumf_cons, IH. lra. Qed.
Lemma sumf_zero f l : (forall k, In k l -> f k == 0) -> sumf f l == 0.
Proof.
  intros H. rewrite (sumf_ext f (fun _ => 0)) by auto.
  clear H. induction l as [|k l IH]; [unfold sumf, fold_right; lra|]. rewrite !sumf_cons, IH. lra.
Qed.
Lemma sumf_hit f j l : NoDup l -> In j l -> sumf (fun k => f k * hit k j) l == f j.
Proof.
  induction l as [|k l IH]; intros N I; [destruct I|].
  cbn [sumf fold_right]. fold (sumf (fun k => f k * hit k j) l).
  inversion N as [|? ? K N']; subst. unfold hit at 1.
  destruct (Nat.eqb_spec k j) as [->|NE].
  - rewrite sumf_zero; [lra|]. intros i Hi. unfold hit.
    destruct (Nat.eqb_spec i j) as [->|]; [contradiction|lra].
  - destruct I as [E|I]; [congruence|]. rewrite (IH N' I). lra.
Qed.
Lemma qsum_sumf (l : list Q) : forall n f, (forall i, (i < length l)%nat -> f (n + i)%nat == nth i l 0) ->
  sumf f (seq n (length l)) == qsum l.
Proof.
  induction l as [|x l IH]; intros n f H; [reflexivity|]. cbn [length seq]. rewrite sumf_cons. unfold qsum. cbn [fold_right]. fold (qsum l).
  rewrite (IH (S n) f).
  - specialize (H 0%nat). rewrite Nat.add_0_r in H. cbn in H. rewrite H by lia. lra.
  - intros i Hi. specialize (H (S i)). cbn in H. rewrite <- H by lia. replace (n + S i)%nat with (S n + i)%nat by lia. reflexivity.
Qed.
Lemma qn_S n : qn (S n) == qn n + 1.
Proof. unfold qn. rewrite Nat2Z.inj_succ, <- Z.add_1_r, inject_Z_plus. reflexivity. Qed.
Lemma qn_pos n : (0 < n)%nat -> 0 < qn n.
Proof. intros H. unfold qn. change 0 with (inject_Z 0). rewrite <- Zlt_Qlt. lia. Qed.

Lemma below_spec x : below x = true <-> x < 1.
Proof.
  unfold below. rewrite Bool.negb_true_iff. split; intros H.
  - apply Qnot_le_lt. intros L. apply Qle_bool_iff in L. congruence.
  - destruct (Qle_bool 1 x) eqn:E; auto. apply Qle_bool_iff in E. lra.
Qed.
Lemma below_false x : below x = false <-> 1 <= x.
Proof.
  unfold below. rewrite Bool.negb_false_iff. apply Qle_bool_iff.
Qed.

(** * Invariant *)
Definition inv (ps : list Q) (dn : list nat) (w : work) : Prop :=
  let n := length ps in
  length (prob w) = n /\ length (alias w) = n /\
  Permutation (dn ++ smaller w ++ larger w) (seq 0 n) /\
  (forall k, (k < n)%nat -> 0 <= nth k (prob w) 0) /\
  (forall k, (k < n)%nat -> (nth k (alias w) 0 < n)%nat) /\
  Forall (fun k => nth k (prob w) 0 < 1) (dn ++ smaller w) /\
  Forall (fun k => 1 <= nth k (prob w) 0) (larger w) /\
  sumf (fun k => nth k (prob w) 0) (smaller w ++ larger w) == qn (length (smaller w ++ larger w)) /\
  (forall j, (j < n)%nat ->
     nth j (prob w) 0 + sumf (fun k => (1 - nth k (prob w) 0) * hit (nth k (alias w) 0%nat) j) dn
     == qn n * nth j ps 0).

Lemma pair_up_inv ps : forall fuel dn w,
  inv ps dn w -> (length (smaller w) + length (larger w) <= fuel)%nat ->
  exists dn', inv ps dn' (pair_up fuel w) /\
    (smaller (pair_up fuel w) = [] \/ larger (pair_up fuel w) = []).
Proof.
  induction fuel as [|fuel IH]; intros dn w I L.
  - exists dn. split; [exact I|]. destruct (smaller w) eqn:E; cbn in L; [left; cbn; rewrite ?E; auto|lia].
  - cbn [pair_up]. destruct (smaller w) as [|small ss] eqn:ES.
    { exists dn. split; auto. }
    destruct (larger w) as [|large ls] eqn:EL.
    { exists dn. split; auto. }
    unfold inv in I. rewrite ES, EL in I.
    destruct I as (LP & LA & P & NN & AR & LT & GE & SUM & M).
    pose (n := length ps). fold n in LP, LA, P, NN, AR, M.
    assert (ND : NoDup (dn ++ (small :: ss) ++ large :: ls)).
    { eapply Permutation_NoDup; [symmetry; exact P|apply seq_NoDup]. }
    assert (INR : forall k, In k (dn ++ (small :: ss) ++ large :: ls) -> (k < n)%nat).
    { intros k Hk. eapply Permutation_in in Hk; [|exact P]. apply in_seq in Hk. lia. }
    assert (Hs : (small < n)%nat) by (apply INR; rewrite !in_app_iff; cbn; auto).
    assert (Hl : (large < n)%nat) by (apply INR; rewrite !in_app_iff; cbn; auto).
    assert (PS : Permutation (dn ++ (small :: ss) ++ large :: ls) (small :: large :: dn ++ ss ++ ls)).
    { etransitivity; [apply Permutation_app_comm|]. cbn. constructor.
      rewrite <- app_assoc. cbn. etransitivity; [symmetry; apply Permutation_middle|]. constructor.
      rewrite (app_assoc ss ls dn). apply Permutation_app_comm. }
    pose proof (Permutation_NoDup PS ND) as ND2.
    inversion ND2 as [|? ? Ns ND3]; subst. inversion ND3 as [|? ? Nl ND4]; subst.
    assert (SL : small <> large) by (intros ->; apply Ns; left; auto).
    assert (nds : ~ In small (dn ++ ss ++ ls)) by (intros K; apply Ns; right; auto).
    rewrite !in_app_iff in nds, Nl.
    pose (q := (nth large (prob w) 0 - 1) + nth small (prob w) 0).
    fold q.
    pose (w0 := {| prob := upd (prob w) large q; alias := upd (alias w) small large;
                   smaller := ss; larger := ls |}). fold w0.
    assert (psame : forall k, k <> large -> nth k (prob w0) 0 = nth k (prob w) 0).
    { intros k Hk. cbn. apply upd_other. auto. }
    assert (plarge : nth large (prob w0) 0 = q).
    { cbn. apply upd_same. rewrite LP. auto. }
    assert (asame : forall k, k <> small -> nth k (alias w0) 0%nat = nth k (alias w) 0%nat).
    { intros k Hk. cbn. apply upd_other. auto. }
    assert (asmall : nth small (alias w0) 0%nat = large).
    { cbn. apply upd_same. rewrite LA. auto. }
    rewrite Forall_forall in LT. rewrite Forall_forall in GE.
    assert (Psm : nth small (prob w) 0 < 1) by (apply LT; rewrite in_app_iff; cbn; auto).
    assert (Psn : 0 <= nth small (prob w) 0) by (apply NN; auto).
    assert (Plg : 1 <= nth large (prob w) 0) by (apply GE; cbn; auto).
    assert (q0 : 0 <= q) by (unfold q; lra).
    pose (w1 := file large w0). fold w1.
    assert (E1 : prob w1 = prob w0) by (unfold w1, file; destruct (below _); reflexivity).
    assert (E2 : alias w1 = alias w0) by (unfold w1, file; destruct (below _); reflexivity).
    assert (E3 : Permutation (smaller w1 ++ larger w1) (large :: ss ++ ls)).
    { unfold w1, file. destruct (below _); cbn; [reflexivity|]. symmetry. apply Permutation_middle. }
    apply (IH (small :: dn) w1).
    + unfold inv. fold n. rewrite E1, E2. cbn [prob alias w0].
      split; [rewrite upd_length; auto|]. split; [rewrite upd_length; auto|].
      split.
      { etransitivity; [|exact P]. symmetry. etransitivity; [exact PS|]. cbn [app]. constructor.
        rewrite E3. apply Permutation_middle. }
      split.
      { intros k Hk. destruct (Nat.eq_dec k large) as [->|NE].
        - change (upd (prob w) large q) with (prob w0). rewrite plarge. exact q0.
        - change (upd (prob w) large q) with (prob w0). rewrite psame by auto. auto. }
      split.
      { intros k Hk. change (upd (alias w) small large) with (alias w0). destruct (Nat.eq_dec k small) as [->|NE].
        - rewrite asmall. exact Hl.
        - rewrite asame by auto. auto. }
      change (upd (prob w) large q) with (prob w0). change (upd (alias w) small large) with (alias w0).
      assert (old : forall k, In k dn \/ k = small \/ In k ss -> nth k (prob w0) 0 < 1).
      { intros k Hk. assert (k <> large) by (intros ->; intuition congruence).
        rewrite psame by auto. apply LT. rewrite in_app_iff. cbn. intuition. }
      assert (oldl : forall k, In k ls -> 1 <= nth k (prob w0) 0).
      { intros k Hk. rewrite psame by (intros ->; tauto). apply GE. cbn. auto. }
      split.
      { rewrite Forall_forall. intros k Hk. unfold w1, file in Hk.
        destruct (below (nth large (prob w0) 0)) eqn:B; cbn in Hk.
        - rewrite in_app_iff in Hk. cbn in Hk. apply below_spec in B.
          destruct Hk as [<-|[Hk|[<-|Hk]]]; [apply old; auto|apply old; auto|exact B|apply old; auto].
        - rewrite in_app_iff in Hk. destruct Hk as [<-|[Hk|Hk]]; apply old; auto. }
      split.
      { rewrite Forall_forall. intros k Hk. unfold w1, file in Hk.
        destruct (below (nth large (prob w0) 0)) eqn:B; cbn in Hk.
        - apply oldl; auto.
        - apply below_false in B. destruct Hk as [<-|Hk]; [exact B|apply oldl; auto]. }
      split.
      { rewrite (sumf_perm _ _ _ E3), (Permutation_length E3).
        assert (E4 : Permutation ((small :: ss) ++ large :: ls) (small :: large :: ss ++ ls)).
        { cbn. constructor. symmetry. apply Permutation_middle. }
        rewrite (sumf_perm _ _ _ E4), (Permutation_length E4) in SUM.
        cbn [length sumf fold_right] in SUM |- *.
        fold (sumf (fun k => nth k (prob w) 0) (ss ++ ls)) in SUM.
        fold (sumf (fun k => nth k (prob w0) 0) (ss ++ ls)).
        rewrite plarge. rewrite (sumf_ext _ (fun k => nth k (prob w) 0)).
        - rewrite !qn_S in SUM. rewrite qn_S. unfold q. lra.
        - intros k Hk. rewrite in_app_iff in Hk. rewrite psame; [reflexivity|]. intros ->. tauto. }
      intros j Hj. cbn [sumf fold_right].
      fold (sumf (fun k => (1 - nth k (prob w0) 0) * hit (nth k (alias w0) 0%nat) j) dn).
      rewrite asmall, (psame small SL).
      rewrite (sumf_ext _ (fun k => (1 - nth k (prob w) 0) * hit (nth k (alias w) 0%nat) j)).
      * specialize (M j Hj). unfold hit at 1. destruct (Nat.eqb_spec large j) as [<-|NE].
        -- rewrite plarge. unfold q. lra.
        -- rewrite psame by auto. lra.
      * intros k Hk. rewrite psame, asame; [reflexivity| |]; intros ->; tauto.
    + rewrite <- app_length, (Permutation_length E3). cbn [length]. rewrite app_length. cbn in L. lia.
Qed.

(** Filling the table. *)
Lemma fill_spec n (ps : list Q) : forall kk pre w,
  length (prob w) = n -> length (alias w) = n -> (kk + length ps <= n)%nat ->
  (forall k, (k < kk)%nat -> nth k (prob w) 0 == qn n * nth k pre 0) -> length pre = kk ->
  (forall k, (k < n)%nat -> nth k (alias w) 0%nat = 0%nat) ->
  Permutation (smaller w ++ larger w) (seq 0 kk) ->
  Forall (fun k => nth k (prob w) 0 < 1) (smaller w) ->
  Forall (fun k => 1 <= nth k (prob w) 0) (larger w) ->
  let w' := fill n kk ps w in
  length (prob w') = n /\ length (alias w') = n /\
  (forall k, (k < kk + length ps)%nat -> nth k (prob w') 0 == qn n * nth k (pre ++ ps) 0) /\
  (forall k, (k < n)%nat -> nth k (alias w') 0%nat = 0%nat) /\
  Permutation (smaller w' ++ larger w') (seq 0 (kk + length ps)) /\
  Forall (fun k => nth k (prob w') 0 < 1) (smaller w') /\
  Forall (fun k => 1 <= nth k (prob w') 0) (larger w').
Proof.
  induction ps as [|p ps IH]; intros kk pre w LP LA B V LE AL P SM LG; cbn [fill].
  - cbn zeta. rewrite Nat.add_0_r, app_nil_r. auto 8.
  - cbn [length] in B |- *.
    set (w0 := {| prob := upd (prob w) kk (inject_Z (Z.of_nat n) * p); alias := alias w;
                  smaller := smaller w; larger := larger w |}).
    assert (E1 : prob (file kk w0) = prob w0) by (unfold file; destruct (below _); reflexivity).
    assert (E2 : alias (file kk w0) = alias w0) by (unfold file; destruct (below _); reflexivity).
    assert (E3 : Permutation (smaller (file kk w0) ++ larger (file kk w0)) (kk :: smaller w ++ larger w)).
    { unfold file. destruct (below _); cbn; [reflexivity|]. symmetry. apply Permutation_middle. }
    assert (NI : forall k, In k (smaller w ++ larger w) -> k <> kk).
    { intros k Hk. eapply Permutation_in in Hk; [|exact P]. apply in_seq in Hk. lia. }
    assert (same : forall k, k <> kk -> nth k (prob w0) 0 = nth k (prob w) 0).
    { intros k Hk. cbn. apply upd_other. auto. }
    assert (new : nth kk (prob w0) 0 = qn n * p).
    { cbn. apply upd_same. lia. }
    rewrite Forall_forall in SM, LG.
    specialize (IH (S kk) (pre ++ [p]) (file kk w0)).
    rewrite <- app_assoc in IH. cbn [app] in IH.
    replace (S kk + length ps)%nat with (kk + S (length ps))%nat in IH by lia.
    apply IH.
    + rewrite E1. cbn. rewrite upd_length. auto.
    + rewrite E2. auto.
    + lia.
    + intros k Hk. rewrite E1. destruct (Nat.eq_dec k kk) as [->|NE].
      * rewrite new, app_nth2, LE, Nat.sub_diag by lia. reflexivity.
      * rewrite same, app_nth1 by lia. apply V. lia.
    + rewrite app_length. cbn. lia.
    + intros k Hk. rewrite E2. apply AL. auto.
    + rewrite E3, P. rewrite seq_S. cbn. apply Permutation_cons_append.
    + rewrite E1. rewrite Forall_forall. intros k Hk. unfold file in Hk.
      destruct (below (nth kk (prob w0) 0)) eqn:BB; cbn in Hk.
      * apply below_spec in BB. destruct Hk as [<-|Hk]; [exact BB|]. rewrite same; [apply SM; auto|].
        apply NI. rewrite in_app_iff. auto.
      * rewrite same; [apply SM; auto|]. apply NI. rewrite in_app_iff. auto.
    + rewrite E1. rewrite Forall_forall. intros k Hk. unfold file in Hk.
      destruct (below (nth kk (prob w0) 0)) eqn:BB; cbn in Hk.
      * rewrite same; [apply LG; auto|]. apply NI. rewrite in_app_iff. auto.
      * apply below_false in BB. destruct Hk as [<-|Hk]; [exact BB|]. rewrite same; [apply LG; auto|].
        apply NI. rewrite in_app_iff. auto.
Qed.

Lemma fold_upd (l : list nat) : forall pr,
  let pr' := fold_left (fun pr k => upd pr k 1) l pr in
  length pr' = length pr /\
  forall k, nth k pr' 0 = if existsb (Nat.eqb k) l then (if Nat.ltb k (length pr) then 1 else nth k pr 0) else nth k pr 0.
Proof.
  induction l as [|i l IH]; intros pr; cbn [fold_left existsb]; [auto|].
  destruct (IH (upd pr i 1)) as [L V]. cbn zeta in *. rewrite upd_length in *. split; [exact L|].
  intros k. rewrite V. destruct (Nat.eqb_spec k i) as [->|NE]; cbn [orb].
  - destruct (Nat.ltb_spec i (length pr)) as [LT|GE].
    + rewrite upd_same by auto. destruct (existsb _ l); reflexivity.
    + rewrite !nth_overflow by (rewrite ?upd_length; lia). destruct (existsb _ l); reflexivity.
  - rewrite upd_other by auto. reflexivity.
Qed.

Lemma exists_in k l : existsb (Nat.eqb k) l = true <-> In k l.
Proof.
  rewrite existsb_exists. split.
  - intros (x & H & E). apply Nat.eqb_eq in E. subst. auto.
  - intros H. exists k. rewrite Nat.eqb_refl. auto.
Qed.

Lemma sum_extreme (f : nat -> Q) l :
  sumf f l == qn (length l) ->
  ((forall k, In k l -> f k < 1) -> l = []) /\
  ((forall k, In k l -> 1 <= f k) -> forall k, In k l -> f k == 1).
Proof.
  intros E. split.
  - intros H. destruct l as [|k l]; [reflexivity|exfalso].
    assert (LE : forall l, (forall k, In k l -> f k < 1) -> sumf f l <= qn (length l)).
    { clear. induction l as [|k l IH]; intros H; [apply Qle_refl|].
      cbn [length sumf fold_right]. fold (sumf f l). rewrite qn_S.
      pose proof (H k (or_introl eq_refl)). pose proof (IH (fun i Hi => H i (or_intror Hi))). lra. }
    cbn [length sumf fold_right] in E. fold (sumf f l) in E. rewrite qn_S in E.
    pose proof (H k (or_introl eq_refl)). pose proof (LE l (fun i Hi => H i (or_intror Hi))). lra.
  - intros H.
    assert (GE : forall l, (forall k, In k l -> 1 <= f k) -> qn (length l) <= sumf f l).
    { clear. induction l as [|k l IH]; intros H; [apply Qle_refl|].
      cbn [length sumf fold_right]. fold (sumf f l). rewrite qn_S.
      pose proof (H k (or_introl eq_refl)). pose proof (IH (fun i Hi => H i (or_intror Hi))). lra. }
    intros k I. apply in_split in I. destruct I as (a & b & ->).
    rewrite sumf_app in E. cbn [sumf fold_right] in E. fold (sumf f b) in E.
    rewrite app_length in E. cbn [length] in E. rewrite Nat.add_succ_r, qn_S in E.
    assert (Q1 : qn (length a) <= sumf f a) by (apply GE; intros; apply H; rewrite in_app_iff; auto).
    assert (Q2 : qn (length b) <= sumf f b) by (apply GE; intros; apply H; rewrite in_app_iff; cbn; auto).
    pose proof (H k ltac:(rewrite in_app_iff; cbn; auto)) as Hk.
    assert (Q3 : qn (length a + length b) == qn (length a) + qn (length b)).
    { unfold qn. rewrite Nat2Z.inj_add, inject_Z_plus. reflexivity. }
    lra.
Qed.

Lemma normal_table ps : ps <> [] -> Forall (Qle 0) ps -> qsum ps == 1 ->
  let n := length ps in
  let w0 := fill n 0 ps {| prob := repeat 0 n; alias := repeat 0%nat n; smaller := []; larger := [] |} in
  let w := pair_up (length (smaller w0) + length (larger w0)) w0 in
  usable n (finish w, alias w) /\
  forall j, (j < n)%nat -> chance (finish w, alias w) j == nth j ps 0.
Proof.
  intros NE NN S1 n w0 w.
  assert (n0 : (0 < n)%nat) by (subst n; destruct ps; [congruence|cbn; lia]).
  destruct (fill_spec n ps 0 [] {| prob := repeat 0 n; alias := repeat 0%nat n; smaller := []; larger := [] |})
    as (LP & LA & V & AL & P & SM & LG); cbn; auto.
  { apply repeat_length. } { apply repeat_length. } { intros; lia. }
  { intros k Hk. apply nth_repeat. }
  fold w0 in LP, LA, V, AL, P, SM, LG. cbn [app] in V. rewrite Nat.add_0_l in V, P. fold n in V, P.
  assert (NN' : forall k, (k < n)%nat -> 0 <= nth k ps 0).
  { intros k Hk. rewrite Forall_forall in NN. apply NN. apply nth_In. exact Hk. }
  assert (qp : 0 < qn n) by (apply qn_pos; auto).
  assert (I : inv ps [] w0).
  { unfold inv. fold n. cbn [app]. repeat split; auto.
    - intros k Hk. rewrite V by auto. specialize (NN' k Hk). nra.
    - intros k Hk. rewrite AL by auto. exact n0.
    - rewrite (sumf_perm _ _ _ P), (Permutation_length P), seq_length.
      rewrite (sumf_ext _ (fun k => qn n * nth k ps 0)).
      + rewrite sumf_scale.
        assert (QS : sumf (fun k => nth k ps 0) (seq 0 n) == qsum ps) by (apply qsum_sumf; reflexivity).
        rewrite QS, S1. lra.
      + intros k Hk. apply in_seq in Hk. apply V. lia.
    - intros j Hj. rewrite V by auto. unfold sumf, fold_right. lra. }
  destruct (pair_up_inv ps _ [] w0 I (le_n _)) as (dn & J & EMP). fold w in J, EMP.
  destruct J as (LP' & LA' & P' & NN'' & AR & LT & GE & SUM & M). fold n in LP', LA', P', NN'', AR, M.
  apply sum_extreme in SUM. destruct SUM as [X1 X2].
  rewrite Forall_forall in LT, GE.
  assert (ONE : forall k, In k (smaller w ++ larger w) -> nth k (prob w) 0 == 1).
  { destruct EMP as [ES|EL].
    - rewrite ES in *. cbn [app] in *. apply X2. auto.
    - rewrite EL, app_nil_r in *. intros k Hk. rewrite X1 in Hk; [destruct Hk|].
      intros i Hi. apply LT. rewrite in_app_iff. auto. }
  destruct (fold_upd (rev (smaller w) ++ rev (larger w)) (prob w)) as [FL FV].
  fold (finish w) in FL, FV. cbn zeta in FL, FV. rewrite LP' in FL, FV.
  assert (mem : forall k, existsb (Nat.eqb k) (rev (smaller w) ++ rev (larger w)) = true <-> In k (smaller w ++ larger w)).
  { intros k. rewrite exists_in, !in_app_iff, <- !in_rev. reflexivity. }
  assert (FQ : forall k, (k < n)%nat -> nth k (finish w) 0 == nth k (prob w) 0).
  { intros k Hk. rewrite FV. destruct (existsb _ _) eqn:E; [|reflexivity].
    apply mem in E. destruct (Nat.ltb_spec k n); [symmetry; apply ONE; exact E|lia]. }
  assert (SPLIT : forall k, (k < n)%nat -> In k dn \/ In k (smaller w ++ larger w)).
  { intros k Hk. apply in_app_iff. eapply Permutation_in; [symmetry; exact P'|]. apply in_seq. lia. }
  split.
  - split; [exact FL|]. split; [exact LA'|]. split; [|exact AR].
    cbn [fst]. intros k Hk. rewrite (FQ k Hk). split; [auto|].
    destruct (SPLIT k Hk) as [D|A].
    + apply Qlt_le_weak. apply LT. rewrite in_app_iff. auto.
    + rewrite (ONE k A). lra.
  - intros j Hj. unfold chance. cbn [fst snd]. rewrite FL.
    etransitivity; [apply (sumf_scale (1 / qn n) (fun kk => nth kk (finish w) 0 * hit (draw1 (finish w, alias w) kk 1) j
       + (1 - nth kk (finish w) 0) * hit (draw1 (finish w, alias w) kk 0) j))|].
    rewrite (sumf_ext _ (fun k => nth k (prob w) 0 * hit k j + (1 - nth k (prob w) 0) * hit (nth k (alias w) 0%nat) j)).
    2:{ intros k Hk. apply in_seq in Hk. rewrite FQ by lia. unfold draw1. cbn [snd].
        rewrite Nat.sub_diag, Nat.mul_1_r, !Nat.mul_0_r, Nat.add_0_r, Nat.sub_0_r, Nat.mul_1_r. cbn [Nat.add]. reflexivity. }
    rewrite (sumf_plus (fun k => nth k (prob w) 0 * hit k j) (fun k => (1 - nth k (prob w) 0) * hit (nth k (alias w) 0%nat) j)).
    rewrite (sumf_hit (fun k => nth k (prob w) 0)); [|apply seq_NoDup|apply in_seq; lia].
    rewrite <- (sumf_perm _ _ _ P'), sumf_app.
    rewrite (sumf_zero _ (smaller w ++ larger w)).
    + specialize (M j Hj). rewrite Qplus_0_r. rewrite M. field. lra.
    + intros k Hk. rewrite (ONE k Hk). lra.
Qed.

Lemma qsum_scale c l : qsum (map (fun p => p / c) l) == qsum l / c.
Proof.
  induction l as [|p l IH]; unfold qsum in *; cbn [map fold_right]; [unfold Qdiv; lra|]. rewrite IH. unfold Qdiv. lra.
Qed.

(** Weights with sum at least 1 (which the code scales to 1) give a table the sampler
    accepts, and each draw has outcome [j] with probability exactly [probs[j] / sum]. *)
Theorem C84_draws_partial :
  forall probs, weights probs -> 1 <= qsum probs ->
    usable (length probs) (snd (alias_init probs)) /\
    forall j, (j < length probs)%nat ->
      chance (snd (alias_init probs)) j == nth j probs 0 / qsum probs.
Proof.
  intros probs (NE & NN & S0) S1. unfold alias_init.
  assert (H : normalise probs <> [] /\ Forall (Qle 0) (normalise probs) /\ qsum (normalise probs) == 1 /\
              length (normalise probs) = length probs /\
              forall j, (j < length probs)%nat -> nth j (normalise probs) 0 == nth j probs 0 / qsum probs).
  { unfold normalise. destruct (Qle_bool (qsum probs) 1) eqn:E; cbn [negb].
    - apply Qle_bool_iff in E. assert (Q1 : qsum probs == 1) by lra.
      repeat split; auto. intros j Hj. rewrite Q1. field.
    - split; [destruct probs; [congruence|discriminate]|]. split.
      { rewrite Forall_forall in *. intros x Hx. apply in_map_iff in Hx. destruct Hx as (p & <- & Hp).
        apply NN in Hp. apply Qle_shift_div_l; lra. }
      split; [rewrite qsum_scale; field; lra|]. split; [apply map_length|].
      intros j Hj. rewrite (nth_indep _ 0 (0 / qsum probs)) by (rewrite map_length; auto).
      rewrite (map_nth (fun p => p / qsum probs)). reflexivity. }
  destruct H as (H1 & H2 & H3 & H4 & H5).
  destruct (normal_table (normalise probs) H1 H2 H3) as [U C]. cbn [snd]. rewrite H4 in *.
  split; [exact U|]. intros j Hj. rewrite C by auto. auto.
Qed.
Example C84_draws_case :
  let '(_, t) := alias_init [1; 3; 0; 4] in
  fst t <> repeat 1 4 /\ map (fun j => Qred (chance t j)) (seq 0 4) = [1#8; 3#8; 0; 1#2].
Proof. vm_compute. split; [discriminate|reflexivity]. Qed.

(** Weights with sum below 1 are not scaled, and the draws are not proportional to them. *)
Theorem C84_draws_refuted : ~ C84_claim.
Proof.
  intros C. specialize (C [1#2; 1#4]).
  assert (W : weights [1#2; 1#4]).
  { split; [discriminate|]. split; [|vm_compute; reflexivity]. repeat constructor; vm_compute; discriminate. }
  specialize (C W 0%nat ltac:(cbn; lia)). vm_compute in C. discriminate.
Qed.

(** The constructor leaves the caller's own vector divided by its sum when that exceeds 1. *)
Theorem C84_caller_scaled :
  forall probs, Forall (Qle 0) probs -> 1 < qsum probs ->
    qsum (fst (alias_init probs)) == 1 /\
    forall j, (j < length probs)%nat -> nth j (fst (alias_init probs)) 0 == nth j probs 0 / qsum probs.
Proof.
  intros probs NN S1. cbn [alias_init fst]. unfold normalise.
  destruct (Qle_bool (qsum probs) 1) eqn:E; [apply Qle_bool_iff in E; lra|]. cbn [negb].
  split; [rewrite qsum_scale; field; lra|].
  intros j Hj. rewrite (nth_indep _ 0 (0 / qsum probs)) by (rewrite map_length; auto).
  rewrite (map_nth (fun p => p / qsum probs)). reflexivity.
Qed.
Example C84_caller_case : map Qred (fst (alias_init [1; 1; 2])) = [1#4; 1#4; 1#2].
Proof. reflexivity. Qed.

Print Assumptions C84_draws_partial.
Print Assumptions C84_draws_refuted.
Print Assumptions C84_caller_scaled.
