(** C45, C46, C47 continued: where the pruned weights go, which weights are chosen, and what
    the factorised matrix is. *)
From Coq Require Import Lqa.
From Verif Require Import Prelude Candidates_Model Recorder_Model SparseGpt_Model SparseGpt_Lemmas SparseGpt_Props.
Open Scope Z_scope.

(** ** C45: the compensation is exact *)
(** A row vector times the upper triangular matrix given by its rows from the diagonal on. *)
Fixpoint row_times (es : list Q) (hs : list (list Q)) : list Q :=
  match es, hs with
  | e :: es', (d :: h) :: hs' => (e * d)%Q :: map (fun p => e * fst p + snd p)%Q (combine h (row_times es' hs'))
  | _, _ => []
  end.
Fixpoint nonzero_diag (hs : list (list Q)) : Prop :=
  match hs with [] => True | h :: r => ~ (hd 0 h == 0)%Q /\ nonzero_diag r end.
Lemma axpy_length : forall e h w, length (axpy e h w) = Nat.min (length h) (length w).
Proof. intros. unfold axpy. rewrite map_length, combine_length. reflexivity. Qed.
Lemma row_times_length : forall n es hs, tri n hs -> length es = n -> length (row_times es hs) = n.
Proof.
  induction n as [| n IH]; intros es hs T L; [destruct es; [destruct hs; reflexivity | discriminate] |].
  destruct hs as [| [| d h] hs]; [destruct T | destruct T as [T _]; discriminate |]. destruct es as [| e es]; [discriminate |].
  destruct T as [T1 T2]. cbn [length] in *. cbn [row_times]. cbn [length]. rewrite map_length, combine_length, (IH es hs T2) by lia. lia.
Qed.
(** What pruning changes in a row is the errors times the factor: [w - q = e U], whichever
    columns are masked; a masked column becomes zero and an unmasked one makes no error. *)
Theorem C45_compensated : forall n hs ms w, tri n hs -> length ms = n -> length w = n -> nonzero_diag hs ->
  let '(qs, es) := row_prune hs ms w in
  length qs = n /\ length es = n /\
  Forall2 Qeq (map (fun p => fst p - snd p)%Q (combine w qs)) (row_times es hs) /\
  (forall j, nth_error ms j = Some true -> nth_error qs j = Some 0%Q) /\
  (forall j e, nth_error ms j = Some false -> nth_error es j = Some e -> (e == 0)%Q).
Proof.
  induction n as [| n IH]; intros hs ms w T L1 L2 D.
  - destruct hs; [| destruct T]. destruct ms; [| discriminate]. destruct w; [| discriminate]. cbn.
    repeat split; try constructor; intros [| j]; try discriminate; intros e X; discriminate X.
  - destruct hs as [| [| d h] hs]; [destruct T | destruct T as [T _]; discriminate |]. destruct ms as [| m ms]; [discriminate |].
    destruct w as [| x w]; [discriminate |]. destruct T as [T1 T2]. cbn [length] in *. destruct D as [D1 D2]. cbn [hd] in D1.
    cbn [row_prune]. set (q := if m then 0%Q else x). set (e := ((x - q) / d)%Q).
    specialize (IH hs ms (axpy e h w) T2 ltac:(lia) ltac:(rewrite axpy_length; lia) D2).
    destruct (row_prune hs ms (axpy e h w)) as [qs es]. destruct IH as (A & B & F & M & U). cbn [length].
    split; [lia |]. split; [lia |]. split; [| split].
    + cbn [combine map row_times]. constructor; [unfold e; cbn [fst snd]; field; exact D1 |].
      assert (RL : length (row_times es hs) = n) by (apply row_times_length; assumption).
      clear - F RL T1 L2 A. revert F RL. generalize (row_times es hs) as t. intros t F RL.
      assert (Lh : length h = n) by lia. assert (Lw : length w = n) by lia. clear T1 L2.
      revert w qs t n F RL Lh Lw A. induction h as [| a h IHh]; intros w qs t n F RL Lh Lw A; cbn [length] in Lh.
      * destruct w as [| y w]; [cbn; constructor | cbn [length] in Lw; lia].
      * destruct n as [| n]; [discriminate |]. destruct w as [| y w]; [discriminate |]. destruct qs as [| z qs]; [discriminate |].
        destruct t as [| s t]; [discriminate |]. unfold axpy in F. cbn [combine map fst snd] in F. inversion F as [| ? ? ? ? F1 F2]; subst.
        cbn [combine map fst snd]. constructor; [rewrite <- F1; ring |]. cbn [length] in *. apply (IHh w qs t n); try lia. exact F2.
    + intros [| j] J; cbn [nth_error] in *; [injection J as ->; reflexivity | apply M; exact J].
    + intros [| j] f J F0; cbn [nth_error] in *; [| apply (U j); assumption]. injection J as ->. injection F0 as <-. unfold e, q. field. exact D1.
Qed.
Example C45_compensated_example :
  tri 3 [[2; 4; 6]; [1; 3]; [5]]%Q /\ nonzero_diag [[2; 4; 6]; [1; 3]; [5]]%Q /\
  map (map Qred) [fst (row_prune [[2; 4; 6]; [1; 3]; [5]]%Q [true; false; true] [8; 1; 30]%Q)] = [[0; -(15); 0]]%Q.
Proof. split; [cbn; repeat split |]. split; [cbn; repeat split; discriminate | vm_compute; reflexivity]. Qed.

(** ** C45: which weights are masked depends on their magnitude *)
Theorem C45_magnitude : forall s hs W, block_masks s hs (map (map Qopp) W) = block_masks s hs W.
Proof.
  intros s hs W.
  assert (E : forall w, scores hs (map Qopp w) = scores hs w).
  { intro w. unfold scores. revert w. induction hs as [| h hs IH]; intros [| x w]; try reflexivity. cbn [map combine].
    f_equal; [| apply IH]. unfold score. cbn [fst snd]. f_equal. destruct x as [a b]. unfold Qmult, Qopp. cbn [Qnum Qden].
    f_equal. apply Z.mul_opp_opp. }
  unfold block_masks. rewrite map_map.
  assert (E1 : map (fun x => scores hs (map Qopp x)) W = map (scores hs) W) by (apply map_ext; exact E). rewrite E1.
  destruct (threshold s (concat (map (scores hs) W))) as [t |]; [| reflexivity]. cbn [bind]. f_equal. rewrite map_map.
  apply map_ext. intro w. rewrite E. reflexivity.
Qed.
(** With the same diagonal entry a smaller magnitude is never kept while a larger one goes. *)
Theorem C45_smaller_first : forall s hs W ms i j k l a b,
  block_masks s hs W = Ok ms ->
  (exists h h' wi wk mi mk, nth_error hs j = Some h /\ nth_error hs l = Some h' /\ (hd 0 h == hd 0 h')%Q /\ ~ (hd 0 h == 0)%Q /\
     nth_error W i = Some wi /\ nth_error W k = Some wk /\ nth_error wi j = Some a /\ nth_error wk l = Some b /\ (a * a <= b * b)%Q /\
     nth_error ms i = Some mi /\ nth_error ms k = Some mk /\ nth_error mk l = Some true /\ nth_error mi j = Some false) -> False.
Proof.
  intros s hs W ms i j k l a b E (h & h' & wi & wk & mi & mk & H1 & H2 & HE & HN & W1 & W2 & A1 & A2 & LE & M1 & M2 & T & F).
  destruct (masks_shape _ _ _ _ E) as (t & _ & ->). clear E.
  assert (S1 : forall w n m, nth_error (map (map (fun x => Qle_bool x t)) (map (scores hs) W)) n = Some m -> nth_error W n = Some w -> m = map (fun x => Qle_bool x t) (scores hs w)).
  { intros w n m X Y. apply map_nth_error with (f := scores hs) in Y. apply map_nth_error with (f := map (fun x => Qle_bool x t)) in Y. congruence. }
  rewrite (S1 wi i mi M1 W1) in F. rewrite (S1 wk k mk M2 W2) in T. clear S1 M1 M2.
  assert (SC : forall n hh w x, nth_error hs n = Some hh -> nth_error w n = Some x -> nth_error (scores hs w) n = Some (score (hh, x))).
  { intros n hh w x X Y. unfold scores. apply map_nth_error. clear - X Y. revert hs w X Y. induction n as [| n IHn]; intros [| z hs] [| y w] X Y; try discriminate; cbn in *; [congruence | auto]. }
  rewrite (map_nth_error _ _ _ (SC j h wi a H1 A1)) in F. rewrite (map_nth_error _ _ _ (SC l h' wk b H2 A2)) in T.
  injection F as F. injection T as T. apply Qle_bool_iff in T.
  assert (X : (score (h, a) <= t)%Q); [| apply Qle_bool_iff in X; congruence].
  apply Qle_trans with (2 := T). unfold score. cbn [fst snd]. rewrite HE. unfold Qdiv. apply Qmult_le_compat_r; [exact LE |].
  apply Qinv_le_0_compat. destruct (Qlt_le_dec (hd 0%Q h') 0); nra.
Qed.
Example C45_magnitude_example :
  block_masks (1 # 2) [[1; 0]; [1]]%Q [[-3; 4]; [5; 1]]%Q = Ok [[true; true]; [false; true]] /\
  block_masks (1 # 4) [[1; 0]; [1]]%Q [[-3; 4]; [5; 1]]%Q = Ok [[true; false]; [false; true]].
Proof. split; vm_compute; reflexivity. Qed.

(** ** C46: twice the sum of the outer products *)
Definition vectors (us : list (list batch)) : list (list Q) := concat (map (fun xs => concat (map (fun x => concat x) xs)) us).
Definition outer (vs : list (list Q)) (i j : nat) : Q := fold_right Qplus 0%Q (map (fun v => nth i v 0 * nth j v 0)%Q vs).
Lemma outer_app : forall a b i j, (outer (a ++ b) i j == outer a i j + outer b i j)%Q.
Proof.
  intros a b i j. unfold outer. induction a as [| x a IH]; cbn [app map fold_right]; [ring |]. rewrite IH. ring.
Qed.
Lemma total_outer : forall us i j, (total us i j == 2 * outer (vectors us) i j)%Q.
Proof.
  intros us i j. unfold total, vectors. induction us as [| xs us IH]; [reflexivity |]. cbn [map concat sumQ fold_right].
  rewrite outer_app. unfold sumQ in IH. rewrite IH. clear IH.
  assert (X : (sumQ (map (fun x => gram x i j) xs) == 2 * outer (concat (map (fun x => concat x) xs)) i j)%Q); [| rewrite X; ring].
  induction xs as [| x xs IH]; [reflexivity |]. cbn [map concat sumQ fold_right]. rewrite outer_app. unfold sumQ in IH. rewrite IH.
  unfold gram, outer, sumQ. ring.
Qed.
Theorem C46_products_partial :
  forall dist us, us <> [] -> (forall xs, In xs us -> 0 < samples xs /\ even xs) ->
    exists a h, run_ops (Init :: map (Update dist) us) acc_init = Ok a /\ _hessian a = Some h /\
      forall i j, (h i j == 2 * outer (vectors us) i j / inject_Z (count us))%Q.
Proof.
  intros dist us N H. destruct (C46_first_partial dist us N H) as (a & h & E & F & V). exists a, h. split; [exact E |]. split; [exact F |].
  intros i j. rewrite V, total_outer. reflexivity.
Qed.
(** Before the first initialisation an update raises. *)
Theorem C46_uninitialised : forall dist xs n,
  update_hessian dist xs {| _hessian := None; hessian_batch := n |} = Raise (if dist then AssertionError else AttributeError).
Proof. reflexivity. Qed.
Example C46_products_example :
  vectors [[[[[1; 2]]]]; [[[[3; 0]; [1; 1]]]]]%Q = [[1; 2]; [3; 0]; [1; 1]]%Q /\ (outer [[1; 2]; [3; 0]; [1; 1]] 0 1 == 3)%Q.
Proof. split; reflexivity. Qed.

(** ** C47: the matrix that is factorised *)
Lemma diag_nth : forall H i r, nth_error H i = Some r -> nth_error (diag H) i = Some (nth i r 0%Q).
Proof.
  intros H i r. unfold diag.
  assert (G : forall l k i, nth_error l i = Some r -> nth_error (map (fun p => nth (fst p) (snd p) 0%Q) (combine (seq k (length l)) l)) i = Some (nth (k + i) r 0%Q)).
  { induction l as [| x l IH]; intros k [| n] E; try discriminate; cbn [length seq combine map nth_error fst snd] in *.
    - injection E as ->. rewrite Nat.add_0_r. reflexivity.
    - rewrite (IH (S k) n E). f_equal. f_equal. lia. }
  intros E. exact (G H 0%nat i E).
Qed.
Definition square (H : matrix) : Prop := Forall (fun r => length r = length H) H.
Lemma set_diag_nth : forall H d i r x, nth_error H i = Some r -> nth_error d i = Some x ->
  nth_error (set_diag d H) i = Some (firstn i r ++ x :: skipn (1 + i) r).
Proof.
  intros H d i r x. unfold set_diag.
  assert (G : forall l dl k i, nth_error l i = Some r -> nth_error dl i = Some x ->
    nth_error (map (fun p : nat * (Q * list Q) => firstn (fst p) (snd (snd p)) ++ fst (snd p) :: skipn (1 + fst p) (snd (snd p))) (combine (seq k (length l)) (combine dl l))) i
    = Some (firstn (k + i) r ++ x :: skipn (1 + (k + i)) r)).
  { induction l as [| y l IH]; intros [| z dl] k [| n] E1 E2; try discriminate; cbn [length seq combine map nth_error fst snd] in *.
    - injection E1 as ->. injection E2 as ->. rewrite Nat.add_0_r. reflexivity.
    - rewrite (IH dl (S k) n E1 E2). replace (S k + n)%nat with (k + S n)%nat by lia. reflexivity. }
  intros E1 E2. exact (G H d 0%nat i E1 E2).
Qed.
Lemma set_diag_entry : forall H d i r x, square H -> nth_error H i = Some r -> nth_error d i = Some x ->
  exists r', nth_error (set_diag d H) i = Some r' /\ length r' = length H /\ nth i r' 0%Q = x /\ (forall j, j <> i -> nth j r' 0%Q = nth j r 0%Q).
Proof.
  intros H d i r x SQ E1 E2. assert (LR : length r = length H) by (unfold square in SQ; rewrite Forall_forall in SQ; apply SQ; apply nth_error_In with (1 := E1)).
  assert (LI : (i < length H)%nat) by (apply nth_error_Some; congruence).
  eexists. split; [apply set_diag_nth; eassumption |]. split.
  - rewrite app_length, firstn_length. cbn [length]. rewrite skipn_length. lia.
  - assert (LF : length (firstn i r) = i) by (rewrite firstn_length; lia). split.
    + rewrite app_nth2 by lia. rewrite LF, Nat.sub_diag. reflexivity.
    + intros j N. destruct (Nat.lt_ge_cases j i) as [J | J].
      * rewrite app_nth1 by lia. rewrite <- (firstn_skipn i r) at 2. rewrite app_nth1 by lia. reflexivity.
      * rewrite app_nth2 by lia. rewrite LF. destruct (j - i)%nat as [| n] eqn:K; [lia |]. cbn [nth].
        rewrite <- (firstn_skipn (1 + i) r) at 2. rewrite app_nth2 by (rewrite firstn_length; lia). rewrite firstn_length. f_equal. lia.
Qed.
Lemma set_diag_square : forall H d, square H -> length d = length H -> square (set_diag d H) /\ length (set_diag d H) = length H.
Proof.
  intros H d SQ L. assert (LL : length (set_diag d H) = length H) by (unfold set_diag; rewrite map_length, !combine_length, seq_length; lia).
  split; [| exact LL]. unfold square. rewrite Forall_forall. intros r I. apply In_nth_error in I. destruct I as (i & I).
  assert (LI : (i < length (set_diag d H))%nat) by (apply nth_error_Some; congruence). rewrite LL in *.
  destruct (nth_error H i) as [r0 |] eqn:E1; [| apply nth_error_None in E1; lia]. destruct (nth_error d i) as [x |] eqn:E2; [| apply nth_error_None in E2; lia].
  destruct (set_diag_entry H d i r0 x SQ E1 E2) as (r' & A & B & _). congruence.
Qed.
Lemma diag_length : forall H, length (diag H) = length H.
Proof. intro H. unfold diag. rewrite map_length, combine_length, seq_length. lia. Qed.
(** Diagonal entries: a zero becomes one, and [percdamp] times the mean of the resulting
    diagonal is added; all other entries stay.  So it is positive if the Hessian's diagonal is
    not negative, even without damping. *)
Definition revived (x : Q) : Q := if Qeq_bool x 0 then 1%Q else x.
Theorem C47_factorised : forall percdamp H, square H ->
  let damp := (percdamp * (fold_right Qplus 0 (map revived (diag H)) / inject_Z (Z.of_nat (length H))))%Q in
  let H' := damped percdamp (revive H) in
  square H' /\ length H' = length H /\
  (forall i j r r', nth_error H i = Some r -> nth_error H' i = Some r' ->
     nth i r' 0%Q = (revived (nth i r 0) + damp)%Q /\ (j <> i -> nth j r' 0%Q = nth j r 0%Q)) /\
  ((0 <= percdamp)%Q -> (forall i r, nth_error H i = Some r -> (0 <= nth i r 0)%Q) ->
   forall i r', nth_error H' i = Some r' -> (0 < nth i r' 0)%Q).
Proof.
  intros p H SQ damp H'.
  assert (LD : length (map revived (diag H)) = length H) by (rewrite map_length; apply diag_length).
  assert (RV : revive H = set_diag (map revived (diag H)) H) by reflexivity.
  destruct (set_diag_square H (map revived (diag H)) SQ LD) as [SQ1 L1]. rewrite <- RV in SQ1, L1.
  assert (DR : diag (revive H) = map revived (diag H)).
  { apply nth_ext with (d := 0%Q) (d' := 0%Q); [rewrite diag_length, L1, LD; reflexivity |].
    intros n N. rewrite diag_length, L1 in N. destruct (nth_error H n) as [r |] eqn:E; [| apply nth_error_None in E; lia].
    assert (E2 : nth_error (map revived (diag H)) n = Some (revived (nth n r 0%Q))) by (apply map_nth_error, diag_nth, E).
    destruct (set_diag_entry H _ n r _ SQ E E2) as (r' & A & B & C & _). rewrite <- RV in A.
    rewrite (nth_error_nth _ _ _ (diag_nth _ _ _ A)), (nth_error_nth _ _ _ E2). exact C. }
  assert (DE : H' = set_diag (map (fun x => x + damp)%Q (diag (revive H))) (revive H)) by (unfold H', damped; rewrite DR, L1; reflexivity).
  assert (L2 : length (map (fun x => x + damp)%Q (diag (revive H))) = length (revive H)) by (rewrite map_length; apply diag_length).
  destruct (set_diag_square (revive H) _ SQ1 L2) as [SQ3 L3]. rewrite <- DE in SQ3, L3.
  assert (ENT : forall i r r', nth_error H i = Some r -> nth_error H' i = Some r' ->
     nth i r' 0%Q = (revived (nth i r 0) + damp)%Q /\ (forall j, j <> i -> nth j r' 0%Q = nth j r 0%Q)).
  { intros i r r' E E'. assert (E2 : nth_error (map revived (diag H)) i = Some (revived (nth i r 0%Q))) by (apply map_nth_error, diag_nth, E).
    destruct (set_diag_entry H _ i r _ SQ E E2) as (r1 & A & B & C & D). rewrite <- RV in A.
    assert (E3 : nth_error (map (fun x => x + damp)%Q (diag (revive H))) i = Some (nth i r1 0 + damp)%Q) by (apply (map_nth_error (fun x => x + damp)%Q), diag_nth, A).
    destruct (set_diag_entry (revive H) _ i r1 _ SQ1 A E3) as (r2 & A2 & B2 & C2 & D2). rewrite <- DE in A2. assert (r2 = r') by congruence. subst r2.
    split; [congruence |]. intros j N. rewrite D2, D by exact N. reflexivity. }
  split; [exact SQ3 |]. split; [congruence |]. split.
  - intros i j r r' E E'. destruct (ENT i r r' E E') as [X Y]. split; [exact X | apply Y].
  - intros P NN i r' E'. assert (LI : (i < length H)%nat) by (rewrite <- L1, <- L3; apply nth_error_Some; congruence).
    destruct (nth_error H i) as [r |] eqn:E; [| apply nth_error_None in E; lia]. destruct (ENT i r r' E E') as [-> _].
    assert (RP : forall x, (0 <= x)%Q -> (0 < revived x)%Q).
    { intros x X. unfold revived. destruct (Qeq_bool x 0) eqn:K; [reflexivity |]. apply Qeq_bool_neq in K. lra. }
    assert (DP : (0 <= damp)%Q).
    { unfold damp. apply Qmult_le_0_compat; [exact P |]. unfold Qdiv. apply Qmult_le_0_compat.
      - assert (FD : Forall (fun x => 0 <= x)%Q (diag H)).
        { rewrite Forall_forall. intros x I. apply In_nth_error in I. destruct I as (n & I). assert (LN : (n < length H)%nat) by (rewrite <- diag_length; apply nth_error_Some; congruence).
          destruct (nth_error H n) as [rn |] eqn:En; [| apply nth_error_None in En; lia]. rewrite (diag_nth _ _ _ En) in I. injection I as <-. apply (NN n); exact En. }
        clear - FD RP. induction FD as [| x l X FD IHl]; cbn [map fold_right]; [apply Qle_refl |]. specialize (RP x X). lra.
      - apply Qinv_le_0_compat. change 0%Q with (inject_Z 0). rewrite <- Zle_Qle. lia. }
    specialize (RP _ (NN i r E)). lra.
Qed.
Example C47_factorised_example :
  square [[0; 0]; [0; 3]]%Q /\ map (map Qred) (damped (1 # 2) (revive [[0; 0]; [0; 3]]%Q)) = [[2; 0]; [0; 4]]%Q.
Proof. split; [repeat constructor | vm_compute; reflexivity]. Qed.
Print Assumptions C45_compensated.
Print Assumptions C45_magnitude.
Print Assumptions C45_smaller_first.
Print Assumptions C46_products_partial.
Print Assumptions C46_uninitialised.
Print Assumptions C47_factorised.
