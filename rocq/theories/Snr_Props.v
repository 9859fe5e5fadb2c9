(** C237: the signal-to-noise error. *)
From Coq Require Import String Ascii Lqa.
From Verif Require Import Prelude Snr_Model.
Local Open Scope list_scope.
Local Open Scope nat_scope.

(** ** Specification *)
Definition well_formed (t : tensor) : Prop := length (t_data t) = fold_right Nat.mul 1 (t_shape t).
(** Number of samples and entries of a sample: a tensor with one dimension is one sample. *)
Definition samples (s : list nat) : nat := match s with [] => 0 | [_] => 1 | n :: _ => n end.
Definition width (s : list nat) : nat := match s with [] => 0 | [k] => k | _ :: r => fold_right Nat.mul 1 r end.
Definition entry (t : tensor) (i j : nat) : Q := nth (i * width (t_shape t) + j) (t_data t) 0%Q.
Fixpoint sum_to (k : nat) (f : nat -> Q) : Q := match k with O => 0%Q | S m => (sum_to m f + f m)%Q end.
Definition error_of (p r : tensor) (i : nat) : Q :=
  (sum_to (width (t_shape p)) (fun j => (entry p i j - entry r i j) * (entry p i j - entry r i j))
   / (sum_to (width (t_shape p)) (fun j => entry r i j * entry r i j) + (1 # 10000000)))%Q.
(** Two strings that differ in the case of letters only. *)
Inductive same_but_case : string -> string -> Prop :=
| sc_nil : same_but_case EmptyString EmptyString
| sc_same c s t : same_but_case s t -> same_but_case (String c s) (String c t)
| sc_up n s t : 65 <= n <= 90 -> same_but_case s t -> same_but_case (String (ascii_of_nat n) s) (String (ascii_of_nat (n + 32)) t)
| sc_down n s t : 65 <= n <= 90 -> same_but_case s t -> same_but_case (String (ascii_of_nat (n + 32)) s) (String (ascii_of_nat n) t).

(** ** Proofs *)
Lemma shape_eqb_iff : forall a b, shape_eqb a b = true <-> a = b.
Proof.
  induction a as [| x a IH]; intros [| y b]; cbn; split; intro H; try discriminate; try reflexivity.
  - apply andb_prop in H. destruct H as [H1 H2]. apply Nat.eqb_eq in H1. apply IH in H2. subst. reflexivity.
  - injection H as -> ->. rewrite Nat.eqb_refl. cbn. apply IH. reflexivity.
Qed.
Lemma sum_to_list : forall (g : Q -> Q) l, (qsum (map g l) == sum_to (length l) (fun j => g (nth j l 0%Q)))%Q.
Proof.
  intros g l. assert (A : forall l x, (qsum (l ++ [x]) == qsum l + x)%Q) by (unfold qsum; induction l0 as [| y l0 IHl]; intro x; cbn [app fold_right]; [ring | rewrite IHl; ring]).
  assert (E : forall k f h, (forall j, j < k -> (f j == h j)%Q) -> (sum_to k f == sum_to k h)%Q).
  { induction k as [| k IHk]; intros f h H; [reflexivity |]. cbn [sum_to]. rewrite (IHk f h) by (intros; apply H; lia). rewrite (H k) by lia. reflexivity. }
  induction l as [| x l IH] using rev_ind; [reflexivity |]. rewrite map_app. cbn [map]. rewrite A, app_length, Nat.add_1_r, IH. cbn [sum_to].
  rewrite app_nth2, Nat.sub_diag by lia. cbn [nth]. apply Qplus_comp; [| reflexivity]. apply E. intros j J. rewrite app_nth1 by exact J. reflexivity.
Qed.
Lemma sum_ext : forall k f h, (forall j, j < k -> (f j == h j)%Q) -> (sum_to k f == sum_to k h)%Q.
Proof.
  induction k as [| k IHk]; intros f h H; [reflexivity |]. cbn [sum_to]. rewrite (IHk f h) by (intros; apply H; lia). rewrite (H k) by lia. reflexivity.
Qed.
Lemma rows_spec : forall n k l, length l = n * k -> length (rows n k l) = n /\
  forall i, i < n -> exists row, nth_error (rows n k l) i = Some row /\ length row = k /\ forall j, j < k -> nth j row 0%Q = nth (i * k + j) l 0%Q.
Proof.
  induction n as [| n IH]; intros k l L; cbn [rows]; [split; [reflexivity | intros i I; lia] |].
  assert (L2 : length (skipn k l) = n * k) by (rewrite skipn_length; lia). destruct (IH k (skipn k l) L2) as [A B]. cbn [length]. split; [lia |].
  assert (LF : length (firstn k l) = k) by (rewrite firstn_length; lia).
  intros [| i] I; cbn [nth_error].
  - exists (firstn k l). split; [reflexivity |]. split; [exact LF |]. intros j J. cbn [Nat.mul Nat.add].
    rewrite <- (firstn_skipn k l) at 2. rewrite app_nth1 by lia. reflexivity.
  - destruct (B i ltac:(lia)) as (row & R1 & R2 & R3). exists row. split; [exact R1 |]. split; [exact R2 |]. intros j J. rewrite (R3 j J).
    rewrite <- (firstn_skipn k l) at 2. rewrite app_nth2 by (rewrite LF; cbn; lia). rewrite LF. f_equal. cbn. lia.
Qed.
Lemma flat_spec : forall t, well_formed t -> t_shape t <> [] -> exists m, flat t = Ok m /\ length m = samples (t_shape t) /\
  forall i, i < samples (t_shape t) -> exists row, nth_error m i = Some row /\ length row = width (t_shape t) /\
    forall j, j < width (t_shape t) -> nth j row 0%Q = entry t i j.
Proof.
  intros [s d] W N. unfold well_formed, flat, entry in *. cbn [t_shape t_data] in *. destruct s as [| n [| m s]]; [congruence | |].
  - cbn [fold_right] in W. destruct (rows_spec 1 n d ltac:(lia)) as [A B]. eexists. split; [reflexivity |]. split; [exact A | exact B].
  - destruct (rows_spec n (numel (m :: s)) d) as [A B]; [exact W |]. eexists. split; [reflexivity |]. split; [exact A | exact B].
Qed.
Lemma lower_char_same : forall n, 65 <= n <= 90 -> lower_char (ascii_of_nat n) = lower_char (ascii_of_nat (n + 32)).
Proof.
  intros n H. unfold lower_char. rewrite !nat_ascii_embedding by lia. replace (65 <=? n) with true by (symmetry; apply Nat.leb_le; lia).
  replace (n <=? 90) with true by (symmetry; apply Nat.leb_le; lia). replace (n + 32 <=? 90) with false by (symmetry; apply Nat.leb_gt; lia).
  rewrite andb_false_r. reflexivity.
Qed.
Lemma lower_same : forall s t, same_but_case s t -> lower s = lower t.
Proof.
  induction 1 as [| c s t H IH | n s t N H IH | n s t N H IH]; cbn [lower]; [reflexivity | | |]; rewrite IH; [reflexivity | |];
    rewrite (lower_char_same n N); reflexivity.
Qed.
Definition snrs (p r : tensor) : outcome (list Q) :=
  do ps <- flat p; do rs <- flat r; Ok (map (fun x => snr_row (fst x) (snd x)) (combine ps rs)).
Lemma snr_unfold : forall p r red, t_shape p = t_shape r -> torch_snr_error p r red =
  do l <- snrs p r;
  (if String.eqb (lower red) "mean" then Ok (match l with [] => NaN | _ => Num (qsum l / inject_Z (Z.of_nat (length l)))%Q end)
   else if String.eqb (lower red) "sum" then Ok (Num (qsum l)) else if String.eqb (lower red) "none" then Ok (Vec l) else Raise ValueError).
Proof.
  intros p r red E. unfold torch_snr_error, snrs. rewrite (proj2 (shape_eqb_iff _ _) E). cbn [negb]. destruct (flat p) as [ps |]; [| reflexivity]. cbn [bind].
  destruct (flat r) as [rs |]; reflexivity.
Qed.
Lemma snrs_spec : forall p r, well_formed p -> well_formed r -> t_shape p = t_shape r -> t_shape p <> [] ->
  exists l, snrs p r = Ok l /\ length l = samples (t_shape p) /\ forall i, i < samples (t_shape p) -> (nth i l 0 == error_of p r i)%Q.
Proof.
  intros p r Wp Wr E N. destruct (flat_spec p Wp N) as (ps & P1 & P2 & P3). rewrite E in N. destruct (flat_spec r Wr N) as (rs & R1 & R2 & R3). rewrite <- E in R2, R3.
  unfold snrs. rewrite P1, R1. cbn [bind]. eexists. split; [reflexivity |]. split; [rewrite map_length, combine_length; lia |].
  intros i I. destruct (P3 i I) as (a & A1 & A2 & A3). destruct (R3 i I) as (b & B1 & B2 & B3).
  assert (X : nth_error (combine ps rs) i = Some (a, b)).
  { clear - A1 B1. revert ps rs A1 B1. induction i as [| i IHi]; intros [| x ps] [| y rs] A1 B1; try discriminate; cbn in *; [congruence | auto]. }
  rewrite (nth_error_nth _ _ _ (map_nth_error (fun x => snr_row (fst x) (snd x)) _ _ X)). cbn [fst snd]. unfold snr_row, error_of.
  assert (SG : (signal b == sum_to (width (t_shape p)) (fun j => entry r i j * entry r i j))%Q).
  { unfold signal. rewrite (sum_to_list (fun x => x * x)%Q b), B2. apply sum_ext. intros j J. rewrite (B3 j J). reflexivity. }
  assert (NS : (noise a b == sum_to (width (t_shape p)) (fun j => (entry p i j - entry r i j) * (entry p i j - entry r i j)))%Q).
  { unfold noise. set (f := fun x : Q * Q => ((fst x - snd x) * (fst x - snd x))%Q).
    assert (M : map f (combine a b) = map (fun x => x * x)%Q (map (fun x => fst x - snd x)%Q (combine a b))) by (rewrite map_map; reflexivity).
    rewrite M, (sum_to_list (fun x => x * x)%Q), map_length, combine_length, A2, B2, Nat.min_id. apply sum_ext. intros j J.
    assert (Y : nth_error (combine a b) j = Some (nth j a 0%Q, nth j b 0%Q)).
    { assert (Ja : j < length a) by lia. assert (Jb : j < length b) by lia. clear - Ja Jb. revert a b Ja Jb.
      induction j as [| j IHj]; intros [| x a] [| y b] Ja Jb; cbn in *; try lia; [reflexivity | apply IHj; lia]. }
    rewrite (nth_error_nth _ _ _ (map_nth_error (fun x : Q * Q => fst x - snd x)%Q _ _ Y)). cbn [fst snd]. rewrite (A3 j J), (B3 j J). reflexivity. }
  rewrite SG, NS. reflexivity.
Qed.

(** Every sample has its own error: the squared differences over the squared real values, each
    summed over the sample; 'none' gives them all, 'sum' and 'mean' their sum and mean. *)
Theorem C237_value : forall p r, well_formed p -> well_formed r -> t_shape p = t_shape r -> t_shape p <> [] ->
  exists l, torch_snr_error p r "none" = Ok (Vec l) /\ length l = samples (t_shape p) /\
    (forall i, i < samples (t_shape p) -> (nth i l 0 == error_of p r i)%Q) /\
    (exists q, torch_snr_error p r "sum" = Ok (Num q) /\ (q == sum_to (samples (t_shape p)) (error_of p r))%Q) /\
    (samples (t_shape p) = 0 -> torch_snr_error p r "mean" = Ok NaN) /\
    (0 < samples (t_shape p) -> exists q, torch_snr_error p r "mean" = Ok (Num q) /\
       (q == sum_to (samples (t_shape p)) (error_of p r) / inject_Z (Z.of_nat (samples (t_shape p))))%Q).
Proof.
  intros p r Wp Wr E N. destruct (snrs_spec p r Wp Wr E N) as (l & L1 & L2 & L3). rewrite !(snr_unfold p r _ E), L1. cbn [bind].
  change (lower "none") with "none"%string. change (lower "sum") with "sum"%string. change (lower "mean") with "mean"%string.
  change (String.eqb "none" "mean") with false. change (String.eqb "none" "sum") with false. change (String.eqb "none" "none") with true.
  change (String.eqb "sum" "mean") with false. change (String.eqb "sum" "sum") with true. change (String.eqb "mean" "mean") with true. cbn iota.
  assert (SM : (qsum l == sum_to (samples (t_shape p)) (error_of p r))%Q).
  { rewrite <- (map_id l) at 1. rewrite (sum_to_list (fun x => x) l), L2. apply sum_ext. intros j J. apply L3. exact J. }
  exists l. split; [reflexivity |]. split; [exact L2 |]. split; [exact L3 |]. split; [exists (qsum l); split; [reflexivity | exact SM] |]. split.
  - intro Z. destruct l; [reflexivity | cbn in L2; lia].
  - intro Z. destruct l as [| x l]; [cbn in L2; lia |]. eexists. split; [reflexivity |]. rewrite SM, L2. reflexivity.
Qed.
Lemma sum_nonneg : forall k f, (forall j, j < k -> (0 <= f j)%Q) -> (0 <= sum_to k f)%Q /\ ((sum_to k f == 0)%Q -> forall j, j < k -> (f j == 0)%Q).
Proof.
  induction k as [| k IH]; intros f H; cbn [sum_to]; [split; [lra | intros; lia] |]. destruct (IH f) as [A B]; [intros; apply H; lia |].
  pose proof (H k ltac:(lia)) as C. split; [lra |]. intros Z j J. destruct (Nat.eq_dec j k) as [-> |]; [lra |]. apply B; [lra | lia].
Qed.
(** An error is never negative, and zero exactly if the sample is equal. *)
Theorem C237_zero : forall p r i, (0 <= error_of p r i)%Q /\
  ((error_of p r i == 0)%Q <-> forall j, j < width (t_shape p) -> (entry p i j == entry r i j)%Q).
Proof.
  intros p r i. unfold error_of. set (k := width (t_shape p)). set (f := fun j => ((entry p i j - entry r i j) * (entry p i j - entry r i j))%Q).
  set (g := fun j => (entry r i j * entry r i j)%Q).
  assert (SQ : forall x : Q, (0 <= x * x)%Q) by (intro x; nra).
  destruct (sum_nonneg k f (fun j _ => SQ _)) as [F1 F2]. destruct (sum_nonneg k g (fun j _ => SQ _)) as [G1 _].
  assert (D : (0 < sum_to k g + (1 # 10000000))%Q) by lra. split.
  - unfold Qdiv. apply Qmult_le_0_compat; [exact F1 |]. apply Qinv_le_0_compat. lra.
  - split.
    + intros Z j J. assert (F0 : (sum_to k f == 0)%Q).
      { assert (X : (sum_to k f == sum_to k f / (sum_to k g + (1 # 10000000)) * (sum_to k g + (1 # 10000000)))%Q) by (field; lra). rewrite X, Z. ring. }
      specialize (F2 F0 j J). unfold f in F2. apply Qmult_integral in F2. destruct F2; lra.
    + intro H. assert (F0 : (sum_to k f == 0)%Q).
      { rewrite (sum_ext k f (fun _ => 0%Q)); [clear; induction k as [| k IH]; cbn [sum_to]; [reflexivity | rewrite IH; reflexivity] |].
        intros j J. unfold f. rewrite (H j J). ring. }
      rewrite F0. unfold Qdiv. ring.
Qed.
(** What is refused, and in which order; letters of the reduction may be of any case. *)
Theorem C237_refused : forall p r red,
  (t_shape p <> t_shape r -> torch_snr_error p r red = Raise ValueError) /\
  (t_shape p = t_shape r -> t_shape p = [] -> torch_snr_error p r red = Raise IndexError) /\
  (t_shape p = t_shape r -> t_shape p <> [] ->
     (exists v, torch_snr_error p r red = Ok v) <-> (exists k, In k ["mean"; "sum"; "none"]%string /\ same_but_case red k)) /\
  (forall red', same_but_case red red' -> torch_snr_error p r red = torch_snr_error p r red').
Proof.
  intros p r red. split; [| split; [| split]].
  - intro N. unfold torch_snr_error. destruct (shape_eqb (t_shape p) (t_shape r)) eqn:X; [apply shape_eqb_iff in X; contradiction | reflexivity].
  - intros E Z. rewrite (snr_unfold p r red E). unfold snrs, flat. rewrite Z. reflexivity.
  - intros E N. rewrite (snr_unfold p r red E).
    assert (S : exists l, snrs p r = Ok l).
    { unfold snrs, flat. rewrite <- E. destruct (t_shape p) as [| n [| m s]]; [congruence | |]; eexists; reflexivity. }
    destruct S as (l & ->). cbn [bind].
    assert (K : forall k, same_but_case red k -> lower k = k -> lower red = k) by (intros k H L; rewrite (lower_same _ _ H); exact L).
    assert (B : forall s, same_but_case s (lower s)).
    { induction s as [| c s IH]; cbn [lower]; [constructor |]. unfold lower_char. set (n := nat_of_ascii c).
      destruct ((65 <=? n) && (n <=? 90)) eqn:X; [| constructor; exact IH]. apply andb_prop in X. destruct X as [X1 X2].
      apply Nat.leb_le in X1, X2. rewrite <- (ascii_nat_embedding c). fold n. constructor; [lia | exact IH]. }
    split.
    + intros (v & V). destruct (String.eqb_spec (lower red) "mean") as [M | M]; [exists "mean"%string; split; [cbn; auto | rewrite <- M; apply B] |].
      destruct (String.eqb_spec (lower red) "sum") as [M2 | M2]; [exists "sum"%string; split; [cbn; auto | rewrite <- M2; apply B] |].
      destruct (String.eqb_spec (lower red) "none") as [M3 | M3]; [exists "none"%string; split; [cbn; auto | rewrite <- M3; apply B] | discriminate].
    + intros (k & I & H). cbn [In] in I. destruct I as [<- | [<- | [<- | []]]]; rewrite (K _ H eq_refl); eexists; reflexivity.
  - intros red' H. unfold torch_snr_error. rewrite (lower_same _ _ H). reflexivity.
Qed.
(** The docstring's claim: the error of a matrix is the mean over all entries of the squared
    relative differences.  It is not, even for one sample: the sums are taken first. *)
Definition C237_claim : Prop := forall p r n k, well_formed p -> well_formed r -> t_shape p = [n; k] -> t_shape r = [n; k] ->
  (forall x, In x (t_data r) -> ~ (x == 0)%Q) -> 0 < n * k ->
  exists q, torch_snr_error p r "mean" = Ok (Num q) /\
    (q == qsum (map (fun x => (fst x - snd x) * (fst x - snd x) / (snd x * snd x)) (combine (t_data p) (t_data r))) / inject_Z (Z.of_nat (n * k)))%Q.
Theorem C237_elementwise_refuted : ~ C237_claim.
Proof.
  intro H. destruct (H {| t_shape := [1; 2]; t_data := [2; 1]%Q |} {| t_shape := [1; 2]; t_data := [1; 1]%Q |} 1 2) as (q & E & V).
  - reflexivity.
  - reflexivity.
  - reflexivity.
  - reflexivity.
  - cbn. intros x [<- | [<- | []]]; discriminate.
  - cbn. lia.
  - vm_compute in E. apply Ok_inj in E. injection E as <-. vm_compute in V. discriminate.
Qed.
Example C237_example :
  let p := {| t_shape := [2; 1; 2]; t_data := [1; 2; 3; 4]%Q |} in
  let r := {| t_shape := [2; 1; 2]; t_data := [1; 2; 0; 0]%Q |} in
  well_formed p /\ torch_snr_error p r "NONE" = torch_snr_error p r "none" /\ (error_of p r 0 == 0)%Q /\ (error_of p r 1 == 250000000)%Q /\
  torch_snr_error p r "max" = Raise ValueError.
Proof. repeat split. Qed.
Print Assumptions C237_value.
Print Assumptions C237_zero.
Print Assumptions C237_refused.
Print Assumptions C237_elementwise_refuted.
