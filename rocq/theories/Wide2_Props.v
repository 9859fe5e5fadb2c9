(** Demo inputs (C214, C215) and versions (C216). *)
From Coq Require Import String Ascii DecimalString.
From Verif Require Import Prelude Engine_Model Engine_Props Wide_Model.
Local Open Scope string_scope.
Local Open Scope list_scope.
Local Open Scope Z_scope.

(** ** C214 *)
(** What is made for a model has the shape that was asked for, a sample for each image, and the preprocessor is told whether it is training. *)
Definition as_asked (sh : list Z) (training : bool) (d : made) : Prop :=
  d_shape d = sh /\ (forall k, d_samples d = Some k -> Z.of_nat k = hd 0 sh) /\ (forall t, d_training d = Some t -> t = training).
Definition C214_claim (d : demo) : Prop := forall m sh training, length sh = 4%nat -> Forall (fun n => 1 <= n) sh -> exists x, get_data d m sh training = Ok x /\ as_asked sh training x.
(** Classifiers: more than four images raise. *)
Theorem C214_classifier_refuted : ~ C214_claim DCls.
Proof. intros H. destruct (H {| m_mro := ["ImageClassifier"]; m_size := (0, 0); m_classes := 10 |} [8; 3; 32; 32] false eq_refl ltac:(repeat constructor; lia)) as (x & X & _). discriminate X. Qed.
(** Detectors: there is always one image. *)
Definition C214_detector_claim : Prop := forall m sh training x, In "BaseDetector" (m_mro m) -> length sh = 4%nat -> Forall (fun n => 1 <= n) sh -> get_data DDet m sh training = Ok x -> as_asked sh training x.
Theorem C214_detector_refuted : ~ C214_detector_claim.
Proof.
  intros H. specialize (H {| m_mro := ["BaseDetector"]; m_size := (0, 0); m_classes := 10 |} [2; 3; 32; 32] false _ (or_introl eq_refl) eq_refl ltac:(repeat constructor; lia) eq_refl). destruct H as (H & _). discriminate H.
Qed.
(** Pose estimators: the shape is taken for training, which is then always on, and the images have the size of the decoder with width and height swapped. *)
Definition C214_pose_claim : Prop := forall m sh x, In "TopdownPoseEstimator" (m_mro m) -> sh = [1; 3; snd (m_size m); fst (m_size m)] -> get_data DPose m sh false = Ok x -> as_asked sh false x.
Theorem C214_pose_refuted : ~ C214_pose_claim.
Proof.
  intros H. specialize (H {| m_mro := ["TopdownPoseEstimator"]; m_size := (192, 256); m_classes := 10 |} [1; 3; 256; 192] _ (or_introl eq_refl) eq_refl eq_refl). destruct H as (H & _). discriminate H.
Qed.
(** Segmentors: not in training, nor for a single class. *)
Definition C214_segmentor_claim : Prop := forall m sh training x, get_data DSeg m sh training = Ok x -> as_asked sh training x.
Theorem C214_segmentor_refuted : ~ C214_segmentor_claim.
Proof.
  intros H. specialize (H {| m_mro := ["BaseSegmentor"]; m_size := (0, 0); m_classes := 10 |} [2; 3; 32; 32] true _ eq_refl). destruct H as (_ & _ & H). specialize (H false eq_refl). discriminate H.
Qed.
(** What does hold. *)
Lemma is_a_in m c : In c (m_mro m) <-> is_a m c = true.
Proof. unfold is_a. rewrite existsb_exists. split; [intros H; exists c; rewrite String.eqb_refl; auto|]. intros (x & X & E). apply String.eqb_eq in E. subst. exact X. Qed.
Theorem C214_asked_partial : forall m sh training, length sh = 4%nat -> Forall (fun n => 1 <= n) sh ->
  (forall d, d = DBase \/ d = DMM \/ (d = DCls /\ hd 0 sh <= 4) \/ (hd 0 sh = 1 /\ (d = DRotate \/ ((d = DDet \/ d = DYolo) /\ In "BaseDetector" (m_mro m)))) \/ (d = DSeg /\ training = false /\ 2 <= m_classes m /\ In "BaseSegmentor" (m_mro m)) ->
    exists x, get_data d m sh training = Ok x /\ as_asked sh training x) /\
  (forall x, get_data DPose m sh training = Ok x -> d_shape x = [1; 3; fst (m_size m); snd (m_size m)] /\ d_training x = Some true).
Proof.
  intros m sh training L P. destruct sh as [|n [|c [|h [|w [|]]]]]; try discriminate L. assert (N : 1 <= n) by (inversion P; assumption). split.
  - intros d D. cbn [hd] in D. unfold as_asked. decompose [or and] D; subst; try (rewrite H2 in N; clear N; subst n); cbn [get_data length tl hd];
      repeat match goal with H : In _ (m_mro m) |- _ => apply is_a_in in H; rewrite H; clear H end; cbn [assert_ bind];
      try (rewrite (proj2 (Z.ltb_ge _ _)) by (cbn; lia)); try (rewrite (proj2 (Z.leb_gt _ _)) by lia); eexists; (split; [reflexivity|]); cbn [d_shape d_samples d_training]; (split; [try reflexivity|split; [intros k K|intros t T]]); try discriminate K; try discriminate T; try (injection K as <-; cbn [hd]; lia); try (injection T as <-; reflexivity); try congruence.
  - intros x X. cbn [get_data] in X. destruct (assert_ _); [|discriminate X]. cbn [bind length Nat.eqb negb] in X. apply Ok_inj in X. subst x. split; reflexivity.
Qed.
(** The generator: that of the scope if it is known, else the first that fits the model. *)
Theorem C214_class : forall mro scope, let d := demo_class mro scope in
  (forall s, scope = Some s -> match s with "mmcls" => d = DCls | "mmdet" => d = DDet | "mmseg" => d = DSeg | "mmrotate" => d = DRotate | "mmyolo" => d = DYolo | "mmpose" => d = DPose | "torchvision" => d = DBase | _ => d = demo_class mro None end) /\
  (scope = None -> (In "BaseDetector" mro <-> d = DDet) /\ (In "ImageClassifier" mro -> ~ In "BaseDetector" mro -> d = DCls) /\
    (In "BaseModel" mro -> (forall c, In c ["BaseDetector"; "ImageClassifier"; "BaseSegmentor"; "TopdownPoseEstimator"] -> ~ In c mro) -> d = DMM)).
Proof.
  intros mro scope d. split.
  - intros s E. subst scope. assert (F : d = match scope_class s with Some x => x | None => demo_class mro None end) by reflexivity. rewrite F. clearbody d. clear F. unfold scope_class. cbn [find fst snd].
    destruct (String.eqb_spec "mmcls" s) as [<-|N1]; [reflexivity|]. destruct (String.eqb_spec "mmdet" s) as [<-|N2]; [reflexivity|]. destruct (String.eqb_spec "mmseg" s) as [<-|N3]; [reflexivity|]. destruct (String.eqb_spec "mmrotate" s) as [<-|N4]; [reflexivity|]. destruct (String.eqb_spec "mmyolo" s) as [<-|N5]; [reflexivity|]. destruct (String.eqb_spec "mmpose" s) as [<-|N6]; [reflexivity|]. destruct (String.eqb_spec "torchvision" s) as [<-|N7]; [reflexivity|].
    repeat match goal with |- match ?x with _ => _ end => destruct x; try reflexivity; try congruence end.
  - intros ->. subst d. unfold demo_class, type_class. cbn [find fst snd]. assert (I0 : forall c, existsb (String.eqb c) mro = true <-> In c mro). { intros c. rewrite existsb_exists. split; [intros (x & X & E); apply String.eqb_eq in E; subst; exact X|intros X; exists c; rewrite String.eqb_refl; auto]. }
    assert (I1 : forall c, ~ In c mro -> existsb (String.eqb c) mro = false) by (intros c X; apply Bool.not_true_is_false; rewrite I0; exact X). split; [|split].
    + rewrite <- I0. destruct (existsb (String.eqb "BaseDetector") mro); [tauto|]. split; [discriminate|]. repeat (match goal with |- context [existsb ?f mro] => destruct (existsb f mro) end; cbn [snd]; try discriminate).
    + intros C B. rewrite (I1 _ B), (proj2 (I0 _) C). reflexivity.
    + intros B N. rewrite (I1 "BaseDetector"), (I1 "ImageClassifier"), (I1 "BaseSegmentor"), (I1 "TopdownPoseEstimator") by (apply N; cbn; tauto). rewrite (proj2 (I0 _) B). reflexivity.
Qed.
Example C214_example : get_data (demo_class ["YOLO"; "BaseDetector"; "BaseModel"; "Module"] None) {| m_mro := ["BaseDetector"]; m_size := (0, 0); m_classes := 80 |} [1; 3; 64; 64] true =
    Ok {| d_shape := [1; 3; 64; 64]; d_samples := Some 1%nat; d_training := Some true |} /\
  demo_class ["BaseDetector"; "Module"] (Some "mmyolo") = DYolo.
Proof. split; reflexivity. Qed.

(** ** C215 *)
(** A generator without a shape of its own uses the default shape of its class; the shape of a generator is used when none is given. *)
Definition C215_default_claim : Prop := forall d, init_direct d None = default_shape d.
Definition C215_call_claim : Prop := forall own, used_shape_call own None = own.
(** YOLO inputs are not 125 by 320; a generator that is called ignores its own shape. *)
Theorem C215_default_refuted : ~ C215_default_claim.
Proof. intros H. specialize (H DYolo). discriminate H. Qed.
Theorem C215_call_refuted : ~ C215_call_claim.
Proof. intros H. specialize (H [1; 3; 32; 32]). discriminate H. Qed.
Theorem C215_shape_partial : forall d own s, (d <> DYolo -> init_direct d None = default_shape d) /\ init_direct d (Some s) = s /\ init_default None (Some s) = s /\
  init_default (Some "mmyolo") None = default_shape DYolo /\ used_shape own None = own /\ used_shape own (Some s) = s /\ used_shape_call own (Some s) = s.
Proof. intros d own s. repeat split; try reflexivity. destruct d; try reflexivity. congruence. Qed.
Example C215_example : used_shape (init_default (Some "mmyolo") None) None = [1; 3; 125; 320].
Proof. reflexivity. Qed.

(** ** C216 *)
(** A version of numbers, the last one perhaps with a release candidate, is parsed as documented. *)
Fixpoint dotted (l : list nat) (suffix : string) : string := match l with [] => suffix | [n] => decimal n ++ suffix | n :: r => decimal n ++ "." ++ dotted r suffix end.
Lemma dec_digits : forall u, all_digits (NilEmpty.string_of_uint u) = true.
Proof. induction u; cbn; auto. Qed.
Lemma decimal_isdigit n : isdigit (decimal n) = true.
Proof. unfold decimal, NilZero.string_of_uint, isdigit. destruct (Nat.to_uint n) eqn:E; try reflexivity; cbn; apply dec_digits. Qed.
Lemma acc_nat : forall d p, Pos.to_nat (Pos.of_uint_acc d p) = Nat.of_uint_acc d (Pos.to_nat p).
Proof.
  induction d; intros p; cbn [Pos.of_uint_acc Nat.of_uint_acc]; [reflexivity|..]; rewrite IHd; f_equal; rewrite Nat.tail_mul_spec; lia.
Qed.
Lemma uint_nat : forall d, N.to_nat (Pos.of_uint d) = Nat.of_uint d.
Proof.
  unfold Nat.of_uint. induction d; cbn [Pos.of_uint Nat.of_uint_acc N.to_nat]; [reflexivity|..]; [rewrite IHd; reflexivity|..]; rewrite acc_nat; f_equal.
Qed.
Lemma decimal_int n : py_int (decimal n) = Ok (Z.of_nat n).
Proof.
  unfold decimal. rewrite py_int_digits.
  - f_equal. rewrite <- (DecimalNat.Unsigned.of_to n) at 2. rewrite <- uint_nat, N_nat_Z. reflexivity.
  - intros E. pose proof (DecimalNat.Unsigned.of_to n) as F. rewrite E in F. cbn in F. subst n. discriminate E.
Qed.
Lemma digits_not a s : all_digits (String a s) = true -> digit a = true /\ all_digits s = true.
Proof. cbn. apply Bool.andb_true_iff. Qed.
Lemma decimal_all n : all_digits (decimal n) = true.
Proof. pose proof (decimal_isdigit n) as H. unfold isdigit in H. destruct (decimal n); [reflexivity|exact H]. Qed.
Lemma rc_app : forall s t, all_digits s = true -> isdigit (s ++ String "r" (String "c" t)) = false /\ has_rc (s ++ String "r" (String "c" t)) = true /\ before_rc (s ++ String "r" (String "c" t)) = s /\ after_rc (s ++ String "r" (String "c" t)) = before_rc t.
Proof.
  intros s t H. assert (A : all_digits (s ++ String "r" (String "c" t)) = false). { induction s as [|a s IH]; [reflexivity|]. apply digits_not in H as [_ H]. cbn. rewrite IH by exact H. apply Bool.andb_false_r. }
  split; [destruct s; exact A|]. clear A. induction s as [|a s IH]; [repeat split|]. apply digits_not in H as [D H]. destruct (IH H) as (B & C & E). cbn [append].
  assert (N : a <> "r"%char) by (intros ->; discriminate D). cbn [has_rc before_rc after_rc]. destruct a as [[] [] [] [] [] [] [] []]; try (repeat split; (exact B || (rewrite C; reflexivity) || exact E)); congruence.
Qed.
Lemma before_digits : forall s, all_digits s = true -> before_rc s = s.
Proof.
  induction s as [|a s IH]; intros H; [reflexivity|]. apply digits_not in H as [D H]. assert (N : a <> "r"%char) by (intros ->; discriminate D). cbn [before_rc]. specialize (IH H). destruct a as [[] [] [] [] [] [] [] []]; try (rewrite IH; reflexivity); congruence.
Qed.
Lemma split_dotted : forall l suffix, l <> [] -> no_char "." suffix -> split "." (dotted l suffix) = map decimal (removelast l) ++ [decimal (last l 0%nat) ++ suffix]%string.
Proof.
  induction l as [|n [|m r] IH]; intros suffix NE NC; [congruence| |].
  - cbn [dotted removelast map app last]. apply split_no. apply no_char_app. split; [apply decimal_dot|exact NC].
  - change (dotted (n :: m :: r) suffix) with (decimal n ++ String "." (dotted (m :: r) suffix))%string. rewrite split_app, IH by (congruence || exact NC). rewrite split_no by apply decimal_dot. reflexivity.
Qed.
Lemma parse_nums : forall l r, parse_parts (map decimal l ++ r) = do t <- parse_parts r; Ok (map (fun n => Num (Z.of_nat n)) l ++ t).
Proof. induction l as [|n l IH]; intros r; cbn [map app parse_parts]; [destruct (parse_parts r); reflexivity|]. rewrite decimal_isdigit, decimal_int. cbn [bind]. rewrite IH. destruct (parse_parts r); reflexivity. Qed.
Lemma app_empty s : (s ++ "" = s)%string.
Proof. induction s as [|a s IH]; [reflexivity|]. cbn. congruence. Qed.
Theorem C216_release : forall l, l <> [] -> parse_version (dotted l "") = Ok (map (fun n => Num (Z.of_nat n)) l).
Proof.
  intros l NE. unfold parse_version. rewrite split_dotted by (exact NE || exact I). rewrite app_empty. change [decimal (last l 0%nat)] with (map decimal [last l 0%nat]). rewrite <- map_app, <- app_removelast_last by exact NE. rewrite <- (app_nil_r (map decimal l)), parse_nums. cbn [parse_parts bind]. rewrite app_nil_r. reflexivity.
Qed.
Theorem C216_candidate : forall l k, l <> [] -> parse_version (dotted l ("rc" ++ decimal k)) = Ok (map (fun n => Num (Z.of_nat n)) l ++ [Rc ("rc" ++ decimal k)]).
Proof.
  intros l k NE. unfold parse_version. rewrite split_dotted; [|exact NE|]. 2:{ apply no_char_app. split; [cbn; repeat split; discriminate|apply decimal_dot]. }
  rewrite parse_nums. change ("rc" ++ decimal k)%string with (String "r" (String "c" (decimal k))). cbn [parse_parts]. destruct (rc_app (decimal (last l 0%nat)) (decimal k) (decimal_all _)) as (A & B & C & D). rewrite A, B, C, D, decimal_int, before_digits by apply decimal_all. cbn [bind].
  rewrite (app_removelast_last 0%nat NE) at 3. rewrite map_app, <- app_assoc. reflexivity.
Qed.
(** Every part of a version that is parsed is in the result: other versions lose their last number. *)
Definition C216_claim : Prop := forall l suffix v, l <> [] -> no_char "." suffix -> parse_version (dotted l suffix) = Ok v -> (length l <= length v)%nat.
Theorem C216_suffix_refuted : ~ C216_claim.
Proof. intros H. specialize (H [1; 0; 2]%nat "b1" _ ltac:(discriminate) ltac:(cbn; repeat split; discriminate) eq_refl). cbn in H. lia. Qed.
Example C216_example : parse_version "2.0.10rc12" = Ok [Num 2; Num 0; Num 10; Rc "rc12"] /\ parse_version "1.0.0" = Ok [Num 1; Num 0; Num 0] /\ parse_version "1.0.2b1" = Ok [Num 1; Num 0] /\ dotted [2; 0; 10]%nat "rc12" = "2.0.10rc12".
Proof. repeat split; reflexivity. Qed.

Print Assumptions C214_classifier_refuted.
Print Assumptions C214_detector_refuted.
Print Assumptions C214_pose_refuted.
Print Assumptions C214_segmentor_refuted.
Print Assumptions C214_asked_partial.
Print Assumptions C214_class.
Print Assumptions C215_default_refuted.
Print Assumptions C215_call_refuted.
Print Assumptions C215_shape_partial.
Print Assumptions C216_release.
Print Assumptions C216_candidate.
Print Assumptions C216_suffix_refuted.

(** Rotated detectors get one image of the size asked for, whatever the batch. *)
Theorem C214_rotate : forall m n sh training, exists x, get_data DRotate m (n :: sh) training = Ok x /\ d_shape x = 1 :: sh /\ d_samples x = Some 1%nat /\ d_training x = Some training.
Proof. intros m n sh training. eexists. split; [reflexivity |]. auto. Qed.
Print Assumptions C214_rotate.

(** Empty parts of a version are skipped. *)
Theorem C216_empty : forall a b, parse_parts (a ++ EmptyString :: b) = parse_parts (a ++ b).
Proof. induction a as [| x a IH]; intro b; [reflexivity |]. cbn [app parse_parts]. now rewrite IH. Qed.
Print Assumptions C216_empty.
