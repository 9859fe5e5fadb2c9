(** Properties of the connectors and of the parameter recorder. *)
From Coq Require Import String Permutation.
From Verif Require Import Prelude Connect_Model.
Open Scope string_scope.
Open Scope list_scope.

(** ** ConvModuleConnector *)
Inductive stage : Type := Conv | Norm | Act.
Definition stage_name (s : stage) : string := match s with Conv => "conv" | Norm => "norm" | Act => "act" end.
(** What a stage does: padding belongs to the convolution, absent layers do nothing. *)
Definition stage_does {T} (m : conv_module T) (s : stage) (x y : T) : Prop :=
  match s with
  | Conv => match c_pad m with Some p => y = c_conv m (p x) | None => y = c_conv m x end
  | Norm => match c_norm m with Some f => y = f x | None => y = x end
  | Act => match c_act m with Some f => y = f x | None => y = x end
  end.

Lemma three_names order : conv_ctor order = Ok order <-> exists a b c, Permutation [a; b; c] [Conv; Norm; Act] /\ order = map stage_name [a; b; c].
Proof.
  unfold conv_ctor. split.
  - intros H. destruct (_ && _ && _ && _) eqn:E in H; [|discriminate H]. clear H. apply andb_true_iff in E as [E EA]. apply andb_true_iff in E as [E EN]. apply andb_true_iff in E as [EL EC].
    apply Nat.eqb_eq in EL. apply existsb_exists in EC as (x & Ix & Ex), EN as (y & Iy & Ey), EA as (z & Iz & Ez).
    apply String.eqb_eq in Ex, Ey, Ez. subst x y z.
    destruct order as [|p [|q [|r [|]]]]; try discriminate EL. clear EL. cbn [In] in Ix, Iy, Iz.
    assert (forall u v : string, u <> v -> forall w, w = u -> w = v -> False) as X by (intros u v N w A B; apply N; congruence).
    destruct Ix as [Ex|[Ex|[Ex|[]]]], Iy as [Ey|[Ey|[Ey|[]]]], Iz as [Ez|[Ez|[Ez|[]]]]; subst; try discriminate.
    + exists Conv, Norm, Act. split; [apply Permutation_refl|reflexivity].
    + exists Conv, Act, Norm. split; [apply perm_skip, perm_swap|reflexivity].
    + exists Norm, Conv, Act. split; [apply perm_swap|reflexivity].
    + exists Act, Conv, Norm. split; [eapply perm_trans; [apply perm_swap|apply perm_skip, perm_swap]|reflexivity].
    + exists Norm, Act, Conv. split; [eapply perm_trans; [apply perm_skip, perm_swap|apply perm_swap]|reflexivity].
    + exists Act, Norm, Conv. split; [eapply perm_trans; [apply perm_skip, perm_swap|eapply perm_trans; [apply perm_swap|apply perm_skip, perm_swap]]|reflexivity].
  - intros (a & b & c & P & ->).
    assert (N : NoDup [a; b; c]). { apply (Permutation_NoDup (Permutation_sym P)). repeat constructor; cbn; intuition discriminate. }
    destruct a, b, c; try reflexivity; exfalso; inversion N as [|? ? N1 N2]; subst; cbn in N1; try (apply N1; auto; fail); inversion N2 as [|? ? N3 N4]; subst; cbn in N3; apply N3; auto.
Qed.

(** The constructor accepts exactly the six orders of the three names, and the forward pass
    runs each layer that is there once, in that order. *)
Theorem C251_order : forall T (m : conv_module T) x, conv_ctor (c_order m) = Ok (c_order m) ->
  exists a b c y z, Permutation [a; b; c] [Conv; Norm; Act] /\ c_order m = map stage_name [a; b; c] /\
    stage_does m a x y /\ stage_does m b y z /\ stage_does m c z (conv_forward m x).
Proof.
  intros T m x H. apply three_names in H as (a & b & c & P & E). exists a, b, c, (conv_layer m x (stage_name a)), (conv_layer m (conv_layer m x (stage_name a)) (stage_name b)).
  split; [exact P|]. split; [exact E|].
  assert (D : forall s u, stage_does m s u (conv_layer m u (stage_name s))).
  { intros s u. destruct s; cbn [stage_does stage_name]; unfold conv_layer, opt_apply; cbn [String.eqb Ascii.eqb Bool.eqb]; [destruct (c_pad m)|destruct (c_norm m)|destruct (c_act m)]; reflexivity. }
  split; [apply D|]. split; [apply D|]. unfold conv_forward. rewrite E. cbn [map fold_left]. apply D.
Qed.
Theorem C251_orders : forall order, (exists a b c, Permutation [a; b; c] [Conv; Norm; Act] /\ order = map stage_name [a; b; c]) \/ conv_ctor order = Raise AssertionError.
Proof.
  intros order. destruct (conv_ctor order) as [o|e] eqn:E.
  - left. apply three_names. unfold conv_ctor in *. destruct (_ && _ && _ && _); [reflexivity|discriminate E].
  - right. unfold conv_ctor in E. destruct (_ && _ && _ && _); [discriminate E|]. cbn in E. congruence.
Qed.
Example C251_ex : let m := {| c_pad := Some (fun l => 0 :: l); c_conv := map (Z.add 1); c_norm := None; c_act := Some (map (Z.mul 2)); c_order := ["act"; "norm"; "conv"] |} in
  conv_ctor (c_order m) = Ok (c_order m) /\ conv_forward m [3; 4] = [1; 7; 9].
Proof. split; reflexivity. Qed.
Example C251_orders_ex : conv_ctor ["conv"; "conv"; "act"] = Raise AssertionError /\ conv_ctor ["conv"; "act"] = Raise AssertionError.
Proof. split; reflexivity. Qed.

(** ** The torch connectors *)
Theorem C251_functional : forall T A (functional : string -> A -> T -> outcome T) n args f, functional_ctor functional (Some n) args = Ok f ->
  In n ["adaptive_avg_pool2d"; "adaptive_max_pool2d"; "avg_pool2d"; "dropout"; "dropout2d"; "interpolate"; "max_pool2d"; "normalize"; "relu"; "softmax"] /\ forall x, f x = functional n args x.
Proof.
  intros T A fn n args f H. unfold functional_ctor in H. destruct (existsb _ _) eqn:E; [|discriminate H]. apply Ok_inj in H. subst f. split; [|reflexivity].
  apply existsb_exists in E as (k & I & Q). apply String.eqb_eq in Q. subst k. unfold FUNCTION_LIST in I. cbn [In] in *. tauto.
Qed.
Theorem C251_functional_total : forall T A (functional : string -> A -> T -> outcome T) n args,
  match functional_ctor functional n args with
  | Ok _ => exists k, n = Some k /\ In k ["adaptive_avg_pool2d"; "adaptive_max_pool2d"; "avg_pool2d"; "dropout"; "dropout2d"; "interpolate"; "max_pool2d"; "normalize"; "relu"; "softmax"]
  | Raise AssertionError => n = None
  | Raise ValueError => exists k, n = Some k /\ ~ In k ["adaptive_avg_pool2d"; "adaptive_max_pool2d"; "avg_pool2d"; "dropout"; "dropout2d"; "interpolate"; "max_pool2d"; "normalize"; "relu"; "softmax"]
  | Raise _ => False
  end.
Proof.
  intros T A fn [k|] args; [|reflexivity]. unfold functional_ctor. destruct (existsb _ _) eqn:E; exists k; (split; [reflexivity|]).
  - apply existsb_exists in E as (k' & I & Q). apply String.eqb_eq in Q. subst k'. unfold FUNCTION_LIST in I. cbn [In] in *. tauto.
  - intros I. assert (J : existsb (String.eqb k) FUNCTION_LIST = true); [|congruence]. apply existsb_exists. exists k. rewrite String.eqb_refl. split; [|reflexivity]. unfold FUNCTION_LIST. cbn [In] in *. tauto.
Qed.
(** The module connector builds the module once and then only calls it. *)
Theorem C251_module : forall T A (nn_build : string -> A -> outcome (T -> outcome T)) n args,
  In n ["AdaptiveAvgPool2d"; "AdaptiveMaxPool2d"; "AvgPool2d"; "BatchNorm2d"; "Conv2d"; "Dropout"; "Dropout2d"; "Linear"; "MaxPool2d"; "ReLU"; "Softmax"] ->
  nn_ctor nn_build (Some n) args = nn_build n args.
Proof.
  intros T A b n args I. unfold nn_ctor. replace (existsb _ _) with true; [reflexivity|]. symmetry. apply existsb_exists. exists n. rewrite String.eqb_refl. split; [exact I|reflexivity].
Qed.
Theorem C251_module_other : forall T A (nn_build : string -> A -> outcome (T -> outcome T)) n args,
  ~ In n ["AdaptiveAvgPool2d"; "AdaptiveMaxPool2d"; "AvgPool2d"; "BatchNorm2d"; "Conv2d"; "Dropout"; "Dropout2d"; "Linear"; "MaxPool2d"; "ReLU"; "Softmax"] ->
  nn_ctor nn_build (Some n) args = Raise ValueError /\ nn_ctor nn_build None args = Raise AssertionError.
Proof.
  intros T A b n args I. split; [|reflexivity]. unfold nn_ctor. destruct (existsb _ _) eqn:E; [|reflexivity]. exfalso. apply I. apply existsb_exists in E as (k & J & Q). apply String.eqb_eq in Q. subst k. exact J.
Qed.
Example C251_functional_ex : functional_ctor (fun (_ : string) (a x : Z) => Ok (a * x)) (Some "sigmoid") 2 = Raise ValueError /\
  (do f <- functional_ctor (fun (_ : string) (a x : Z) => Ok (a * x)) (Some "relu") 2; f 7) = Ok 14.
Proof. split; reflexivity. Qed.

(** ** ParameterRecorder *)
Lemma find_param_first named source a : find_param named source = Some a -> In (source, a) named.
Proof.
  induction named as [|[n b] r IH]; intros H; [discriminate H|]. cbn [find_param] in H. destruct (String.eqb n source) eqn:E.
  - apply String.eqb_eq in E. left. congruence.
  - right. apply IH. exact H.
Qed.
Lemma find_param_in named source a : NoDup (map fst named) -> In (source, a) named -> find_param named source = Some a.
Proof.
  induction named as [|[n b] r IH]; intros N H; [destruct H|]. cbn [map] in N. inversion N as [|? ? N1 N2]; subst. cbn [find_param]. destruct H as [H|H].
  - injection H as -> ->. rewrite String.eqb_refl. reflexivity.
  - destruct (String.eqb n source) eqn:E; [|apply IH; assumption]. apply String.eqb_eq in E. subst n. exfalso. apply N1. apply (in_map fst) in H. exact H.
Qed.
Lemma find_param_none named source : find_param named source = None <-> ~ In source (map fst named).
Proof.
  induction named as [|[n b] r IH]; cbn [find_param map In fst]; [tauto|]. destruct (String.eqb n source) eqn:E.
  - apply String.eqb_eq in E. split; [discriminate|tauto].
  - apply String.eqb_neq in E. rewrite IH. tauto.
Qed.
Lemma named_sub seen all x : In x (named_parameters seen all) -> In x all.
Proof.
  revert seen. induction all as [|[n a] r IH]; intros seen H; [destruct H|]. cbn [named_parameters] in H. destruct (existsb _ _).
  - right. eapply IH. exact H.
  - destruct H as [H|H]; [left; exact H|right; eapply IH; exact H].
Qed.
Lemma named_nodup seen all : NoDup (map fst all) -> NoDup (map fst (named_parameters seen all)).
Proof.
  revert seen. induction all as [|[n a] r IH]; intros seen H; [constructor|]. cbn [map fst] in H. inversion H as [|? ? H1 H2]; subst. cbn [named_parameters]. destruct (existsb _ _); [apply IH; exact H2|].
  cbn [map fst]. constructor; [|apply IH; exact H2]. intros I. apply H1. apply in_map_iff in I as ([n' a'] & E & I). cbn in E. subst n'. apply named_sub in I. apply (in_map fst) in I. exact I.
Qed.
Lemma named_untied seen all : NoDup (map snd all) -> (forall a, In a (map snd all) -> ~ In a seen) -> named_parameters seen all = all.
Proof.
  revert seen. induction all as [|[n a] r IH]; intros seen N S; [reflexivity|]. cbn [map snd] in N. inversion N as [|? ? N1 N2]; subst. cbn [named_parameters].
  destruct (existsb (Nat.eqb a) seen) eqn:E.
  - exfalso. apply existsb_exists in E as (b & I & Q). apply Nat.eqb_eq in Q. subst b. apply (S a); [left; reflexivity|exact I].
  - f_equal. apply IH; [exact N2|]. intros b Ib [->|I]; [apply N1; exact Ib|]. apply (S b); [right; exact Ib|exact I].
Qed.

(** Entering any number of times. *)
Inductive entered : precorder -> precorder -> Prop :=
| entered_none r : entered r r
| entered_more r r' r'' : pr_enter r = Ok r' -> entered r' r'' -> entered r r''.
Lemma entered_same r r' : entered r r' -> r' = r.
Proof. induction 1 as [|r r' r'' E H IH]; [reflexivity|]. unfold pr_enter in E. destruct (pr_ready r); [|discriminate E]. apply Ok_inj in E. subst. reflexivity. Qed.

(** The recorder returns the value the parameter has when it is asked for, whatever happened
    to it since, and however often the recorder was entered: nothing is cleared. *)
Theorem C252_current_partial : forall all source a r, NoDup (map fst all) -> NoDup (map snd all) -> In (source, a) all ->
  pr_initialize (Some all) (pr_new source) = Ok r -> forall r', entered r r' -> forall V (mem : nat -> V), pr_get mem 0 r' = Ok (mem a) /\ pr_get mem 1 r' = Raise AssertionError.
Proof.
  intros all source a r N1 N2 I E r' EN V mem. apply entered_same in EN. subst r'. unfold pr_initialize in E. rewrite named_untied in E by (try exact N2; intros ? ? []).
  cbn [pr_new pr_source pr_buffer] in E. rewrite (find_param_in _ _ _ N1 I) in E. apply Ok_inj in E. subst r. split; reflexivity.
Qed.
Theorem C252_found_partial : forall all source, NoDup (map snd all) ->
  (In source (map fst all) -> exists r, pr_initialize (Some all) (pr_new source) = Ok r /\ pr_enter r = Ok r) /\
  (~ In source (map fst all) -> pr_initialize (Some all) (pr_new source) = Raise AssertionError).
Proof.
  intros all source N. unfold pr_initialize. rewrite named_untied by (try exact N; intros ? ? []). cbn [pr_new pr_source]. split; intros H.
  - destruct (find_param all source) as [a|] eqn:E; [|apply find_param_none in E; contradiction]. eexists. split; reflexivity.
  - apply find_param_none in H. rewrite H. reflexivity.
Qed.
(** A parameter that two modules share has two names, only the first of which can be
    recorded. *)
Definition C252_claim : Prop := forall all source, NoDup (map fst all) -> In source (map fst all) -> exists r, pr_initialize (Some all) (pr_new source) = Ok r.
Theorem C252_tied_refuted : ~ C252_claim.
Proof.
  intros H. destruct (H [("embed.weight", 0%nat); ("head.weight", 0%nat)] "head.weight") as (r & E).
  - repeat constructor; cbn; intuition discriminate.
  - cbn. tauto.
  - discriminate E.
Qed.
(** Whatever is recorded is the parameter of that name. *)
Theorem C252_right_one : forall all source r V (mem : nat -> V) v, pr_initialize (Some all) (pr_new source) = Ok r -> pr_get mem 0 r = Ok v -> exists a, In (source, a) all /\ v = mem a.
Proof.
  intros all source r V mem v E G. unfold pr_initialize in E. cbn [pr_new pr_source pr_buffer] in E. destruct (find_param _ source) as [a|] eqn:F; [|discriminate E]. apply Ok_inj in E. subst r.
  cbn in G. apply Ok_inj in G. subst v. exists a. split; [|reflexivity]. apply find_param_first in F. apply named_sub in F. exact F.
Qed.
(** It must be initialised before it is entered, with a model. *)
Theorem C252_before : forall source, pr_enter (pr_new source) = Raise AssertionError /\ pr_initialize None (pr_new source) = Raise AssertionError.
Proof. intros. split; reflexivity. Qed.
(** Initialised with several models it keeps one record for each. *)
Theorem C252_again : forall models source r, fold_left (fun o all => do r <- o; pr_initialize (Some all) r) models (Ok (pr_new source)) = Ok r ->
  forall i all, nth_error models i = Some all -> forall V (mem : nat -> V), exists a, In (source, a) all /\ pr_get mem i r = Ok (mem a).
Proof.
  intros models source r. 
  assert (R : forall ms e, fold_left (fun o all => do r <- o; pr_initialize (Some all) r) ms (Raise e) <> Ok r). { induction ms as [|m ms IH]; intros e; [discriminate|]. cbn [fold_left bind]. apply IH. }
  assert (G : forall ms r0, pr_source r0 = source -> fold_left (fun o all => do r <- o; pr_initialize (Some all) r) ms (Ok r0) = Ok r ->
    (exists t, pr_buffer r = pr_buffer r0 ++ t) /\ forall i all, nth_error ms i = Some all -> exists a, In (source, a) all /\ nth_error (pr_buffer r) (length (pr_buffer r0) + i) = Some a).
  { induction ms as [|m ms IH]; intros r0 S E.
    - cbn in E. apply Ok_inj in E. subst r0. split; [exists []; rewrite app_nil_r; reflexivity|]. intros i all H. destruct i; discriminate H.
    - cbn [fold_left bind] in E. destruct (pr_initialize (Some m) r0) as [r1|e] eqn:E1; [|exfalso; apply (R ms e); exact E].
      unfold pr_initialize in E1. destruct (find_param _ _) as [a|] eqn:F; [|discriminate E1]. apply Ok_inj in E1.
      assert (S1 : pr_source r1 = source) by (rewrite <- E1; exact S). destruct (IH r1 S1 E) as ((t & Bt) & I). assert (B1 : pr_buffer r1 = pr_buffer r0 ++ [a]) by (rewrite <- E1; reflexivity).
      split; [exists (a :: t); rewrite Bt, B1, <- app_assoc; reflexivity|]. intros i all H. destruct i as [|i].
      + cbn in H. injection H as ->. exists a. split; [apply find_param_first in F; rewrite S in F; apply named_sub in F; exact F|].
        rewrite Bt, B1, <- app_assoc, Nat.add_0_r, nth_error_app2, Nat.sub_diag by lia. reflexivity.
      + cbn in H. destruct (I i all H) as (b & Ib & Nb). exists b. split; [exact Ib|]. rewrite B1, app_length in Nb. cbn [length] in Nb. rewrite <- Nb. f_equal. lia. }
  intros E i all H V mem. destruct (G models (pr_new source) eq_refl E) as (_ & I). destruct (I i all H) as (a & Ia & Na). cbn in Na. exists a. split; [exact Ia|]. unfold pr_get. rewrite Na. reflexivity.
Qed.
Example C252_ex : exists r, pr_initialize (Some [("conv.weight", 4%nat); ("conv.bias", 5%nat)]) (pr_new "conv.bias") = Ok r /\ entered r r /\ pr_get (fun a => Z.of_nat a * 10) 0 r = Ok 50.
Proof. eexists. split; [reflexivity|]. split; [eapply entered_more; [reflexivity|apply entered_none]|reflexivity]. Qed.
Print Assumptions C251_order.
Print Assumptions C251_orders.
Print Assumptions C251_functional.
Print Assumptions C251_functional_total.
Print Assumptions C251_module.
Print Assumptions C251_module_other.
Print Assumptions C252_current_partial.
Print Assumptions C252_found_partial.
Print Assumptions C252_tied_refuted.
Print Assumptions C252_right_one.
Print Assumptions C252_before.
Print Assumptions C252_again.
