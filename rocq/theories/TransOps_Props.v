(** Which mutable a layer ends up with after registrations (C148) and what DynamicLayerNorm computes (C149). *)
From Coq Require Import List ZArith Bool String Lia.
From Verif Require Import Prelude Onnx_Model Onnx_Lemmas Attention_Model TransOps_Model.
From Verif Require Dynamic_Model Dynamic_Lemmas Attention2_Props.
Import ListNotations.
Local Open Scope string_scope.
Local Open Scope list_scope.
Local Open Scope nat_scope.

Lemma get_put {X} (d : list (string * X)) k v k' : get (put d k v) k' = if String.eqb k k' then Some v else get d k'.
Proof.
  induction d as [|[k0 v0] r IH]; cbn [put get]; [reflexivity|].
  destruct (String.eqb_spec k0 k) as [->|N]; cbn [get]; [destruct (String.eqb k k'); reflexivity|].
  rewrite IH. destruct (String.eqb_spec k0 k') as [->|N']; [|reflexivity]. destruct (String.eqb_spec k k'); congruence.
Qed.

Section Register.
  Variable M : Type.
  Variables (mappings : list (string * string)) (accepted : list string) (validate : string -> M -> outcome unit).
  Notation register := (register_mutable_attr M mappings accepted validate).
  Notation look := (get_mutable_attr M mappings accepted).
  (** Registrations one after the other; a refused one changes nothing. *)
  Definition registered (regs : list (string * M)) : list (string * M) :=
    fold_left (fun st r => match register (fst r) (snd r) st with Ok st' => st' | Raise _ => st end) regs [].

  (** * Specification *)
  Definition good (a : string) (x : M) : bool := match validate a x with Ok _ => true | Raise _ => false end.
  Definition mapped_to (a b : string) : bool := match get mappings b with Some a' => String.eqb a' a | None => false end.
  (** The mutables registered under the name itself, and under names standing for it. *)
  Definition direct (a : string) (regs : list (string * M)) : list M :=
    map snd (filter (fun r => String.eqb (fst r) a && negb (has mappings a) && good a (snd r)) regs).
  Definition indirect (a : string) (regs : list (string * M)) : list M :=
    map snd (filter (fun r => mapped_to a (fst r) && good a (snd r)) regs).
  (** The last of the former, or else the first of the latter. *)
  Definition winner (a : string) (regs : list (string * M)) : option M :=
    match rev (direct a regs) with x :: _ => Some x | [] => hd_error (indirect a regs) end.
  Definition target (b : string) : string := match get mappings b with Some a => a | None => b end.

  Hypothesis mappings_accepted : forall b a, get mappings b = Some a -> mem a accepted = true.

  (** * C148 *)

  (** One registration. *)
Theorem C148_register attr x attrs :
    match register attr x attrs with
    | Raise e => (has mappings attr = false /\ mem attr accepted = false /\ e = AssertionError) \/
                 (mem (target attr) accepted = true /\ validate (target attr) x = Raise e /\ ~ (has mappings attr = true /\ has attrs (target attr) = true))
    | Ok attrs' => mem (target attr) accepted = true /\
                   if has mappings attr && has attrs (target attr) then attrs' = attrs
                   else validate (target attr) x = Ok tt /\ forall k, get attrs' k = if String.eqb (target attr) k then Some x else get attrs k
    end.
  Proof.
    unfold register_mutable_attr, target, has at 1. destruct (get mappings attr) as [a|] eqn:E; cbn [orb assert_ bind].
    - pose proof (mappings_accepted _ _ E) as A. rewrite A. cbn [assert_ bind]. unfold has at 4. rewrite E. cbn [andb].
      destruct (has attrs a) eqn:H; [split; [reflexivity|]; unfold has at 1; rewrite E; reflexivity|].
      unfold register_named. rewrite A. destruct (validate a x) as [[]|e] eqn:V; cbn [bind].
      + split; [reflexivity|]. unfold has. rewrite E. split; [reflexivity|]. intros k. apply get_put.
      + right. split; [reflexivity|]. split; [reflexivity|]. intros [_ K]. congruence.
    - destruct (mem attr accepted) eqn:A; cbn [assert_ bind].
      + unfold register_named. rewrite A. destruct (validate attr x) as [[]|e] eqn:V; cbn [bind].
        * split; [reflexivity|]. unfold has. rewrite E. split; [reflexivity|]. intros k. apply get_put.
        * right. split; [reflexivity|]. split; [reflexivity|]. unfold has. rewrite E. intros [K _]. discriminate.
      + left. unfold has. rewrite E. auto.
  Qed.
  Lemma direct_app a r1 r2 : direct a (r1 ++ r2) = direct a r1 ++ direct a r2.
  Proof. unfold direct. rewrite filter_app, map_app. reflexivity. Qed.
  Lemma indirect_app a r1 r2 : indirect a (r1 ++ r2) = indirect a r1 ++ indirect a r2.
  Proof. unfold indirect. rewrite filter_app, map_app. reflexivity. Qed.
  (** Any sequence of registrations. *)
Theorem C148_run regs a : get (registered regs) a = if mem a accepted then winner a regs else None.
  Proof.
    revert a. induction regs as [|[b x] regs IH] using rev_ind; intros a.
    - cbn. destruct (mem a accepted); reflexivity.
    - unfold registered in *. rewrite fold_left_app. cbn [fold_left fst snd]. set (st := fold_left _ regs []) in *. clearbody st.
      pose proof (C148_register b x st) as P. unfold winner in *. rewrite direct_app, indirect_app, rev_app_distr.
      unfold direct at 1, indirect at 2. cbn [filter map fst snd]. unfold mapped_to. unfold target in P.
      destruct (register b x st) as [st'|e].
      + destruct P as [A P]. destruct (get mappings b) as [c|] eqn:E.
        * assert (Hb : has mappings b = true) by (unfold has; rewrite E; reflexivity). rewrite Hb in P.
          assert (D : forall a, (b =? a)%string && negb (has mappings a) && good a x = false).
          { intros a'. destruct (String.eqb_spec b a') as [->|]; [|reflexivity]. rewrite Hb. reflexivity. }
          rewrite D. cbn [andb map rev app] in *. destruct (has st c) eqn:Hs.
          -- subst st'. rewrite IH. destruct (mem a accepted) eqn:Ma; [|reflexivity]. destruct (String.eqb_spec c a) as [->|N]; [|cbn [andb map]; rewrite app_nil_r; reflexivity].
             specialize (IH a). rewrite Ma in IH. unfold has in Hs. destruct (get st a) as [y|]; [|discriminate].
             destruct (rev (direct a regs)); [|reflexivity]. destruct (indirect a regs); [discriminate|]. reflexivity.
          -- destruct P as [V P]. rewrite P. destruct (String.eqb_spec c a) as [->|N].
             ++ rewrite A. unfold good. rewrite V. cbn [andb map]. specialize (IH a). rewrite A in IH. unfold has in Hs. destruct (get st a); [discriminate|].
                destruct (rev (direct a regs)); [|discriminate]. destruct (indirect a regs); [reflexivity|discriminate].
             ++ cbn [andb map]. rewrite app_nil_r. apply IH.
        * assert (Hb : has mappings b = false) by (unfold has; rewrite E; reflexivity). rewrite Hb in P. cbn [andb] in P. destruct P as [V P]. rewrite P.
          cbn [map]. rewrite app_nil_r. destruct (String.eqb_spec b a) as [->|N].
          -- rewrite A, Hb. unfold good. rewrite V. cbn. reflexivity.
          -- cbn [andb map rev app]. apply IH.
      + rewrite IH. destruct (mem a accepted) eqn:Ma; [|reflexivity].
        assert (D : (b =? a)%string && negb (has mappings a) && good a x = false /\
                    (hd_error (indirect a regs) = hd_error (indirect a regs ++ map snd (if match get mappings b with Some a' => (a' =? a)%string | None => false end && good a x then [(b, x)] else [])))).
        { destruct P as [(Hb & Mb & ->)|(Mt & V & Nr)].
          - unfold has in Hb. destruct (get mappings b) eqn:E; [discriminate|]. split; [|cbn [andb map]; rewrite app_nil_r; reflexivity].
            destruct (String.eqb_spec b a); [congruence|reflexivity].
          - destruct (get mappings b) as [c|] eqn:E.
            + split; [destruct (String.eqb_spec b a) as [->|]; [unfold has; rewrite E|]; reflexivity|].
              destruct (String.eqb_spec c a) as [->|]; [unfold good; rewrite V|]; cbn [andb map]; rewrite app_nil_r; reflexivity.
            + split; [|cbn [andb map]; rewrite app_nil_r; reflexivity]. destruct (String.eqb_spec b a) as [->|]; [|reflexivity].
              unfold good. rewrite V. rewrite andb_false_r. reflexivity. }
        destruct D as [D1 D2]. rewrite D1. cbn [map rev app]. destruct (rev (direct a regs)); [exact D2|reflexivity].
  Qed.
  (** What get_mutable_attr returns afterwards; two names of the same attribute always give the same mutable. *)
Theorem C148_get regs attr : has mappings attr = true \/ mem attr accepted = true -> look attr (registered regs) = Ok (winner (target attr) regs).
  Proof.
    intros H. unfold get_mutable_attr, target. pose proof (C148_run regs) as P. unfold has in *.
    destruct (get mappings attr) as [a|] eqn:E; cbn [orb assert_ bind].
    - rewrite P, (mappings_accepted _ _ E). reflexivity.
    - destruct H as [H|H]; [discriminate|]. rewrite H. cbn [assert_ bind]. rewrite P, H. reflexivity.
  Qed.
Theorem C148_unknown regs attr : has mappings attr = false -> mem attr accepted = false -> look attr (registered regs) = Raise AssertionError.
  Proof. intros H A. unfold get_mutable_attr. rewrite H, A. reflexivity. Qed.
End Register.

(** A LayerNorm-like class of 4 features: mutables are their widths. *)
Example C148_example :
  let mappings := [("in_channels", "num_features"); ("out_channels", "num_features")] in
  let validate (_ : string) (w : nat * string) := if fst w =? 4 then Ok tt else Raise ValueError in
  let st := registered _ mappings ["num_features"] validate in
  st [("in_channels", (3, "a")); ("in_channels", (4, "b")); ("out_channels", (4, "c")); ("bias", (4, "d"))] = [("num_features", (4, "b"))] /\
  st [("in_channels", (4, "b")); ("num_features", (4, "c")); ("out_channels", (4, "d"))] = [("num_features", (4, "c"))] /\
  get_mutable_attr _ mappings ["num_features"] "out_channels" (st [("in_channels", (4, "b"))]) = Ok (Some (4, "b")) /\
  get_mutable_attr _ mappings ["num_features"] "bias" (st [("in_channels", (4, "b"))]) = Raise AssertionError.
Proof. repeat split; reflexivity. Qed.

(** * C149 *)
Section LayerNorm.
  Variable A : Type.
  Variables (add mul : A -> A -> A) (normal : list A -> list A).
  Notation layer := (dln A).
  Notation fwd := (ln_forward A add mul normal).
  Notation static := (ln_static A add mul normal).
  Notation run := (ln_run A add mul normal).

  (** The entries of [l] at the true positions of [m]. *)
  Definition kept {T} (m : list bool) (l : list T) : list T := map snd (filter fst (combine m l)).
  (** A layer of [n] features with weights [w], [b] and a mask of [n] entries. *)
  Definition sound (n : nat) (w b : list A) (l : layer) : Prop :=
    n_wb A l = Some (w, b) /\ length w = n /\ length b = n /\ match n_mut A l with Some c => length (c_mask c) = n | None => n_shape A l = n end.
  (** The rows normalised over [k] features, then scaled and shifted with the selected weights. *)
  Definition normalised (m : list bool) (w b : list A) (x : rows A) : rows A :=
    {| x_dims := x_dims A x; x_width := x_width A x; x_rows := map (fun r => map (fun t => add (mul (fst t) (fst (snd t))) (snd (snd t))) (combine (normal r) (combine (kept m w) (kept m b)))) (x_rows A x) |}.

  Lemma sel_kept {T} m : forall l : list T, Dynamic_Model.sel m l = kept m l.
  Proof.
    unfold kept. induction m as [|[] m IH]; intros [|x l]; cbn [Dynamic_Model.sel combine filter fst map snd]; try reflexivity; [|apply IH].
    rewrite IH. reflexivity.
  Qed.
  Lemma kept_length {T} m (l : list T) : length m = length l -> length (kept m l) = count_true m.
  Proof.
    unfold kept, count_true. revert l. induction m as [|[] m IH]; intros [|x l] H; cbn [combine filter fst map snd length id] in *; try discriminate; [reflexivity| |];
    rewrite IH by lia; reflexivity.
  Qed.
  Lemma affine_spec w b r : affine A add mul w b r = map (fun t => add (mul (fst t) (fst (snd t))) (snd (snd t))) (combine r (combine w b)).
  Proof.
    unfold affine. revert w b. induction r as [|x r IH]; intros [|u w] [|v b]; cbn [combine map fst snd]; try reflexivity; rewrite ?IH; try reflexivity.
  Qed.
  Lemma kept_all {T} (l : list T) : kept (repeat true (length l)) l = l.
  Proof. unfold kept. induction l as [|x l IH]; cbn [length repeat combine filter fst map snd]; [reflexivity|]. rewrite IH. reflexivity. Qed.
  Lemma params_spec n w b l : sound n w b l ->
    ln_params A l = Ok (Some (match n_mut A l with Some c => (kept (c_mask c) w, kept (c_mask c) b) | None => (w, b) end)).
  Proof.
    intros (E & Lw & Lb & Hm). unfold ln_params. rewrite E. unfold Dynamic_Model.mask_index. destruct (n_mut A l) as [c|].
    - rewrite Hm, Lw, Lb, Nat.eqb_refl. cbn [bind]. rewrite !sel_kept. reflexivity.
    - rewrite repeat_length, Lw, Lb, Nat.eqb_refl. cbn [bind]. rewrite !sel_kept. rewrite <- Lw at 1. rewrite kept_all. rewrite <- Lb, kept_all. reflexivity.
  Qed.

  (** With a mutable registered, a three-dimensional input of the activated width is normalised with the selected weights;
      anything else is rejected. *)
Theorem C149_forward n w b l c x : sound n w b l -> n_mut A l = Some c ->
    snd (fwd l x) = if negb (x_dims A x =? 3) then Raise ValueError
                    else if x_width A x =? activated c then Ok (normalised (c_mask c) w b x) else Raise RuntimeError.
  Proof.
    intros H Em. pose proof (params_spec _ _ _ _ H) as P. rewrite Em in P. destruct H as (E & Lw & Lb & Hm). rewrite Em in Hm.
    unfold ln_forward. destruct (negb _); [reflexivity|]. rewrite P, Em. cbn [snd]. unfold layer_norm. destruct (x_width A x =? activated c) eqn:W; cbn [negb]; [|reflexivity].
    rewrite !kept_length by congruence. unfold activated in *. rewrite Nat.eqb_refl. cbn [andb]. f_equal. unfold normalised. apply Nat.eqb_eq in W. rewrite <- W. f_equal.
    apply map_ext. intros r. apply affine_spec.
  Qed.
  (** Exporting works exactly if the mutable is fixed; the exported layer computes the same on every input the layer accepts,
      and is a layer of the activated width. *)
Theorem C149_export n w b l c : sound n w b l -> n_mut A l = Some c ->
    ((exists s, ln_to_static A l = Ok s) <-> Attention2_Props.unblocked (c_state c)) /\
    (forall s, ln_to_static A l = Ok s -> sn_shape A s = activated c /\ forall x, x_dims A x = 3 -> static s x = snd (fwd l x)).
  Proof.
    intros H Em. pose proof (params_spec _ _ _ _ H) as P. rewrite Em in P. unfold ln_to_static. rewrite Em, P.
    unfold Dynamic_Model.check_if_mutables_fixed. cbn [forallb]. unfold Attention2_Props.unblocked.
    assert (F : forall s, Ok s = (do wb <- Ok (Some (kept (c_mask c) w, kept (c_mask c) b)); Ok {| sn_shape := activated c; sn_wb := wb |}) ->
      sn_shape A s = activated c /\ (forall x, x_dims A x = 3 -> static s x = snd (fwd l x))).
    { intros s Es. apply Ok_inj in Es. subst s. split; [reflexivity|]. intros x Hx. unfold ln_forward, ln_static. rewrite Hx, P, Em. reflexivity. }
    destruct (c_state c) as [k f]. cbn [fst snd].
    assert (B : (match k with Dynamic_Model.Other => f | _ => true end) = true <-> (k = Dynamic_Model.Other -> f = true)).
    { destruct k, f; cbn; split; intros; try reflexivity; try discriminate; auto. }
    destruct k; destruct f; cbn [andb bind] in *; (split; [split; [intros [s E]; try discriminate; intros; try reflexivity; discriminate|
      intros U; try (exfalso; specialize (U eq_refl); discriminate); eexists; reflexivity]|intros s E; try discriminate; apply F; symmetry; exact E]).
  Qed.
  Lemma register_channels attr c l : attr = "in_channels" \/ attr = "out_channels" -> ln_register A attr c l =
    match n_mut A l with
    | Some _ => Ok l
    | None => match n_wb A l with
              | None => Raise RuntimeError
              | Some _ => if length (c_mask c) =? n_shape A l then Ok {| n_shape := n_shape A l; n_wb := n_wb A l; n_mut := Some c |} else Raise ValueError
              end
    end.
  Proof.
    destruct l as [n wb m]. cbn [n_mut n_wb n_shape]. intros [-> | ->]; unfold ln_register, register_mutable_attr; cbn [n_mut n_wb n_shape]; cbn;
    (destruct m as [m|]; cbn; [reflexivity|]; unfold register_named; cbn; destruct wb as [p|]; cbn; [destruct (_ =? _); reflexivity|reflexivity]).
  Qed.
  (** Any sequence of registrations under channel names, choices and forwards keeps a layer sound. *)
  Definition by_channels (e : ln_event A) : Prop :=
    match e with Register _ attr _ => attr = "in_channels" \/ attr = "out_channels" | _ => True end.
Theorem C149_run_partial n w b es : length w = n -> length b = n -> Forall by_channels es -> sound n w b (run (ln_new A n (Some (w, b))) es).
  Proof.
    intros Lw Lb. assert (X : forall es l, Forall by_channels es -> sound n w b l -> sound n w b (run l es)).
    { clear es. induction es as [|e es IH]; intros l F H; [exact H|]. inversion F as [|? ? Fe Fs]; subst. cbn [ln_run fold_left]. apply IH; [exact Fs|]. clear IH Fs F.
      destruct H as (E & L1 & L2 & Hm). destruct e as [attr c|m|x]; cbn [ln_step].
      - rewrite (register_channels _ _ _ Fe). destruct (n_mut A l) as [c0|] eqn:Em; [split; [exact E|]; rewrite Em; auto|]. rewrite E.
        destruct (length (c_mask c) =? n_shape A l) eqn:Q; [|split; [exact E|]; rewrite Em; auto]. apply Nat.eqb_eq in Q.
        split; [reflexivity|]. cbn [n_mut]. repeat split; congruence.
      - destruct (n_mut A l) as [c0|] eqn:Em; [|split; [exact E|]; rewrite Em; auto]. destruct (length m =? length (c_mask c0)) eqn:Q; [|split; [exact E|]; rewrite Em; auto].
        apply Nat.eqb_eq in Q. split; [exact E|]. cbn [n_mut c_mask]. repeat split; congruence.
      - unfold ln_forward. destruct (negb _); [split; [exact E|]; auto|]. destruct (ln_params A l); [|split; [exact E|]; auto]. destruct (n_mut A l) as [c0|] eqn:Em; cbn [fst].
        + split; [exact E|]. cbn [n_mut]. rewrite ?Em. auto.
        + split; [exact E|]. rewrite Em. auto. }
    intros F. apply X; [exact F|]. repeat split; auto.
  Qed.
  (** A layer with nothing registered cannot be used, but exports the original layer. *)
Theorem C149_bare_partial n w b l x : sound n w b l -> n_mut A l = None -> x_dims A x = 3 ->
    snd (fwd l x) = Raise KeyError /\ ln_to_static A l = Ok {| sn_shape := n; sn_wb := Some (w, b) |}.
  Proof.
    intros H Em Hx. pose proof (params_spec _ _ _ _ H) as P. destruct H as (E & Lw & Lb & Hm). rewrite Em in *. unfold ln_forward, ln_to_static. rewrite Hx, P, Em. cbn. rewrite Hm. auto.
  Qed.
  (** Without weights nothing can ever be registered, so the layer never works. *)
Theorem C149_plain_partial n es x : x_dims A x = 3 -> snd (fwd (run (ln_new A n None) es) x) = Raise KeyError.
  Proof.
    assert (X : forall es l, n_wb A l = None -> n_mut A l = None -> run l es = l).
    { clear es. induction es as [|e es IH]; intros l E Em; [reflexivity|]. cbn [ln_run fold_left].
      assert (S0 : ln_step A add mul normal l e = l).
      { destruct e as [attr c|m|y]; cbn [ln_step].
        - unfold ln_register, register_mutable_attr. rewrite Em. destruct (has _ attr || mem attr _); cbn [assert_ bind]; [|reflexivity].
          destruct (get _ attr) as [a|]; [destruct (mem a _); cbn [assert_ bind]; [|reflexivity]|destruct (mem attr _); [|reflexivity]]; cbn [has get];
          unfold register_named; destruct (mem _ _); cbn [bind]; try reflexivity; unfold ln_validate; rewrite E; reflexivity.
        - rewrite Em. reflexivity.
        - unfold ln_forward. destruct (negb _); [reflexivity|]. unfold ln_params. rewrite E, Em. reflexivity. }
      rewrite S0. apply IH; assumption. }
    intros Hx. rewrite X by reflexivity. unfold ln_forward, ln_params, ln_new. rewrite Hx. reflexivity.
  Qed.
End LayerNorm.

(** ** Examples: numbers, and rows that are already normal *)
Definition full (m : list bool) : channels := {| c_mask := m; c_state := (Dynamic_Model.Derived, false) |}.
Definition demo_ln : dln Z := ln_new Z 3 (Some ([1; 2; 3]%Z, [10; 20; 30]%Z)).
Definition demo_x (k : nat) (rs : list (list Z)) : rows Z := {| x_dims := 3; x_width := k; x_rows := rs |}.
Notation demo_run es := (ln_run Z Z.add Z.mul id demo_ln es).
Notation demo_fwd l x := (snd (ln_forward Z Z.add Z.mul id l x)).
Example C149_example :
  let l := demo_run [Register Z "in_channels" (full [true; true; true]); Choose Z [true; false; true]; Register Z "out_channels" (full [false; false; true])] in
  demo_fwd l (demo_x 2 [[5; 7]]%Z) = Ok (demo_x 2 [[15; 51]]%Z) /\ sound Z 3 [1; 2; 3]%Z [10; 20; 30]%Z l /\
  ln_to_static Z l = Ok {| sn_shape := 2; sn_wb := Some ([1; 3]%Z, [10; 30]%Z) |}.
Proof. repeat split. Qed.
Example C149_example_bare : demo_fwd demo_ln (demo_x 3 [[1; 2; 3]]%Z) = Raise KeyError.
Proof. reflexivity. Qed.
Example C149_example_plain :
  snd (ln_forward Z Z.add Z.mul id (ln_run Z Z.add Z.mul id (ln_new Z 2 None) [Register Z "num_features" (full [true; true])]) (demo_x 2 [[1; 2]]%Z)) = Raise KeyError.
Proof. reflexivity. Qed.

(** The mutable of a layer always has the size of its weights, whatever is registered, chosen and run. *)
Definition C149_run_claim : Prop :=
  forall n w b es, length w = n -> length b = n -> sound Z n w b (ln_run Z Z.add Z.mul id (ln_new Z n (Some (w, b))) es).
Definition narrowed : list (ln_event Z) :=
  [Register Z "num_features" (full [true; true; true]); Choose Z [true; false; true]; Forward Z (demo_x 2 [[5; 7]]%Z)].
(** After a forward with a narrowed mask, registering num_features again refuses a mutable of the right size ... *)
Theorem C149_again_refuted : ~ (forall es l c, demo_run es = l -> length (c_mask c) = 3 -> exists l', ln_register Z "num_features" c l = Ok l').
Proof. intros H. destruct (H narrowed _ (full [true; true; true]) eq_refl eq_refl) as [l' E]. discriminate E. Qed.
(** ... and takes one of the narrowed size, with which the layer no longer works. *)
Theorem C149_run_refuted : ~ C149_run_claim.
Proof.
  intros H. destruct (H 3 [1; 2; 3]%Z [10; 20; 30]%Z (narrowed ++ [Register Z "num_features" (full [true; true])]) eq_refl eq_refl) as (_ & _ & _ & E). discriminate E.
Qed.
Example C149_example_broken : demo_fwd (demo_run (narrowed ++ [Register Z "num_features" (full [true; true])])) (demo_x 2 [[5; 7]]%Z) = Raise IndexError.
Proof. reflexivity. Qed.
(** A layer with nothing registered computes what LayerNorm computes. *)
Definition C149_bare_claim : Prop :=
  forall x, x_dims Z x = 3 -> demo_fwd demo_ln x = ln_static Z Z.add Z.mul id {| sn_shape := 3; sn_wb := Some ([1; 2; 3]%Z, [10; 20; 30]%Z) |} x.
Theorem C149_bare_refuted : ~ C149_bare_claim.
Proof. intros H. discriminate (H (demo_x 3 [[1; 2; 3]]%Z) eq_refl). Qed.
(** A layer converted from a LayerNorm, with every feature selected, computes what the LayerNorm computes. *)
Definition C149_convert_claim : Prop :=
  forall (s : sln Z) l x, x_dims Z x = 3 -> ln_register Z "in_channels" (full (repeat true (sn_shape Z s))) (ln_convert Z 0%Z 1%Z s) = Ok l ->
    demo_fwd l x = ln_static Z Z.add Z.mul id s x.
(** Its weights are not copied. *)
Theorem C149_convert_refuted : ~ C149_convert_claim.
Proof. intros H. discriminate (H {| sn_shape := 1; sn_wb := Some ([2]%Z, [0]%Z) |} _ (demo_x 1 [[5]]%Z) eq_refl eq_refl). Qed.

Print Assumptions C148_register.
Print Assumptions C148_run.
Print Assumptions C148_get.
Print Assumptions C148_unknown.
Print Assumptions C149_forward.
Print Assumptions C149_export.
Print Assumptions C149_run_partial.
Print Assumptions C149_bare_partial.
Print Assumptions C149_plain_partial.
Print Assumptions C149_again_refuted.
Print Assumptions C149_run_refuted.
Print Assumptions C149_bare_refuted.
Print Assumptions C149_convert_refuted.
