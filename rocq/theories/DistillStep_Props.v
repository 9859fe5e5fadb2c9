(** The steps of the configurable distillation algorithms: in-place modules (C186), teachers (C187), losses (C188), gradients of the
    student (C189), deliveries (C190) and recorders of self-distillation (C191). *)
From Verif Require Import Prelude Evolution_Model Evolution_Props FixSubnet_Model FixSubnet_Props Recorder_Model Recorder_Props Distill_Props DistillStep_Model.

(** ** Specification *)
(** The module a path of positions leads to. *)
Fixpoint at_ (t : tree) (p : list nat) : option attrs :=
  match p with
  | [] => match t with Node a _ => Some a end
  | i :: r => match t with Node _ cs => match nth_error cs i with Some u => at_ u r | None => None end end
  end.
(** A module strictly above the one at [p] has an attribute inplace. *)
Definition covered (t : tree) (p : list nat) : Prop := exists q r a, p = q ++ r /\ r <> [] /\ at_ t q = Some a /\ a_inplace a <> None.
(** A _BatchNorm at or above [p]. *)
Definition in_norm (t : tree) (p : list nat) : Prop := exists q r a, p = q ++ r /\ at_ t q = Some a /\ a_bn a = true.

(** ** Lemmas *)
Lemma at_map f t : forall p, at_ (map_tree f t) p = option_map f (at_ t p).
Proof.
  intros p. revert t. induction p as [|i p IH]; intros [a cs]; cbn [at_ map_tree]; [reflexivity|]. rewrite nth_error_map.
  destruct (nth_error cs i) as [u|]; cbn [option_map]; [apply IH|reflexivity].
Qed.
Lemma covered_nil t : ~ covered t [].
Proof. intros (q & r & a & E & R & _). destruct q, r; try discriminate E. apply R; reflexivity. Qed.
Lemma covered_cons a cs i p u : nth_error cs i = Some u -> (covered (Node a cs) (i :: p) <-> a_inplace a <> None \/ covered u p).
Proof.
  intros N. split.
  - intros ([|j q] & r & b & E & R & A & I).
    + cbn in A. injection A as ->. left; exact I.
    + cbn in E. injection E as <- ->. cbn in A. rewrite N in A. right. exists q, r, b. auto.
  - intros [I|(q & r & b & -> & R & A & I)].
    + exists [], (i :: p), a. repeat split; try assumption. discriminate.
    + exists (i :: q), r, b. repeat split; try assumption. cbn. rewrite N. exact A.
Qed.

(** ** C186 *)
(** What set_module_inplace_false does to every module: those with an attribute inplace get False, except below others with one. *)
Theorem C186_exact : forall t p a, at_ t p = Some a -> exists b, at_ (set_inplace_false t) p = Some b /\
  (a_inplace a = None \/ covered t p -> b = a) /\ (a_inplace a <> None -> ~ covered t p -> b = with_inplace false a).
Proof.
  intros t p. revert t. induction p as [|i p IH]; intros [a cs] x A; cbn [at_] in A; cbn [set_inplace_false].
  - injection A as <-. destruct (a_inplace a) as [v|] eqn:V; eexists; (split; [reflexivity|]); (split; [|congruence]); intros [H|H]; try congruence; contradiction (covered_nil _ H).
  - destruct (nth_error cs i) as [u|] eqn:N; [|discriminate A]. destruct (a_inplace a) as [v|] eqn:V.
    + exists x. cbn [at_]. rewrite N. split; [exact A|]. split; [reflexivity|]. intros _ H. contradiction H. apply (covered_cons a cs i p u N). left; congruence.
    + destruct (IH u x A) as (b & B & B1 & B2). exists b. cbn [at_]. rewrite nth_error_map, N. cbn [option_map]. split; [exact B|].
      rewrite (covered_cons a cs i p u N). split.
      * intros [H|[H|H]]; [apply B1; left; exact H|congruence|apply B1; right; exact H].
      * intros H1 H2. apply B2; [exact H1|]. intros H3. apply H2. right; exact H3.
Qed.
(** The modules of a network built with module_inplace = False do not work in place. *)
Definition C186_claim : Prop := forall t p a, at_ (new_student false t) p = Some a -> a_inplace a <> Some true.
(** A ConvModule has an attribute inplace itself, so its activation is not visited. *)
Definition plain (i : option bool) : attrs := {| a_inplace := i; a_bn := false; a_training := true; a_grads := [] |}.
Definition conv_module : tree := Node (plain (Some true)) [Node (plain None) []; Node (plain (Some true)) []].
Theorem C186_nested_refuted : ~ C186_claim.
Proof. intros H. specialize (H conv_module [1%nat] (plain (Some true)) eq_refl). apply H. reflexivity. Qed.
(** Proved when no module with the attribute contains one that works in place; the teacher likewise. *)
Lemma inplace_path t : forall p b, at_ (set_inplace_false t) p = Some b -> exists a, at_ t p = Some a.
Proof.
  intros p. revert t. induction p as [|i p IH]; intros [a cs] b; cbn [set_inplace_false]; destruct (a_inplace a); cbn [at_]; intros H; try (eexists; reflexivity).
  - destruct (nth_error cs i); [eexists; exact H|discriminate H].
  - rewrite nth_error_map in H. destruct (nth_error cs i); [apply IH in H; exact H|discriminate H].
Qed.
Lemma inplace_none t p b : (forall q c, at_ t q = Some c -> covered t q -> a_inplace c <> Some true) -> at_ (set_inplace_false t) p = Some b -> a_inplace b <> Some true.
Proof.
  intros H B. destruct (inplace_path t p b B) as [a A]. destruct (C186_exact t p a A) as (b' & B' & B1 & B2). rewrite B in B'. injection B' as <-.
  destruct (a_inplace a) as [v|] eqn:V; [|rewrite B1 by (left; reflexivity); congruence].
  intros X. assert (N : ~ covered t p). { intros C. apply (H p a A C). rewrite <- X, B1 by (right; exact C). reflexivity. }
  rewrite B2 in X; [discriminate X|congruence|exact N].
Qed.
Theorem C186_inplace_partial : forall t, (forall p a, at_ t p = Some a -> covered t p -> a_inplace a <> Some true) ->
  (forall p b, at_ (new_student false t) p = Some b -> a_inplace b <> Some true) /\
  (forall trainable p b, at_ (new_teacher false trainable t) p = Some b -> a_inplace b <> Some true).
Proof.
  intros t H. split; [intros p b; apply inplace_none; exact H|]. intros trainable p b. unfold new_teacher. destruct trainable; [apply inplace_none; exact H|].
  rewrite at_map. destruct (at_ (set_inplace_false t) p) as [c|] eqn:C; [|discriminate]. intros B. injection B as <-. exact (inplace_none t p c H C).
Qed.
Example C186_example : at_ (set_inplace_false (Node (plain None) [Node (plain (Some true)) []; conv_module])) [0%nat] = Some (plain (Some false)) /\
  at_ (set_inplace_false (Node (plain None) [Node (plain (Some true)) []; conv_module])) [1%nat] = Some (plain (Some false)) /\
  at_ (set_inplace_false (Node (plain None) [Node (plain (Some true)) []; conv_module])) [1%nat; 1%nat] = Some (plain (Some true)).
Proof. repeat split. Qed.
Example C186_partial_example : forall p a, at_ (Node (plain None) [Node (plain (Some true)) []]) p = Some a -> covered (Node (plain None) [Node (plain (Some true)) []]) p -> a_inplace a <> Some true.
Proof.
  intros [|[|i] p] a A C.
  - contradiction (covered_nil _ C).
  - rewrite (covered_cons (plain None) [Node (plain (Some true)) []] 0%nat p (Node (plain (Some true)) []) eq_refl) in C. destruct C as [C|C]; [cbn in C; congruence|].
    destruct p as [|j p]; [contradiction (covered_nil _ C)|]. cbn in A. destruct j; discriminate A.
  - cbn in A. destruct i; discriminate A.
Qed.

(** ** C187 *)
(** The parameters of a teacher that is not trainable get no gradients; those of a trainable one are left as they are. *)
Theorem C187_frozen : forall module_inplace trainable t p a, at_ t p = Some a -> exists b, at_ (new_teacher module_inplace trainable t) p = Some b /\
  length (a_grads b) = length (a_grads a) /\ (trainable = true -> a_grads b = a_grads a) /\ (trainable = false -> forall g, In g (a_grads b) -> g = false).
Proof.
  intros mi tr t p a A. unfold new_teacher.
  assert (X : exists c, at_ (if mi then t else set_inplace_false t) p = Some c /\ a_grads c = a_grads a).
  { destruct mi; [exists a; auto|]. destruct (C186_exact t p a A) as (b & B & B1 & B2). exists b. split; [exact B|].
    destruct (a_inplace a) as [v|] eqn:V; [|rewrite B1 by (left; reflexivity); reflexivity].
    revert B. destruct t as [x cs]. intros B. clear B1 B2 V v. revert x cs A B. induction p as [|i p IH]; intros x cs A B; cbn [at_ set_inplace_false] in *.
    - injection A as ->. destruct (a_inplace a); cbn in B; injection B as <-; reflexivity.
    - destruct (nth_error cs i) as [[y ds]|] eqn:N; [|discriminate A]. destruct (a_inplace x).
      + cbn [at_] in B. rewrite N in B. rewrite A in B. injection B as <-. reflexivity.
      + cbn [at_] in B. rewrite nth_error_map, N in B. cbn [option_map] in B. exact (IH y ds A B). }
  destruct X as (c & C & G). destruct tr.
  - exists c. rewrite G. repeat split; auto. discriminate.
  - exists (with_grads false c). rewrite at_map, C. cbn. rewrite map_length, G. repeat split; [discriminate|]. intros _ g Hg. apply in_map_iff in Hg as (y & E & _). congruence.
Qed.
(** The mode of every module of the teacher after train(mode): with teacher_norm_eval exactly the _BatchNorms, and what they contain, are in evaluation
    mode while the rest trains. *)
Lemma in_norm_cons a cs i p u : a_bn a = false -> nth_error cs i = Some u -> (in_norm (Node a cs) (i :: p) <-> in_norm u p).
Proof.
  intros B N. split.
  - intros ([|j q] & r & b & E & A & I).
    + cbn in A. injection A as ->. congruence.
    + cbn in E. injection E as <- ->. cbn in A. rewrite N in A. exists q, r, b. auto.
  - intros (q & r & b & -> & A & I). exists (i :: q), r, b. repeat split; try assumption. cbn. rewrite N. exact A.
Qed.
Lemma eval_norms_at t : forall p a, at_ t p = Some a -> exists b, at_ (eval_norms t) p = Some b /\
  (in_norm t p -> a_training b = false) /\ (~ in_norm t p -> a_training b = a_training a).
Proof.
  intros p. revert t. induction p as [|i p IH]; intros [a cs] x A; cbn [at_] in A; cbn [eval_norms].
  - injection A as <-. destruct (a_bn a) eqn:B.
    + exists (with_training false a). split; [reflexivity|]. split; [reflexivity|]. intros H. contradiction H. exists [], [], a. auto.
    + exists a. split; [reflexivity|]. split; [|reflexivity]. intros ([|] & [|] & b & E & A & I); try discriminate E. cbn in A. injection A as <-. congruence.
  - destruct (nth_error cs i) as [u|] eqn:N; [|discriminate A]. destruct (a_bn a) eqn:B.
    + exists (with_training false x). split; [unfold train; rewrite at_map; cbn [at_]; rewrite N, A; reflexivity|]. split; [reflexivity|].
      intros H. contradiction H. exists [], (i :: p), a. auto.
    + destruct (IH u x A) as (b & B0 & B1 & B2). exists b. cbn [at_]. rewrite nth_error_map, N. cbn [option_map]. rewrite (in_norm_cons a cs i p u B N). auto.
Qed.
Lemma in_norm_train m t p : in_norm (train m t) p <-> in_norm t p.
Proof.
  unfold train. split; intros (q & r & a & E & A & I).
  - rewrite at_map in A. destruct (at_ t q) as [b|] eqn:B; [|discriminate A]. injection A as <-. exists q, r, b. auto.
  - exists q, r, (with_training m a). rewrite at_map, A. auto.
Qed.
Theorem C187_mode : forall norm_eval mode t p a, at_ t p = Some a -> exists b, at_ (train_teacher norm_eval mode t) p = Some b /\
  (norm_eval = true -> in_norm t p -> a_training b = false) /\ (norm_eval = false \/ ~ in_norm t p -> a_training b = mode).
Proof.
  intros ne mode t p a A. unfold train_teacher. assert (T : at_ (train mode t) p = Some (with_training mode a)) by (unfold train; rewrite at_map, A; reflexivity).
  destruct mode, ne; cbn [andb].
  - destruct (eval_norms_at _ _ _ T) as (b & B & B1 & B2). rewrite in_norm_train in B1, B2. exists b. split; [exact B|]. split; [auto|]. intros [H|H]; [discriminate H|]. rewrite B2 by exact H. reflexivity.
  - exists (with_training true a). repeat split; [exact T|discriminate].
  - exists (with_training false a). repeat split; exact T.
  - exists (with_training false a). repeat split; exact T.
Qed.
Definition norm_attrs : attrs := {| a_inplace := None; a_bn := true; a_training := true; a_grads := [true; true] |}.
Example C187_example : in_norm (Node (plain None) [Node (plain None) []; Node norm_attrs []]) [1%nat] /\
  option_map a_training (at_ (train_teacher true true (Node (plain None) [Node (plain None) []; Node norm_attrs []])) [1%nat]) = Some false /\
  option_map a_training (at_ (train_teacher true true (Node (plain None) [Node (plain None) []; Node norm_attrs []])) [0%nat]) = Some true /\
  option_map a_grads (at_ (new_teacher false false (Node (plain None) [Node norm_attrs []])) [0%nat]) = Some [false; false].
Proof. split; [exists [1%nat], [], norm_attrs; repeat split|]. repeat split. Qed.

(** ** C188 *)
(** What a step reports: the losses of a trainable teacher, those of the student unless they are switched off, and those of the distiller until it
    is stopped. *)
Definition reports (c : cfg) (stopped : bool) (teacher student distill ls : subnet) : Prop :=
  (forall k, sget ls ("teacher." ++ k) = if c_teacher_trainable c then sget teacher k else None) /\
  (forall k, sget ls ("student." ++ k) = if c_calculate c then sget student k else None) /\
  (forall k, sget ls ("distill." ++ k) = if stopped then None else sget distill k).
Definition C188_claim : Prop := forall c stopped t s d, NoDup (map fst t) -> NoDup (map fst s) -> NoDup (map fst d) -> reports c stopped t s d (losses c stopped t s d).
(** FpnTeacherDistill reports the student losses even with calculate_student_loss = False. *)
Theorem C188_fpn_refuted : ~ C188_claim.
Proof.
  intros H. destruct (H {| c_algo := Fpn; c_teacher_trainable := false; c_student_trainable := true; c_calculate := false |} true [] [("a"%string, "1"%string)] []) as [_ [X _]];
    [constructor|constructor; [cbn; tauto|constructor]|constructor|]. specialize (X "a"%string). cbn in X. discriminate X.
Qed.
(** The dictionaries of all three algorithms, exactly. *)
Definition as_dcfg (c : cfg) : dcfg :=
  {| teacher_trainable := match c_algo c with Single => c_teacher_trainable c | _ => false end;
     calculate_student_loss := match c_algo c with Fpn => true | _ => c_calculate c end; stop_epoch := 0 |}.
Lemma losses_as c stopped t s d : losses c stopped t s d = loss_step (as_dcfg c) (match c_algo c with Self => false | _ => stopped end) t s d.
Proof. unfold losses, loss_step, as_dcfg. destruct c as [[| |] tt st cc]; cbn; reflexivity. Qed.
Theorem C188_reports_partial : forall c stopped t s d, NoDup (map fst t) -> NoDup (map fst s) -> NoDup (map fst d) ->
  (c_algo c = Single -> reports c stopped t s d (losses c stopped t s d)) /\
  (c_algo c = Self -> c_teacher_trainable c = false -> reports c false t s d (losses c stopped t s d)) /\
  (c_algo c = Fpn -> c_teacher_trainable c = false -> c_calculate c = true -> reports c stopped t s d (losses c stopped t s d)) /\
  (forall k v, sget (losses c stopped t s d) k = Some v -> exists p a, In p ["student"; "teacher"; "distill"]%string /\ k = (p ++ "." ++ a)%string).
Proof.
  intros c stopped t s d Ht Hs Hd. rewrite losses_as.
  pose proof (loss_step_ok (as_dcfg c) (match c_algo c with Self => false | _ => stopped end) (t, s, d) (conj Ht (conj Hs Hd))) as (A & B & C & D).
  cbn [fst snd] in A, B, C, D. split; [|split; [|split; [|exact D]]]; unfold reports.
  - intros E. unfold as_dcfg in *. rewrite E in *. cbn [teacher_trainable calculate_student_loss] in *. repeat split; [exact B|exact A|]. intros k. rewrite C. destruct stopped; reflexivity.
  - intros E T. unfold as_dcfg in *. rewrite E, T in *. cbn [teacher_trainable calculate_student_loss] in *. repeat split; [exact B|exact A|]. intros k. rewrite C. reflexivity.
  - intros E T K. unfold as_dcfg in *. rewrite E, T, K in *. cbn [teacher_trainable calculate_student_loss] in *. repeat split; [exact B|exact A|]. intros k. rewrite C. destruct stopped; reflexivity.
Qed.
(** Whatever the switches, FpnTeacherDistill reports the student and never the teacher. *)
Theorem C188_fpn : forall c stopped t s d k, c_algo c = Fpn -> NoDup (map fst t) -> NoDup (map fst s) -> NoDup (map fst d) ->
  sget (losses c stopped t s d) ("student." ++ k) = sget s k /\ sget (losses c stopped t s d) ("teacher." ++ k) = None.
Proof.
  intros c stopped t s d k E Ht Hs Hd. rewrite losses_as.
  pose proof (loss_step_ok (as_dcfg c) (match c_algo c with Self => false | _ => stopped end) (t, s, d) (conj Ht (conj Hs Hd))) as (A & B & _). cbn [fst snd] in A, B.
  unfold as_dcfg in *. rewrite E in *. cbn [teacher_trainable calculate_student_loss] in *. split; [apply A|apply B].
Qed.
Example C188_example :
  losses {| c_algo := Single; c_teacher_trainable := true; c_student_trainable := true; c_calculate := true |} false [("a", "1")]%string [("a", "2")]%string [("b", "3")]%string
    = [("teacher.a", "1"); ("student.a", "2"); ("distill.b", "3")]%string /\
  losses {| c_algo := Self; c_teacher_trainable := false; c_student_trainable := true; c_calculate := false |} true [("a", "1")]%string [("a", "2")]%string [("b", "3")]%string
    = [("distill.b", "3")]%string.
Proof. split; reflexivity. Qed.

(** ** C189 *)
(** Which pass keeps gradients: a network gets gradients only if it is trainable. *)
Definition trainable (c : cfg) (r : runs) : bool := match r with StudentLoss => c_student_trainable c | _ => c_teacher_trainable c end.
Definition C189_claim : Prop := forall c p, In p (passes c) -> p_grad p = true -> trainable c (p_runs p) = true.
(** student_trainable = False has no effect with the default calculate_student_loss = True. *)
Theorem C189_student_refuted : ~ C189_claim.
Proof.
  intros H. specialize (H {| c_algo := Single; c_teacher_trainable := false; c_student_trainable := false; c_calculate := true |} _ (or_intror (or_introl eq_refl)) eq_refl). discriminate H.
Qed.
(** Proved for the teacher; the student keeps gradients exactly when it is trainable, its losses are asked for or the algorithm is FpnTeacherDistill.  Every
    algorithm runs the student once, after the teacher, and records what each network does. *)
Theorem C189_gradients_partial : forall c p, In p (passes c) ->
  p_grad p = match p_runs p with StudentLoss => c_student_trainable c || c_calculate c || match c_algo c with Fpn => true | _ => false end | _ => c_teacher_trainable c end.
Proof. intros [[| |] tt st cc] p; cbn; intros H; repeat (destruct H as [<-|H]); try contradiction H; cbn; destruct cc, st, tt; reflexivity. Qed.
Theorem C189_passes : forall c, map p_runs (passes c) = (match c_algo c with Single => [TeacherLoss] | Self => [] | Fpn => [TeacherFeat] end) ++ [StudentLoss] /\
  (forall p, In p (passes c) -> p_student_rec p = true <-> p_runs p = StudentLoss) /\
  (forall p, In p (passes c) -> p_teacher_rec p = true <-> (c_algo c = Self \/ p_runs p <> StudentLoss)).
Proof.
  intros [[| |] tt st cc]; cbn; (split; [reflexivity|]); (split; intros p H; repeat (destruct H as [<-|H]); try contradiction H; cbn; split; intros X; try reflexivity; try discriminate X; try (destruct X; congruence); auto; right; discriminate).
Qed.
Example C189_example : map p_grad (passes {| c_algo := Single; c_teacher_trainable := false; c_student_trainable := false; c_calculate := false |}) = [false; false] /\
  map p_grad (passes {| c_algo := Fpn; c_teacher_trainable := false; c_student_trainable := false; c_calculate := false |}) = [false; true].
Proof. split; reflexivity. Qed.

(** ** C190 *)
(** A delivery, empty at first, that is called equally often in the passes over the two networks of a step, in any number of steps:
    the student is given what was recorded. *)
Definition C190_claim : Prop := forall c max o (its : list (list val * list (option val))),
  (forall i, In i its -> (length (fst i) <= max)%nat /\ length (snd i) = length (fst i)) ->
  exists out d', run_steps c (map (fun i => (map Some (fst i), snd i)) its) {| d_queue := []; d_max := max; d_override := o |} = Ok (out, d').
(** In SelfDistill nothing is ever recorded. *)
Theorem C190_self_refuted : ~ C190_claim.
Proof.
  intros H. destruct (H {| c_algo := Self; c_teacher_trainable := false; c_student_trainable := true; c_calculate := true |} 1%nat false [([VAtom 1], [Some (VAtom 1)])]) as (out & d' & E).
  - intros i [<-|[]]. cbn. lia.
  - vm_compute in E. discriminate E.
Qed.
(** SelfDistill runs with a delivery exactly when it is never called. *)
Theorem C190_self : forall c its d, c_algo c = Self -> d_queue d = [] ->
  ((forall i, In i its -> snd i = []) -> exists out d', run_steps c its d = Ok (out, d')) /\
  ((exists i, In i its /\ snd i <> []) -> run_steps c its d = Raise AssertionError).
Proof.
  intros c its d E. revert d. induction its as [|[t s] its IH]; intros d Q; cbn [run_steps].
  - split; [intros _; eexists; eexists; reflexivity|intros (i & [] & _)].
  - assert (X : run_passes (passes c) t s d = match s with [] => Ok ([[]], set_override d true) | _ => Raise AssertionError end).
    { unfold passes. rewrite E. cbn [run_passes calls_of p_runs p_override]. destruct s as [|x s]; [reflexivity|]. cbn [deliver_all]. unfold deliver, set_override. cbn [d_override d_queue]. rewrite Q. reflexivity. }
    rewrite X. destruct s as [|x s]; cbn [bind fst snd].
    + destruct (IH (set_override d true) Q) as [I1 I2]. split.
      * intros H. destruct I1 as (out & d' & R0); [intros i Hi; apply H; right; exact Hi|]. rewrite R0. cbn. eauto.
      * intros (i & [<-|Hi] & N); [contradiction N; reflexivity|]. rewrite I2 by eauto. reflexivity.
    + split; [intros H; specialize (H _ (or_introl eq_refl)); discriminate H|]. intros _. reflexivity.
Qed.
(** Proved for the algorithms with a teacher: the student gets, without executing anything, what the teacher returned in the same step. *)
Theorem C190_teacher_partial : forall c max o (its : list (list val * list (option val))), c_algo c <> Self ->
  (forall i, In i its -> (length (fst i) <= max)%nat /\ length (snd i) = length (fst i)) ->
  exists d', d_queue d' = [] /\ run_steps c (map (fun i => (map Some (fst i), snd i)) its) {| d_queue := []; d_max := max; d_override := o |} =
    Ok (map (fun i => [map (fun v => (v, true)) (fst i); map (fun v => (v, false)) (fst i)]) its, d').
Proof.
  intros c max o its E. revert o. induction its as [|[ts ss] its IH]; intros o H; cbn [map run_steps fst snd]; [eexists; split; [|reflexivity]; reflexivity|].
  destruct (H _ (or_introl eq_refl)) as [H1 H2]. cbn [fst snd] in H1, H2.
  assert (X : run_passes (passes c) (map Some ts) ss {| d_queue := []; d_max := max; d_override := o |} = Ok ([executed ts; handed ts], {| d_queue := []; d_max := max; d_override := true |})).
  { unfold passes. destruct (c_algo c); [|contradiction E; reflexivity|]; cbn [run_passes calls_of p_runs p_override]; unfold set_override; cbn [d_queue d_max];
      rewrite record_all by (cbn; lia); cbn [bind snd fst app d_queue d_max]; rewrite override_all by lia; cbn [bind snd fst]; rewrite H2, firstn_all, skipn_all; reflexivity. }
  rewrite X. cbn [bind snd fst]. destruct (IH true) as (d' & Hq & R0); [intros i Hi; apply H; right; exact Hi|]. rewrite R0. cbn. eauto.
Qed.
Example C190_example : exists d', run_steps {| c_algo := Fpn; c_teacher_trainable := false; c_student_trainable := true; c_calculate := true |}
  [([Some (VAtom 1)], [None]); ([Some (VAtom 2)], [Some (VAtom 7)])] {| d_queue := []; d_max := 1; d_override := false |} =
  Ok ([[[(VAtom 1, true)]; [(VAtom 1, false)]]; [[(VAtom 2, true)]; [(VAtom 2, false)]]], d').
Proof. eexists. reflexivity. Qed.
Example C190_self_example : run_steps {| c_algo := Self; c_teacher_trainable := false; c_student_trainable := true; c_calculate := true |} [([], []); ([], [Some (VAtom 7)])]
  {| d_queue := []; d_max := 1; d_override := false |} = Raise AssertionError.
Proof. reflexivity. Qed.

(** ** C191 *)
(** A student recorder and a teacher recorder of the same thing both hold what it returned during the pass, in order, and every attribute is restored. *)
Definition fits_world (w : world) (r : recorder) : Prop := match r_kind r with RMeth o => o = w_env w (r_target r) | _ => True end.
Definition same_kind (a b : rkind) : Prop := match a, b with RFunc, RFunc | RModule, RModule | RMeth _, RMeth _ => True | _, _ => False end.
Definition returned (k : rkind) (target : string) (evs : list event) : list val :=
  flat_map (fun e => match e, k with
                     | EForward n (Some v), RModule => if String.eqb target n then [v] else []
                     | ECall n (Some v), RFunc => if String.eqb target n then [v] else []
                     | ECall n (Some v), RMeth _ => if String.eqb target n then [v] else []
                     | _, _ => [] end) evs.
Definition both_hold (s t : recorder) (evs : list event) (w : world) : Prop :=
  let w' := self_block [s] [t] evs w in
  data_of w' s = returned (r_kind s) (r_target s) evs /\ data_of w' t = returned (r_kind s) (r_target s) evs /\ (forall x, w_env w' x = w_env w x).
Definition C191_claim : Prop := forall s t evs w, r_id s <> r_id t -> r_target s = r_target t -> same_kind (r_kind s) (r_kind t) ->
  fits_world w s -> fits_world w t -> (forall x, exists n, w_env w x = FOrig n) -> both_hold s t evs w.
Definition start : world := {| w_env := fun _ => FOrig 0; w_ep := fun _ => O; w_saved := fun _ => FOrig 0; w_on := fun _ => false; w_buf := fun _ _ => [] |}.
(** Method recorders wrap the method they found at construction, so the teacher's replaces the student's. *)
Theorem C191_method_refuted : ~ C191_claim.
Proof.
  intros H. destruct (H {| r_id := 0; r_kind := RMeth (FOrig 0); r_target := "f" |} {| r_id := 1; r_kind := RMeth (FOrig 0); r_target := "f" |} [ECall "f" (Some (VAtom 5))] start) as (A & _).
  - cbn; lia. - reflexivity. - exact I. - reflexivity. - reflexivity. - intros x. exists O. reflexivity. - vm_compute in A. discriminate A.
Qed.
Lemma upd_same {A} (f : nat -> A) i x : upd f i x i = x.
Proof. unfold upd. rewrite Nat.eqb_refl. reflexivity. Qed.
Lemma upd_other {A} (f : nat -> A) i j x : i <> j -> upd f i x j = f j.
Proof. unfold upd. intros H. destruct (Nat.eqb_spec i j); [contradiction|reflexivity]. Qed.
Lemma push_same b i ep v : push b i ep v i ep = b i ep ++ [v].
Proof. unfold push. rewrite !upd_same. reflexivity. Qed.
Lemma push_other b i ep v j e : i <> j -> push b i ep v j e = b j e.
Proof. unfold push. intros H. rewrite upd_other by exact H. reflexivity. Qed.
(** Steps inside the block keep everything but the buffers. *)
Lemma steps_keep rs evs : forall w, let w' := fold_left (step rs) evs w in w_env w' = w_env w /\ w_ep w' = w_ep w /\ w_saved w' = w_saved w /\ w_on w' = w_on w.
Proof.
  induction evs as [|e evs IH]; intros w; cbn [fold_left]; [auto|]. destruct (IH (step rs w e)) as (A & B & C & D). cbn zeta.
  rewrite A, B, C, D. destruct e as [x [v|]|x [v|]]; cbn; auto.
Qed.
Theorem C191_records_partial : forall s t evs w, r_id s <> r_id t -> r_target s = r_target t ->
  (r_kind s = RFunc /\ r_kind t = RFunc \/ r_kind s = RModule /\ r_kind t = RModule) -> (forall x, exists n, w_env w x = FOrig n) -> both_hold s t evs w.
Proof.
  intros s t evs w N T K O. unfold both_hold, self_block, data_of. cbn [enter_all exit_all fold_left app].
  set (w0 := enter t (enter s w)). pose proof (steps_keep [s; t] evs w0) as (E1 & E2 & E3 & E4). cbn zeta in E1, E2, E3, E4.
  assert (BUF : forall r, r = s \/ r = t -> w_buf (fold_left (step [s; t]) evs w0) (r_id r) (w_ep w0 (r_id r)) = returned (r_kind s) (r_target s) evs).
  { intros r Hr. assert (START : w_buf w0 (r_id r) (w_ep w0 (r_id r)) = []).
    { unfold w0, enter. destruct K as [[-> ->]|[-> ->]]; cbn [w_buf w_ep]; destruct Hr as [->| ->].
      - rewrite !(upd_other _ (r_id t) (r_id s)) by congruence. rewrite !upd_same. reflexivity.
      - rewrite !upd_same. reflexivity.
      - rewrite !(upd_other _ (r_id t) (r_id s)) by congruence. rewrite !upd_same. reflexivity.
      - rewrite !upd_same. reflexivity. }
    enough (G : forall evs w1, w_env w1 = w_env w0 -> w_ep w1 = w_ep w0 -> w_on w1 = w_on w0 ->
              w_buf (fold_left (step [s; t]) evs w1) (r_id r) (w_ep w0 (r_id r)) = w_buf w1 (r_id r) (w_ep w0 (r_id r)) ++ returned (r_kind s) (r_target s) evs).
    { rewrite G by reflexivity. rewrite START. reflexivity. }
    clear START. intros evs0. induction evs0 as [|e es IH]; intros w1 W1 W2 W3; cbn [fold_left]; [cbn; rewrite app_nil_r; reflexivity|].
    rewrite IH; [|destruct e as [x [v|]|x [v|]]; cbn; assumption ..]. cbn [returned flat_map]. rewrite app_assoc. f_equal.
    destruct e as [x [v|]|x [v|]]; cbn [step set_buf w_buf]; try (destruct (r_kind s); rewrite app_nil_r; reflexivity).
    - rewrite W1. unfold w0, enter. destruct K as [[Ks Kt]|[Ks Kt]]; rewrite Ks, Kt; cbn [w_env].
      + unfold upds at 1. rewrite <- T. destruct (String.eqb (r_target s) x) eqn:Q.
        * apply String.eqb_eq in Q. subst x. unfold upds. rewrite String.eqb_refl. destruct (O (r_target s)) as [n On]. rewrite On. cbn [invoke w_ep].
          destruct Hr as [->| ->].
          -- rewrite push_other by congruence. rewrite (upd_other _ (r_id t) (r_id s)) by congruence. rewrite !upd_same, push_same. reflexivity.
          -- rewrite !upd_same. rewrite push_same. rewrite push_other by congruence. reflexivity.
        * unfold upds. rewrite Q. destruct (O x) as [n On]. rewrite On. cbn [invoke]. rewrite app_nil_r. reflexivity.
      + destruct (O x) as [n On]. rewrite On. cbn [invoke]. rewrite app_nil_r. reflexivity.
    - destruct K as [[Ks Kt]|[Ks Kt]]; cbn [fold_left]; rewrite Ks, Kt; [rewrite app_nil_r; reflexivity|]. rewrite W2, W3, <- T.
      assert (ON : w_on w0 (r_id s) = true /\ w_on w0 (r_id t) = true).
      { unfold w0, enter. rewrite Ks, Kt. cbn [w_on]. rewrite upd_same. rewrite upd_other by congruence. rewrite upd_same. auto. }
      destruct ON as [-> ->]. destruct (String.eqb (r_target s) x); cbn [andb]; [|rewrite app_nil_r; reflexivity].
      destruct Hr as [->| ->].
      + rewrite push_other by congruence. rewrite push_same. reflexivity.
      + rewrite push_same, push_other by congruence. reflexivity. }
  assert (EX : forall r w1, w_buf (exit_ r w1) = w_buf w1 /\ w_ep (exit_ r w1) = w_ep w1).
  { intros r w1. unfold exit_. destruct (r_kind r); auto. }
  rewrite !(proj1 (EX _ _)), !(proj2 (EX _ _)), E2. split; [apply BUF; left; reflexivity|]. split; [apply BUF; right; reflexivity|].
  intros x. unfold exit_. destruct K as [[Ks Kt]|[Ks Kt]]; rewrite Ks, Kt; cbn [w_env w_saved].
  - unfold upds at 1. rewrite E3. destruct (String.eqb (r_target s) x) eqn:Q.
    + unfold w0, enter. rewrite Ks, Kt. cbn [w_saved w_env]. rewrite upd_other by congruence. rewrite upd_same. apply String.eqb_eq in Q. subst x. reflexivity.
    + unfold upds at 1. rewrite <- T, Q. rewrite E1. unfold w0, enter. rewrite Ks, Kt. cbn [w_env]. unfold upds. rewrite <- T, Q. reflexivity.
  - rewrite E1. unfold w0, enter. rewrite Ks, Kt. reflexivity.
Qed.
Example C191_example : both_hold {| r_id := 0; r_kind := RFunc; r_target := "f" |} {| r_id := 1; r_kind := RFunc; r_target := "f" |}
  [ECall "f" (Some (VAtom 5)); ECall "g" (Some (VAtom 6)); ECall "f" None; ECall "f" (Some (VAtom 7))] start.
Proof. repeat split. intros x. cbn. unfold upds. destruct x; cbn; try reflexivity. repeat match goal with |- context [match ?e with _ => _ end] => destruct e; cbn; try reflexivity end. Qed.


Print Assumptions C186_exact.
Print Assumptions C186_nested_refuted.
Print Assumptions C186_inplace_partial.
Print Assumptions C187_frozen.
Print Assumptions C187_mode.
Print Assumptions C188_fpn_refuted.
Print Assumptions C188_reports_partial.
Print Assumptions C188_fpn.
Print Assumptions C189_student_refuted.
Print Assumptions C189_gradients_partial.
Print Assumptions C189_passes.
Print Assumptions C190_self_refuted.
Print Assumptions C190_self.
Print Assumptions C190_teacher_partial.
Print Assumptions C191_method_refuted.
Print Assumptions C191_records_partial.
