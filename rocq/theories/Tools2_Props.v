(** Setting up (C209), optimizers of submodules (C210) and gathered tensors (C211). *)
From Coq Require Import String QArith Lqa.
From Verif Require Import Prelude Onnx_Model Onnx_Lemmas Tools_Model.
Local Open Scope string_scope.
Local Open Scope list_scope.
Local Open Scope Z_scope.

(** ** C209 *)
(** After register_all_modules the current scope is mmrazor and every scope that existed still does; without init_default_scope nothing changes. *)
Lemma current_last s n c : current (s ++ [(n, c)]) = Some c.
Proof. unfold current. rewrite rev_app_distr. reflexivity. Qed.
Theorem C209_scope : forall now s, ~ In ("mmrazor-" ++ now)%string (map fst s) ->
  current (register_all true now s) = Some "mmrazor" /\ (forall n c, get s n = Some c -> get (register_all true now s) n = Some c) /\ register_all false now s = s /\
  (current s = Some "mmrazor" -> In "mmrazor" (map fst s) -> register_all true now s = s).
Proof.
  intros now s N. assert (A : forall n k c, ~ In k (map fst s) -> get s n = Some c -> get (s ++ [(k, "mmrazor")]) n = Some c).
  { intros n k c _. induction s as [|[a b] s IH]; cbn [app get]; [discriminate|]. destruct (String.eqb a n); [auto|]. apply IH. intros X. apply N. right. exact X. }
  unfold register_all, get_instance. destruct (current s) as [c|] eqn:C; destruct (has s "mmrazor") eqn:H.
  - destruct (String.eqb_spec c "mmrazor") as [->|NC].
    + repeat split; auto.
    + apply has_not in N. rewrite N. apply has_not in N. repeat split; [apply current_last|intros; apply A; assumption|]. intros E. congruence.
  - pose proof (proj1 (has_not _ _) H) as NH. repeat split; [apply current_last|intros; apply A; assumption|]. intros _ X. contradiction.
  - apply has_in in H. destruct s as [|x s] using rev_ind; [destruct H|]. destruct x. rewrite current_last in C. discriminate C.
  - pose proof (proj1 (has_not _ _) H) as NH. repeat split; [apply current_last|intros; apply A; assumption|]. discriminate.
Qed.
(** Environment variables that are set are left alone; the others are set to 1 when there is more than one worker. *)
Theorem C209_threads : forall workers env env', setup_threads workers env = Ok env' -> forall k,
  get env' k = match get env k with
               | Some v => Some v
               | None => match workers with Some w => if (existsb (String.eqb k) ["OMP_NUM_THREADS"; "MKL_NUM_THREADS"] && (1 <? w))%bool then Some "1" else None | None => None end
               end.
Proof.
  intros workers env env' H k. unfold setup_threads, setup_var in H. destruct (has env "OMP_NUM_THREADS") eqn:O.
  - cbn [bind] in H. destruct (has env "MKL_NUM_THREADS") eqn:M.
    + apply Ok_inj in H. subst env'. destruct (get env k) eqn:G; [reflexivity|]. destruct workers as [w|]; [|reflexivity]. cbn [existsb]. unfold has in O, M. destruct (String.eqb_spec k "OMP_NUM_THREADS") as [->|]; [rewrite G in O; discriminate O|]. destruct (String.eqb_spec k "MKL_NUM_THREADS") as [->|]; [rewrite G in M; discriminate M|]. reflexivity.
    + destruct workers as [w|]; [|discriminate H]. apply Ok_inj in H. subst env'. unfold has in O, M. destruct (1 <? w).
      * rewrite get_put. cbn [existsb]. destruct (String.eqb_spec "MKL_NUM_THREADS" k) as [<-|N]; [destruct (get env "MKL_NUM_THREADS"); [discriminate M|reflexivity]|]. destruct (get env k) eqn:G; [reflexivity|]. destruct (String.eqb_spec k "OMP_NUM_THREADS") as [->|]; [rewrite G in O; discriminate O|]. destruct (String.eqb_spec k "MKL_NUM_THREADS"); [congruence|]. reflexivity.
      * destruct (get env k); [reflexivity|]. rewrite Bool.andb_false_r. reflexivity.
  - destruct workers as [w|]; [|discriminate H]. cbn [bind] in H. unfold has in O. destruct (1 <? w) eqn:W.
    + destruct (has (put env "OMP_NUM_THREADS" "1") "MKL_NUM_THREADS") eqn:M; apply Ok_inj in H; subst env'; unfold has in M; rewrite get_put in M; cbn [String.eqb Ascii.eqb Bool.eqb] in M; rewrite ?get_put; cbn [existsb].
      * destruct (String.eqb_spec "OMP_NUM_THREADS" k) as [<-|N]; [destruct (get env "OMP_NUM_THREADS"); [discriminate O|reflexivity]|]. destruct (get env k) eqn:G; [reflexivity|]. destruct (String.eqb_spec k "OMP_NUM_THREADS"); [congruence|]. destruct (String.eqb_spec k "MKL_NUM_THREADS") as [->|]; [rewrite G in M; discriminate M|]. reflexivity.
      * destruct (String.eqb_spec "MKL_NUM_THREADS" k) as [<-|N2]; [destruct (get env "MKL_NUM_THREADS"); [discriminate M|reflexivity]|]. destruct (String.eqb_spec "OMP_NUM_THREADS" k) as [<-|N]; [destruct (get env "OMP_NUM_THREADS"); [discriminate O|reflexivity]|]. destruct (get env k) eqn:G; [reflexivity|].
        destruct (String.eqb_spec k "OMP_NUM_THREADS"); [congruence|]. destruct (String.eqb_spec k "MKL_NUM_THREADS"); [congruence|]. reflexivity.
    + assert (E : env' = env) by (destruct (has env "MKL_NUM_THREADS"); apply Ok_inj in H; congruence). subst env'. destruct (get env k); [reflexivity|]. rewrite Bool.andb_false_r. reflexivity.
Qed.
Example C209_example : register_all true "now" [("mmrazor", "mmrazor"); ("mmcls", "mmcls")] = [("mmrazor", "mmrazor"); ("mmcls", "mmcls"); ("mmrazor-now", "mmrazor")] /\
  setup_threads (Some 4) [("OMP_NUM_THREADS", "8")] = Ok [("OMP_NUM_THREADS", "8"); ("MKL_NUM_THREADS", "1")].
Proof. split; reflexivity. Qed.

(** ** C210 *)
(** Each configured submodule of the model gets an optimizer built from its own configuration. *)
Definition each {Cfg P O} (construct : Cfg -> option P -> mod_ -> outcome O) (cfg : list (string * (Cfg * option P))) (m : mod_) (os : list (string * O)) : Prop :=
  Forall2 (fun kc ko => fst ko = fst kc /\ exists c, get (kids m) (fst kc) = Some c /\ construct (fst (snd kc)) (snd (snd kc)) c = Ok (snd ko)) cfg os.
Definition C210_claim : Prop := forall (Cfg P O : Type) (construct : Cfg -> option P -> mod_ -> outcome O) cfg m os, optimizers construct cfg m = Ok os -> each construct cfg m os.
(** A model with a child called module is taken for a wrapper. *)
Theorem C210_module_refuted : ~ C210_claim.
Proof.
  intros H. specialize (H nat nat nat (fun _ _ m => match m with Mod l _ => Ok l end) [("net", (0%nat, None))] (Mod 0 [("module", Mod 1 [("net", Mod 2 [])]); ("net", Mod 3 [])]) _ eq_refl).
  inversion H as [|a b l l' [_ (c & G & E)] _]; subst. cbn in G. injection G as <-. discriminate E.
Qed.
Lemma mapM_each {Cfg P O} (construct : Cfg -> option P -> mod_ -> outcome O) m : forall cfg os,
  mapM (fun kc => match get (kids m) (fst kc) with Some c => do o <- construct (fst (snd kc)) (snd (snd kc)) c; Ok (fst kc, o) | None => Raise KeyError end) cfg = Ok os <-> each construct cfg m os.
Proof.
  induction cfg as [|[k [c p]] cfg IH]; intros os; cbn [mapM fst snd].
  - split; [intros H; apply Ok_inj in H; subst; constructor|intros H; inversion H; reflexivity].
  - split.
    + intros H. destruct (get (kids m) k) as [x|] eqn:G; [|discriminate H]. destruct (construct c p x) as [o|] eqn:C; [|discriminate H]. cbn [bind] in H. destruct (mapM _ cfg) as [r|] eqn:R; [|discriminate H]. cbn [bind] in H. apply Ok_inj in H. subst os. constructor; [split; [reflexivity|]; exists x; auto|]. apply IH. reflexivity.
    + intros H. inversion H as [|a [k' o] l l' [E (x & G & C)] F]; subst. cbn [fst snd] in *. subst k'. rewrite G, C. cbn [bind]. rewrite (proj2 (IH l') F). reflexivity.
Qed.
(** For a model without such a child, and for the model in a wrapper; it succeeds exactly when every submodule exists and every construction succeeds. *)
Theorem C210_each_partial : forall (Cfg P O : Type) (construct : Cfg -> option P -> mod_ -> outcome O) cfg m os,
  (get (kids m) "module" = None -> (optimizers construct cfg m = Ok os <-> each construct cfg m os)) /\
  (forall l, optimizers construct cfg (Mod l [("module", m)]) = Ok os <-> each construct cfg m os).
Proof. intros Cfg P O construct cfg m os. unfold optimizers. split; [intros ->; apply mapM_each|]. intros l. apply mapM_each. Qed.
Example C210_example : optimizers (fun (lr : nat) (_ : option nat) m => match m with Mod l _ => Ok (lr, l) end) [("mutator", (1%nat, None)); ("architecture", (2%nat, Some 5%nat))]
  (Mod 0 [("module", Mod 1 [("architecture", Mod 2 []); ("mutator", Mod 3 [])])]) = Ok [("mutator", (1%nat, 3%nat)); ("architecture", (2%nat, 2%nat))].
Proof. reflexivity. Qed.

(** ** C211 *)
Definition dot (a b : list Q) : Q := fold_right Qplus 0%Q (map (fun p => (fst p * snd p)%Q) (combine a b)).
Definition dots (a b : list (list Q)) : Q := fold_right Qplus 0%Q (map (fun p => dot (fst p) (snd p)) (combine a b)).
Definition dotss (a b : list (list (list Q))) : Q := fold_right Qplus 0%Q (map (fun p => dots (fst p) (snd p)) (combine a b)).
(** The gradients have the shapes of the tensors. *)
Definition shaped (g xs : list (list Q)) : Prop := Forall2 (fun a x => length a = length x) g xs.
Lemma dot_cons a u x v : (dot (a :: u) (x :: v) == a * x + dot u v)%Q.
Proof. reflexivity. Qed.
Lemma dots_cons a u x v : (dots (a :: u) (x :: v) == dot a x + dots u v)%Q.
Proof. reflexivity. Qed.
Lemma addv_cons a u b v : addv (a :: u) (b :: v) = (a + b)%Q :: addv u v.
Proof. reflexivity. Qed.
Lemma dot_add : forall x a b, length a = length x -> length b = length x -> (dot (addv a b) x == dot a x + dot b x)%Q /\ length (addv a b) = length x.
Proof.
  induction x as [|q x IH]; intros [|a u] [|b v] A B; try discriminate A; try discriminate B; [split; reflexivity|]. rewrite addv_cons, !dot_cons. destruct (IH u v ltac:(cbn in A; lia) ltac:(cbn in B; lia)) as [E L]. split; [rewrite E; ring|cbn; lia].
Qed.
Lemma dots_add : forall xs g h, shaped g xs -> shaped h xs -> (dots (map (fun p => addv (fst p) (snd p)) (combine g h)) xs == dots g xs + dots h xs)%Q /\ shaped (map (fun p => addv (fst p) (snd p)) (combine g h)) xs.
Proof.
  induction xs as [|x xs IH]; intros g h G H; inversion G as [|a x1 g' xs1 A G']; subst; inversion H as [|b x2 h' xs2 B H']; subst; [split; [reflexivity|constructor]|]. cbn [combine map fst snd]. rewrite !dots_cons. destruct (IH g' h' G' H') as [E S]. destruct (dot_add x a b A B) as [E2 L]. split; [rewrite E, E2; ring|constructor; assumption].
Qed.
(** Gathering gives every rank the tensors of all ranks in order, and propagating back is its adjoint: the gradients that come out are those of the sum of the losses of
    all ranks. *)
Theorem C211_forward : forall xs r i, (r < length xs)%nat -> option_map (fun l => nth_error l i) (nth_error (gather_forward xs) r) = Some (nth_error xs i).
Proof. intros xs r i H. unfold gather_forward. rewrite nth_error_map. destruct (nth_error xs r) eqn:E; [reflexivity|]. apply nth_error_None in E. lia. Qed.
Theorem C211_adjoint : forall xs grads, xs <> [] -> length grads = length xs -> Forall (fun g => shaped g xs) grads ->
  (dotss grads (gather_forward xs) == dots (gather_backward grads) xs)%Q /\ shaped (gather_backward grads) xs.
Proof.
  intros xs grads NE LG S0. destruct grads as [|g gs]; [destruct xs; [congruence|discriminate LG]|]. inversion S0 as [|a b G GS]; subst.
  assert (R : forall gs acc, Forall (fun g => shaped g xs) gs -> shaped acc xs -> let r := fold_left (fun acc g => map (fun p => addv (fst p) (snd p)) (combine acc g)) gs acc in
    (dots r xs == dots acc xs + fold_right Qplus 0 (map (fun g => dots g xs) gs))%Q /\ shaped r xs).
  { clear. induction gs as [|h gs IH]; intros acc F A; cbv zeta; cbn [fold_left map fold_right]; [split; [ring|exact A]|]. inversion F as [|x y H F']; subst. destruct (dots_add xs acc h A H) as [E S]. destruct (IH _ F' S) as [E2 S2]. split; [rewrite E2, E; ring|exact S2]. }
  destruct (R gs g GS G) as [E S]. cbv zeta in E, S.
  assert (B : gather_backward (g :: gs) = reduce (g :: gs)).
  { unfold gather_backward. cbn [reduce]. set (r := fold_left _ gs g) in *. assert (L : length (g :: gs) = length r). { rewrite LG. clear - S. unfold shaped in S. induction S; cbn; congruence. } rewrite L. clear. induction r as [|x r IH]; [reflexivity|]. cbn [length seq map nth]. f_equal. rewrite <- seq_shift, map_map. exact IH. }
  rewrite B. cbn [reduce]. split; [|exact S]. rewrite E. unfold dotss, gather_forward.
  assert (C : forall l (ys : list (list Q)), length l = length ys -> (fold_right Qplus 0 (map (fun p => dots (fst p) (snd p)) (combine l (map (fun _ => xs) ys))) == fold_right Qplus 0 (map (fun g => dots g xs) l))%Q).
  { clear. induction l as [|h l IH]; intros [|y ys] L; try discriminate L; [reflexivity|]. cbn [map combine fold_right fst snd]. rewrite IH by (cbn in L; lia). reflexivity. }
  rewrite (C _ xs LG). cbn [map fold_right]. reflexivity.
Qed.
(** Two ranks; the second gradient of the first rank reaches the second rank. *)
Example C211_example : gather_forward [[1; 2]; [3; 4]]%Q = [[[1; 2]; [3; 4]]; [[1; 2]; [3; 4]]]%Q /\
  map (map Qred) (gather_backward [[[1; 0]; [0; 5]]; [[2; 2]; [7; 1]]]%Q) = [[3; 2]; [7; 6]]%Q.
Proof. split; reflexivity. Qed.

Print Assumptions C209_scope.
Print Assumptions C209_threads.
Print Assumptions C210_module_refuted.
Print Assumptions C210_each_partial.
Print Assumptions C211_forward.
Print Assumptions C211_adjoint.

(** An instance that has the name already is not made again: the scope in use stays. *)
Theorem C209_again : forall now s c, current s = Some c -> In "mmrazor" (map fst s) -> In ("mmrazor-" ++ now)%string (map fst s) -> register_all true now s = s.
Proof.
  intros now s c C A B. assert (G : forall k, In k (map fst s) -> has s k = true).
  { clear. intros k H. unfold has. induction s as [| [x v] s IH]; [destruct H |]. cbn in *. destruct (String.eqb x k) eqn:E; auto. destruct H as [-> | H]; [now rewrite String.eqb_refl in E | auto]. }
  unfold register_all. rewrite C, (G _ A). destruct (String.eqb c "mmrazor"); auto. unfold get_instance. now rewrite (G _ B).
Qed.
Example C209_again_example : register_all true "t" [("mmrazor", "mmrazor"); ("mmrazor-t", "mmrazor"); ("mmcls", "mmcls")] = [("mmrazor", "mmrazor"); ("mmrazor-t", "mmrazor"); ("mmcls", "mmcls")].
Proof. reflexivity. Qed.
Print Assumptions C209_again.
