(** C17 (children of an epoch) and C20 (their parents and probabilities). *)
From Verif Require Import Prelude Candidates_Model Candidates_Props Evolution_Model Evolution_Props.

(** A mutant takes each choice from the drawn subnet with the mutation probability and
    otherwise from the drawn top candidate; a crossing mixes two top candidates likewise. *)
Theorem C20_mutation :
  forall cfg top i s2 coin child, NoDup (map fst s2) ->
    mutation cfg top (i, s2, coin) = Fin child ->
    exists p, nth_error top i = Some p /\
      forall k, dget child k =
        if negb (Qle_bool (mutate_prob cfg) (coin k))
        then match dget s2 k with Some v => Some v | None => dget (c_net p) k end
        else dget (c_net p) k.
Proof.
  intros cfg top i s2 coin child ND H. unfold mutation, pick in H. destruct top as [|t ts]; [discriminate|].
  destruct (nth_error (t :: ts) i) as [p|] eqn:E; cbn [rbind] in H; [|discriminate].
  destruct (crossover (c_net p) s2 coin (mutate_prob cfg)) as [c|] eqn:X; cbn in H; inversion H; subst.
  exists p. split; [reflexivity|]. apply C20_crossover in X; [|exact ND]. apply X.
Qed.
Theorem C20_crossing :
  forall cfg top i j coin child,
    (forall p, In p top -> NoDup (map fst (c_net p))) ->
    crossing cfg top (i, j, coin) = Fin child ->
    exists p q, nth_error top i = Some p /\ nth_error top j = Some q /\
      forall k, dget child k =
        if negb (Qle_bool (crossover_prob cfg) (coin k))
        then match dget (c_net q) k with Some v => Some v | None => dget (c_net p) k end
        else dget (c_net p) k.
Proof.
  intros cfg top i j coin child ND H. unfold crossing, pick in H. destruct top as [|t ts]; [discriminate|].
  destruct (nth_error (t :: ts) i) as [p|] eqn:E; cbn [rbind] in H; [|discriminate].
  destruct (nth_error (t :: ts) j) as [q|] eqn:E'; cbn [rbind] in H; [|discriminate].
  destruct (crossover (c_net p) (c_net q) coin (crossover_prob cfg)) as [c|] eqn:X; cbn in H; inversion H; subst.
  exists p, q. split; [reflexivity|]. split; [reflexivity|]. apply C20_crossover in X; [apply X|].
  apply ND. eapply nth_error_In. exact E'.
Qed.
Print Assumptions C20_mutation.
Print Assumptions C20_crossing.
Definition two : list cand :=
  [{| c_net := [("g", "1"); ("h", "1")]%string; c_score := 2; c_res := [] |};
   {| c_net := [("g", "2"); ("h", "2")]%string; c_score := 1; c_res := [] |}].
Example C20_mutation_case :
  mutation (ex_cfg) two (1%nat, [("g", "9"); ("h", "9")]%string, fun k => if String.eqb k "g" then 0%Q else 1%Q)
  = Fin [("g", "9"); ("h", "2")]%string.
Proof. reflexivity. Qed.
Example C20_crossing_case :
  crossing (ex_cfg) two (0, 1, fun k => if String.eqb k "g" then 0%Q else 1%Q)%nat = Fin [("g", "2"); ("h", "1")]%string.
Proof. reflexivity. Qed.

(** * The children of an epoch.
    [made make draws n ss] - the first [n] draws produce the subnets [ss]. *)
Definition made {D} (make : D -> res subnet) (draws : list D) (n : nat) (ss : list subnet) : Prop :=
  (n <= length draws)%nat /\ Forall2 (fun d s => make d = Fin s) (firstn n draws) ss.
(** The pool made with at most ten attempts per wanted child: the subnets of the first
    attempts that pass the check, up to the wanted number. *)
Definition bred (cfg : config) (est : subnet -> list (string * Q)) {D} (make : D -> res subnet)
    (want : nat) (draws : list D) (cs : list cand) : Prop :=
  exists n ss, made make draws n ss /\ (n <= 10 * want)%nat /\
    map c_net cs = filter (fun s => match check_resources (est s) (constraints cfg) with Ok true => true | _ => false end) ss /\
    (length cs <= want)%nat /\ (length cs = want \/ n = 10 * want)%nat.

Lemma gen_bred cfg est {D} (make : D -> res subnet) want : forall tries acc draws cs,
  gen_loop cfg est make want tries acc draws = Fin cs ->
  exists n ss, made make draws n ss /\ (n <= tries)%nat /\
    map c_net cs = map c_net acc ++
      filter (fun s => match check_resources (est s) (constraints cfg) with Ok true => true | _ => false end) ss /\
    (length acc <= want -> length cs <= want)%nat /\ (want <= length cs \/ n = tries)%nat.
Proof.
  induction tries as [|tries IH]; intros acc draws cs H; cbn [gen_loop] in H.
  - assert (E : acc = cs) by (destruct (want <=? length acc)%nat; inversion H; reflexivity). subst cs.
    exists 0%nat, []. split; [split; [lia|constructor]|]. split; [lia|]. rewrite app_nil_r. auto.
  - destruct (Nat.leb_spec want (length acc)) as [L|L].
    + inversion H; subst. exists 0%nat, []. split; [split; [lia|constructor]|]. split; [lia|]. rewrite app_nil_r. auto.
    + destruct draws as [|d r]; [discriminate|]. destruct (make d) as [s| |] eqn:M; cbn [rbind] in H; try discriminate.
      unfold check in H. destruct (check_resources (est s) (constraints cfg)) as [ok|] eqn:C; cbn [rbind lift] in H; [|discriminate].
      apply IH in H as (n & ss & (Hn & F) & T & E & U & V). exists (S n), (s :: ss).
      split; [split; [cbn; lia|constructor; auto]|]. split; [lia|]. cbn [filter]. rewrite C.
      destruct ok; cbn [negb].
      * rewrite E, map_app. cbn. rewrite <- app_assoc. split; [reflexivity|]. rewrite app_length in U. cbn in U.
        split; [intros; apply U; lia|]. destruct V; [left; auto|right; lia].
      * rewrite E. split; [reflexivity|]. split; [auto|]. destruct V; [left; auto|right; lia].
Qed.

(** After an epoch the pool consists of mutants followed by crossings of the new top
    candidates, each bred with at most ten attempts per wanted child. *)
Theorem C17_children :
  forall cfg est round2 s i s',
    run_epoch cfg est round2 s i = Fin s' ->
    exists muts crosses, s_cands s' = muts ++ crosses /\
      bred cfg est (mutation cfg (s_top s')) (num_mutation cfg) (i_mut i) muts /\
      bred cfg est (crossing cfg (s_top s')) (num_crossover cfg) (i_cross i) crosses /\
      (length (s_cands s') <= num_candidates cfg)%nat.
Proof.
  intros cfg est round2 s i s' H. unfold run_epoch in H.
  destruct (sample_loop cfg est (s_cands s) (i_sample i)) as [pool| |]; cbn [rbind] in H; try discriminate.
  destruct (update_scores round2 (i_metric i) pool) as [scored|]; cbn [rbind lift] in H; try discriminate.
  set (top := firstn (top_k cfg) (by_score (scored ++ s_top s))) in *.
  destruct (gen_loop cfg est (mutation cfg top) _ _ [] (i_mut i)) as [muts| |] eqn:M; cbn [rbind] in H; try discriminate.
  destruct (gen_loop cfg est (crossing cfg top) _ _ [] (i_cross i)) as [cr| |] eqn:C; cbn [rbind] in H; try discriminate.
  destruct (length (muts ++ cr) <=? num_candidates cfg)%nat eqn:L; cbn in H; [|discriminate].
  inversion H; subst. cbn [s_cands s_top]. exists muts, cr. split; [reflexivity|].
  apply gen_bred in M as (n & ss & MM & T & E & U & V). apply gen_bred in C as (n' & ss' & MM' & T' & E' & U' & V').
  cbn [length] in *.
  split; [|split].
  - exists n, ss. split; [exact MM|]. split; [lia|]. split; [exact E|]. specialize (U ltac:(lia)). split; [exact U|]. lia.
  - exists n', ss'. split; [exact MM'|]. split; [lia|]. split; [exact E'|]. specialize (U' ltac:(lia)). split; [exact U'|]. lia.
  - apply Nat.leb_le. exact L.
Qed.
Print Assumptions C17_children.
(** One wanted mutant: the first attempt fails the check, the second passes. *)
Example C17_children_case :
  let i := {| i_sample := [[("g", "a")]; [("g", "b")]]%string; i_metric := fun j => Some (inject_Z (Z.of_nat j));
              i_mut := [(0, [("g", "big")]%string, fun _ => 0%Q); (0, [("g", "s3")]%string, fun _ => 0%Q)]%nat;
              i_cross := [(0, 0, fun _ => 1%Q)]%nat |} in
  exists s', run_epoch ex_cfg ex_est (fun x => x) {| s_cands := []; s_top := []; s_epoch := 0 |} i = Fin s' /\
    map c_net (s_cands s') = [[("g", "s3")]; [("g", "b")]]%string.
Proof. eexists. split; [vm_compute; reflexivity|]. reflexivity. Qed.
