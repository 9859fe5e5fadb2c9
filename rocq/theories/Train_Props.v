(** C116 - a training step that trains several subnets. *)
From Coq Require Import String Ascii.
From Verif Require Import Prelude Evolution_Model Evolution_Props Recorder_Model Distill_Props Engine_Model Engine_Props Train_Model.
Local Open Scope string_scope.
Local Open Scope list_scope.
Local Open Scope Z_scope.

(** ** Specification *)
Section Spec.
Variables P G C R : Type.
Variable sgd : P -> list (Q * G) -> P.
Variable hard : P -> C -> subnet.
Variable record : P -> C -> R.
Variable soft : R -> R -> subnet.
Variable grad : P -> C -> subnet -> G.
Local Notation tstate := (tstate P G).
Local Notation train_step := (train_step P G C R sgd hard record soft grad).
Local Notation slimmable_step := (slimmable_step P G C sgd hard grad).
Local Notation train_run := (train_run P G C R sgd hard record soft grad).

(** Between two iterations: nothing is accumulated, and the counters (once set) stand at iteration
    [iter] of [max_iters] with [k] subnets each. *)
Definition between (k iter max_iters : nat) (s : tstate) : Prop :=
  t_pend _ _ s = [] /\ w_acc (t_wrap _ _ s) = Z.of_nat k /\
  (t_ready _ _ s = true ->
     w_inner (t_wrap _ _ s) = Z.of_nat (iter * k) /\ w_max (t_wrap _ _ s) = Z.of_nat (max_iters * k) /\ w_rem (t_wrap _ _ s) = 0).
(** The losses of a subnet when all is evaluated with the parameters [p]: the largest one has its
    own losses, the others are distilled from it ([both]: and have their own). *)
Definition losses_at (both : bool) (p : P) (mx : C) (tagged : bool * C) : subnet :=
  let '(largest, c) := tagged in
  if largest then hard p c
  else dupdate (if both then hard p c else []) (soft (record p mx) (record p c)).
Definition trained (mx mn : C) (sample : nat -> C) (n : nat) : list (bool * C) :=
  (true, mx) :: (false, mn) :: map (fun i => (false, sample (2 + i)%nat)) (seq 0 n).
(** One optimizer step with the average of the gradients of all subnets. *)
Definition averaged (both : bool) (p : P) (mx : C) (l : list (bool * C)) : P :=
  sgd p (map (fun c => ((1 / inject_Z (Z.of_nat (length l)))%Q, grad p (snd c) (parsed (losses_at both p mx c)))) l).
Definition averaged_slim (p : P) (l : list C) : P :=
  sgd p (map (fun c => ((1 / inject_Z (Z.of_nat (length l)))%Q, grad p c (parsed (hard p c)))) l).

(** ** Proof *)
Local Notation update_params := (update_params P G C sgd grad).
Definition adv (w : wrapper) : wrapper := {| w_acc := w_acc w; w_inner := w_inner w + 1; w_max := w_max w; w_rem := w_rem w |}.
Lemma update_at k it mi j (s : tstate) c l :
  (j < k)%nat -> (it < mi)%nat -> w_acc (t_wrap _ _ s) = Z.of_nat k -> w_inner (t_wrap _ _ s) = Z.of_nat (it * k + j) ->
  w_max (t_wrap _ _ s) = Z.of_nat (mi * k) -> w_rem (t_wrap _ _ s) = 0 ->
  update_params s c l =
    let pend := t_pend _ _ s ++ [((1 / inject_Z (Z.of_nat k))%Q, grad (t_par _ _ s) c (parsed l))] in
    if Nat.eqb (S j) k
    then Ok {| t_par := sgd (t_par _ _ s) pend; t_pend := []; t_wrap := adv (t_wrap _ _ s); t_ready := t_ready _ _ s |}
    else Ok {| t_par := t_par _ _ s; t_pend := pend; t_wrap := adv (t_wrap _ _ s); t_ready := t_ready _ _ s |}.
Proof.
  intros Hj Hi Ha Hn Hm Hr. unfold Train_Model.update_params.
  assert (M : Z.of_nat (it * k) + Z.of_nat k <= Z.of_nat (mi * k)) by nia.
  assert (F : loss_factor (t_wrap _ _ s) = Ok (Z.of_nat k)).
  { unfold loss_factor. rewrite Ha, Hm, Hr, Hn. destruct (Z.of_nat k =? 1) eqn:E1; [f_equal; lia|].
    destruct (Z.of_nat (mi * k) =? -1) eqn:E2; [lia|]. destruct (Z.of_nat (it * k + j) <? Z.of_nat (mi * k) - 0) eqn:E3; [|lia].
    unfold assert_. replace (0 <? Z.of_nat k) with true by (symmetry; apply Z.ltb_lt; lia). reflexivity. }
  rewrite F. cbn [bind]. fold (adv (t_wrap _ _ s)). cbv zeta.
  assert (U : should_update (adv (t_wrap _ _ s)) = Nat.eqb (S j) k).
  { unfold should_update, adv. cbn [w_inner w_acc w_max]. rewrite Ha, Hn, Hm.
    replace (Z.of_nat (it * k + j) + 1) with (Z.of_nat (S j) + Z.of_nat it * Z.of_nat k) by nia.
    rewrite Z.mod_add by lia. destruct (Nat.eqb_spec (S j) k) as [->|N].
    - rewrite Z.mod_same by lia. reflexivity.
    - rewrite Z.mod_small by lia. apply orb_false_iff. split; apply Z.eqb_neq; [lia|]. nia. }
  rewrite U. reflexivity.
Qed.

Lemma update_nil : forall (m : subnet), NoDup (map fst m) -> dupdate [] m = m.
Proof.
  assert (X : forall (m d : subnet), NoDup (map fst m) -> (forall k, In k (map fst m) -> ~ In k (map fst d)) -> dupdate d m = d ++ m).
  { induction m as [|[k v] m IH]; intros d N H; [symmetry; apply app_nil_r|]. cbn [map fst] in N. apply NoDup_cons_iff in N as [N1 N2]. cbn [dupdate fold_left fst snd]. change (dupdate (dput d k v) m = d ++ (k, v) :: m).
    assert (Dk : dput d k v = d ++ [(k, v)]).
    { pose proof (H k (or_introl eq_refl)) as Hk. clear -Hk. induction d as [|[k0 v0] d IH]; [reflexivity|]. cbn [dput]. destruct (String.eqb_spec k0 k) as [->|E]; [exfalso; apply Hk; left; reflexivity|]. cbn. rewrite IH; [reflexivity|]. intros K. apply Hk. right. exact K. }
    rewrite Dk, IH; [rewrite <- app_assoc; reflexivity|exact N2|]. intros k' Hk'. rewrite map_app, in_app_iff. cbn. intros [K|[K|[]]]; [exact (H k' (or_intror Hk') K)|]. subst k'. exact (N1 Hk'). }
  intros m N. apply X; [exact N|intros k _ []].
Qed.
Hypothesis D1 : forall p c, NoDup (map fst (hard p c)).
Hypothesis D2 : forall a b, NoDup (map fst (soft a b)).
Section Loop.
Variables (both : bool) (mx mn : C) (sample : nat -> C).
Variables (k it mi : nat) (p : P).
Hypothesis Hi : (it < mi)%nat.
Let eval (c : bool * C) : subnet := losses_at both p mx c.
Let contrib (c : bool * C) : Q * G := ((1 / inject_Z (Z.of_nat k))%Q, grad p (snd c) (parsed (eval c))).
Let pick (i : nat) (kind : string) : option (bool * C) := subnet_of (bool * C) (true, mx) (false, mn) (fun i => (false, sample i)) i kind.
Fixpoint picks (i : nat) (kinds : list string) : list (bool * C) :=
  match kinds with [] => [] | kd :: r => match pick i kd with Some c => c :: picks (1 + i) r | None => picks (1 + i) r end end.
Definition here (j : nat) (s : tstate) : Prop :=
  w_acc (t_wrap _ _ s) = Z.of_nat k /\ w_inner (t_wrap _ _ s) = Z.of_nat (it * k + j) /\
  w_max (t_wrap _ _ s) = Z.of_nat (mi * k) /\ w_rem (t_wrap _ _ s) = 0 /\ t_ready _ _ s = true.
Lemma update_here j s c l : (j < k)%nat -> here j s -> t_par _ _ s = p -> l = eval c ->
  exists s', update_params s (snd c) l = Ok s' /\ here (S j) s' /\
    (if Nat.eqb (S j) k then t_par _ _ s' = sgd p (t_pend _ _ s ++ [contrib c]) /\ t_pend _ _ s' = []
     else t_par _ _ s' = p /\ t_pend _ _ s' = t_pend _ _ s ++ [contrib c]).
Proof.
  intros Hj (A & B & D & E & F) Hp ->. rewrite (update_at k it mi j s (snd c) _ Hj Hi A B D E). cbv zeta. rewrite Hp.
  destruct (Nat.eqb (S j) k); eexists; (split; [reflexivity|]); (split; [|split; reflexivity]);
    unfold here, adv; cbn [t_wrap w_acc w_inner w_max w_rem t_ready]; rewrite B; repeat split; try assumption; lia.
Qed.
Lemma loop : forall kinds i s tea total,
  (length kinds <= k)%nat -> (forall kd, In kd kinds -> kd = "max" \/ kd = "min" \/ contains "random" kd = true) ->
  (tea = Some (record p mx) \/ exists r, kinds = "max" :: r) ->
  here (k - length kinds) s -> (kinds <> [] -> t_par _ _ s = p) ->
  exists s', kinds_loop P G C R sgd hard record soft grad both mx mn sample i kinds s tea total
     = Ok (s', subnet_from (bool * C) eval (true, mx) (false, mn) (fun i => (false, sample i)) i kinds total) /\
    here k s' /\ (kinds <> [] -> t_par _ _ s' = sgd p (t_pend _ _ s ++ map contrib (picks i kinds)) /\ t_pend _ _ s' = []) /\ (kinds = [] -> s' = s).
Proof.
  induction kinds as [|kd r IH]; intros i s tea total HL HK HT HH HP.
  { exists s. split; [reflexivity|]. cbn [length] in HH. rewrite Nat.sub_0_r in HH. split; [exact HH|]. split; [congruence|reflexivity]. }
  specialize (HP ltac:(discriminate)). cbn [length] in HL, HH.
  assert (Hj : (k - S (length r) < k)%nat) by lia.
  assert (Sj : S (k - S (length r)) = (k - length r)%nat) by lia.
  (* one subnet, then the rest *)
  assert (NEXT : forall c l tea' total', pick i kd = Some c -> l = eval c -> tea' = Some (record p mx) ->
    exists s1, update_params s (snd c) l = Ok s1 /\
    exists s', kinds_loop P G C R sgd hard record soft grad both mx mn sample (1 + i) r s1 tea' total'
     = Ok (s', subnet_from (bool * C) eval (true, mx) (false, mn) (fun i => (false, sample i)) (1 + i) r total') /\
      here k s' /\ t_par _ _ s' = sgd p (t_pend _ _ s ++ map contrib (picks i (kd :: r))) /\ t_pend _ _ s' = []).
  { intros c l tea' total' Hc Hl Ht. destruct (update_here (k - S (length r)) s c l Hj HH HP Hl) as (s1 & E1 & H1 & X1). exists s1. split; [exact E1|]. rewrite Sj in H1, X1.
    destruct (IH (1 + i)%nat s1 tea' total') as (s' & E' & H' & X' & Y').
    - lia.
    - intros kd' Hk. apply HK. right. exact Hk.
    - left. exact Ht.
    - exact H1.
    - intros Hr. destruct r; [congruence|]. cbn [length] in X1. destruct (Nat.eqb_spec (k - S (length r)) k); [lia|]. exact (proj1 X1).
    - exists s'. split; [exact E'|]. split; [exact H'|]. cbn [picks]. rewrite Hc. cbn [map]. destruct r as [|kd2 r2].
      + cbn [length] in X1. rewrite Nat.sub_0_r, Nat.eqb_refl in X1. rewrite (Y' eq_refl). cbn [picks map]. exact X1.
      + cbn [length] in X1. destruct (Nat.eqb_spec (k - S (length r2)) k); [lia|]. destruct (X' ltac:(discriminate)) as [X1' X2']. split; [|exact X2']. rewrite X1'. destruct X1 as [_ ->]. rewrite <- app_assoc. reflexivity. }
  rewrite subnet_step. cbn [kinds_loop]. unfold subnet_of in *.
  assert (GO : forall s', here k s' /\ t_par _ _ s' = sgd p (t_pend _ _ s ++ map contrib (picks i (kd :: r))) /\ t_pend _ _ s' = [] ->
    here k s' /\ (kd :: r <> [] -> t_par _ _ s' = sgd p (t_pend _ _ s ++ map contrib (picks i (kd :: r))) /\ t_pend _ _ s' = []) /\ (kd :: r = [] -> s' = s)).
  { intros s' (A & B & D). split; [exact A|]. split; [intros _; split; assumption|discriminate]. }
  unfold pick, subnet_of in NEXT. destruct (String.eqb_spec kd "max") as [->|Nmax].
  - destruct (NEXT (true, mx) (hard (t_par _ _ s) mx) (Some (record (t_par _ _ s) mx)) (dupdate total (add_prefix "max_subnet" (hard (t_par _ _ s) mx))) eq_refl) as (s1 & E1 & s' & E' & X); [unfold eval, losses_at; rewrite HP; reflexivity|rewrite HP; reflexivity|].
    exists s'. cbn [snd] in E1. rewrite E1. cbn [bind]. rewrite E'. split; [|apply GO; exact X]. unfold eval, losses_at. rewrite HP. reflexivity.
  - destruct HT as [HT|(r' & HT)]; [|congruence]. subst tea.
    assert (DS : forall c, distill_step P G C R sgd hard record soft grad both s (Some (record p mx)) c =
      do s1 <- update_params s c (eval (false, c)); Ok (s1, eval (false, c))).
    { intros c. unfold distill_step, eval, losses_at. rewrite HP. destruct both; [|reflexivity]. rewrite (update_nil _ (D1 p c)). reflexivity. }
    destruct (String.eqb_spec kd "min") as [->|Nmin].
    + destruct (NEXT (false, mn) (eval (false, mn)) (Some (record p mx)) (dupdate total (add_prefix "min_subnet" (eval (false, mn)))) eq_refl eq_refl eq_refl) as (s1 & E1 & s' & E' & X).
      exists s'. cbn [snd] in E1. rewrite DS, E1. cbn [bind fst snd]. rewrite E'. split; [reflexivity|apply GO; exact X].
    + assert (HR : contains "random" kd = true) by (destruct (HK kd (or_introl eq_refl)) as [H|[H|H]]; congruence). rewrite HR in *.
      destruct (NEXT (false, sample i) (eval (false, sample i)) (Some (record p mx)) (dupdate total (add_prefix (kd ++ "_subnet")%string (eval (false, sample i)))) eq_refl eq_refl eq_refl) as (s1 & E1 & s' & E' & X).
      exists s'. cbn [snd] in E1. rewrite DS, E1. cbn [bind fst snd]. rewrite E'. split; [reflexivity|apply GO; exact X].
Qed.
End Loop.

Lemma random_in x : contains "random" ("random" ++ x) = true.
Proof. unfold contains. assert (E : index 0 "random" ("random" ++ x) = Some 0%nat) by (cbn; destruct x; reflexivity). rewrite E. reflexivity. Qed.
Lemma kinds_ok n : Forall (no_char ".") (sample_kinds n) /\ NoDup (sample_kinds n) /\ length (sample_kinds n) = (2 + n)%nat /\
  (forall kd, In kd (sample_kinds n) -> kd = "max" \/ kd = "min" \/ contains "random" kd = true).
Proof.
  unfold sample_kinds. split; [|split; [|split]].
  - constructor; [cbn; repeat split; discriminate|]. constructor; [cbn; repeat split; discriminate|]. apply Forall_forall. intros x H. apply in_map_iff in H. destruct H as (i & <- & _). apply no_char_app. split; [cbn; repeat split; discriminate|apply decimal_dot].
  - constructor; [|constructor; [|]].
    + intros [H|H]; [discriminate|]. apply in_map_iff in H. destruct H as (i & H & _). discriminate.
    + intros H. apply in_map_iff in H. destruct H as (i & H & _). discriminate.
    + assert (N : NoDup (seq 0 n)) by apply seq_NoDup. revert N. generalize (seq 0 n). induction l as [|i l IH]; intros N; [constructor|]. apply NoDup_cons_iff in N as [N1 N2]. cbn [map]. constructor; [|apply IH; exact N2].
      intros H. apply in_map_iff in H. destruct H as (j & E & Hj). apply append_inj in E. apply decimal_inj in E. subst j. exact (N1 Hj).
  - cbn. rewrite map_length, seq_length. reflexivity.
  - intros kd [<-|[<-|H]]; auto. apply in_map_iff in H. destruct H as (i & <- & _). right. right. apply random_in.
Qed.
Lemma dput_nodup (d : subnet) k v : NoDup (map fst d) -> NoDup (map fst (dput d k v)).
Proof.
  intros N. induction d as [|[k0 v0] d IH]; cbn; [constructor; [tauto|constructor]|]. apply NoDup_cons_iff in N as [N1 N2]. destruct (String.eqb_spec k0 k) as [->|E]; cbn; [constructor; assumption|].
  constructor; [|apply IH; exact N2]. intros H. assert (Y : forall k', In k' (map fst (dput d k v)) -> k' = k \/ In k' (map fst d)).
  { clear. induction d as [|[k0 v0] d IH]; cbn; [intros k' [H|[]]; auto|]. intros k'. destruct (String.eqb k0 k); cbn; [tauto|]. intros [H|H]; [tauto|]. apply IH in H. tauto. }
  destruct (Y k0 H); [congruence|contradiction].
Qed.
Lemma dupdate_nodup : forall (m d : subnet), NoDup (map fst d) -> NoDup (map fst (dupdate d m)).
Proof. induction m as [|[k v] m IH]; intros d N; [exact N|]. apply (IH (dput d k v)). apply dput_nodup. exact N. Qed.
Lemma picks_random mx mn (sample : nat -> C) : forall l i, picks mx mn sample i (map (fun j => "random" ++ decimal j)%string l) = map (fun j => (false, sample (i + j)%nat)) (seq 0 (length l)).
Proof.
  induction l as [|a l IH]; intros i; [reflexivity|]. cbn [map picks length seq]. rewrite IH. unfold subnet_of. rewrite random_in. cbn [String.eqb String.append Ascii.eqb Bool.eqb]. rewrite Nat.add_0_r. f_equal. rewrite <- seq_shift, map_map. apply map_ext. intros j. replace (1 + i + j)%nat with (i + S j)%nat by lia. reflexivity.
Qed.
Lemma picks_kinds mx mn (sample : nat -> C) n : picks mx mn sample 0 (sample_kinds n) = trained mx mn sample n.
Proof.
  unfold sample_kinds, trained. cbn [picks]. rewrite picks_random, seq_length. reflexivity.
Qed.
Lemma trained_nth mx mn (sample : nat -> C) n j kind : nth_error (sample_kinds n) j = Some kind ->
  subnet_of (bool * C) (true, mx) (false, mn) (fun i => (false, sample i)) j kind = nth_error (trained mx mn sample n) j.
Proof.
  unfold sample_kinds, trained. destruct j as [|[|j]]; cbn [nth_error]; [intros [= <-]; reflexivity|intros [= <-]; reflexivity|].
  intros H. rewrite nth_error_map in H. destruct (nth_error (seq 0 n) j) as [a|] eqn:E; [|discriminate]. cbn [option_map] in H. apply (f_equal (fun o => match o with Some x => x | None => kind end)) in H. cbv beta iota in H. subst kind. rewrite nth_error_map, E. cbn [option_map].
  assert (a = j) as -> by (pose proof E as E'; apply nth_error_nth with (d := 0%nat) in E; rewrite seq_nth in E; [lia|]; rewrite <- (seq_length n 0); apply nth_error_Some; congruence).
  unfold subnet_of. rewrite random_in. reflexivity.
Qed.

(** AutoSlim ([both]) and BigNAS, with accumulative_counts equal to the number of subnets: all
    subnets are evaluated with the same parameters, then there is one optimizer step with the
    average of their gradients; the losses of every subnet are reported under its own name. *)
Theorem C116_step_partial both mx mn (sample : nat -> C) n it mi (s : tstate) :
  (it < mi)%nat -> between (2 + n) it mi s ->
  exists s' total, train_step both mx mn sample n it mi s = Ok (s', total) /\
    t_par _ _ s' = averaged both (t_par _ _ s) mx (trained mx mn sample n) /\
    between (2 + n) (S it) mi s' /\ t_ready _ _ s' = true /\
    (forall j kind c k, nth_error (sample_kinds n) j = Some kind -> nth_error (trained mx mn sample n) j = Some c ->
       dget total ((kind ++ "_subnet") ++ "." ++ k) = dget (losses_at both (t_par _ _ s) mx c) k).
Proof.
  intros Hi (A & B & E). destruct (kinds_ok n) as (K1 & K2 & K3 & K4). unfold Train_Model.train_step. rewrite K3.
  set (s1 := reinitialized P G s (Z.of_nat it) (Z.of_nat mi) (2 + n)).
  assert (H1 : here (2 + n) it mi 0 s1 /\ t_par _ _ s1 = t_par _ _ s /\ t_pend _ _ s1 = []).
  { unfold s1, reinitialized. destruct (t_ready _ _ s) eqn:Er; [destruct (E eq_refl) as (E1 & E2 & E3); unfold here; rewrite Nat.add_0_r; repeat split; assumption|].
    unfold here, reinitialize, initialize_count_status. cbn [t_wrap w_acc w_inner w_max w_rem t_ready t_par t_pend]. rewrite B. repeat split; try assumption; try lia. apply Z.mod_divide; [lia|]. exists (Z.of_nat mi). lia. }
  destruct H1 as (H1 & H2 & H3). clearbody s1.
  destruct (loop both mx mn sample (2 + n) it mi (t_par _ _ s) Hi (sample_kinds n) 0 s1 None []) as (s' & L & H' & X & _).
  - lia.
  - exact K4.
  - right. eexists. reflexivity.
  - rewrite K3, Nat.sub_diag. exact H1.
  - intros _. exact H2.
  - destruct (X ltac:(discriminate)) as [X1 X2]. eexists. eexists. split; [exact L|]. split.
    + rewrite X1, H3, picks_kinds. cbn [app]. unfold averaged. replace (length (trained mx mn sample n)) with (2 + n)%nat; [reflexivity|]. unfold trained. cbn [length]. rewrite map_length, seq_length. reflexivity.
    + destruct H' as (H4 & H5 & H6 & H7 & H8). split; [|split; [exact H8|]].
      * split; [exact X2|]. split; [exact H4|]. intros _. split; [rewrite H5; f_equal; lia|]. split; assumption.
      * intros j kind c k Hj Hc. set (ev := fun c => losses_at both (t_par _ _ s) mx c).
        pose proof (C71_kinds (bool * C) ev (true, mx) (false, mn) (fun i => (false, sample i)) (sample_kinds n)) as Q0. unfold subnet_val in Q0.
        rewrite (Q0 ltac:(intros [[|] c0]; unfold ev, losses_at; [apply D1|]; destruct both; apply dupdate_nodup; [apply D1|constructor]) K1 K2 j kind k Hj). rewrite (trained_nth mx mn sample n j kind Hj), Hc. reflexivity.
Qed.

(** A whole run, also when resumed: one averaged step per iteration. *)
Theorem C116_run_partial both mx mn (draw : nat -> nat -> C) n mi steps : forall it (s : tstate),
  (it + steps <= mi)%nat -> between (2 + n) it mi s ->
  exists s', train_run both mx mn draw n mi steps it s = Ok s' /\ between (2 + n) (it + steps) mi s' /\
    t_par _ _ s' = fold_left (fun p i => averaged both p mx (trained mx mn (draw i) n)) (seq it steps) (t_par _ _ s).
Proof.
  induction steps as [|steps IH]; intros it s Hi Hb.
  - exists s. rewrite Nat.add_0_r. split; [reflexivity|]. split; [exact Hb|reflexivity].
  - cbn [Train_Model.train_run]. destruct (C116_step_partial both mx mn (draw it) n it mi s ltac:(lia) Hb) as (s1 & total & E & P1 & B1 & _). rewrite E. cbn [bind fst].
    destruct (IH (S it) s1 ltac:(lia) B1) as (s' & E' & B' & P'). exists s'. split; [exact E'|]. split; [rewrite Nat.add_succ_r; exact B'|]. rewrite P', P1. reflexivity.
Qed.

(** The same for slimmable networks. *)
Lemma slim_loop p k it mi : (it < mi)%nat -> forall subnets i s total, (length subnets <= k)%nat -> here k it mi (k - length subnets) s -> (subnets <> [] -> t_par _ _ s = p) ->
  exists s', subnets_loop P G C sgd hard grad i subnets s total = Ok (s', slimmable_from C (hard p) i subnets total) /\ here k it mi k s' /\
    (subnets <> [] -> t_par _ _ s' = sgd p (t_pend _ _ s ++ map (fun c => ((1 / inject_Z (Z.of_nat k))%Q, grad p c (parsed (hard p c)))) subnets) /\ t_pend _ _ s' = []) /\ (subnets = [] -> s' = s).
Proof.
  intros Hi. induction subnets as [|c r IH]; intros i s total HL HH HP.
  { exists s. cbn [length] in HH. rewrite Nat.sub_0_r in HH. split; [reflexivity|]. split; [exact HH|]. split; [congruence|reflexivity]. }
  specialize (HP ltac:(discriminate)). cbn [length] in HL, HH. cbn [subnets_loop].
  assert (Hj : (k - S (length r) < k)%nat) by lia. assert (Sj : S (k - S (length r)) = (k - length r)%nat) by lia.
  destruct (update_here false c c (fun _ => c) k it mi p Hi (k - S (length r)) s (true, c) (hard (t_par _ _ s) c) Hj HH HP) as (s1 & E1 & H1 & X1); [cbn; rewrite HP; reflexivity|]. cbn [snd losses_at] in E1, X1. rewrite Sj in H1, X1. rewrite E1. cbn [bind].
  destruct (IH (1 + i)%nat s1 (dupdate total (add_prefix ("subnet_" ++ decimal i)%string (hard (t_par _ _ s) c)))) as (s' & E' & H' & X' & Y').
  - lia.
  - exact H1.
  - intros Hr. destruct r; [congruence|]. cbn [length] in X1. destruct (Nat.eqb_spec (k - S (length r)) k); [lia|]. exact (proj1 X1).
  - exists s'. rewrite E'. split; [cbn [slimmable_from]; rewrite HP; reflexivity|]. split; [exact H'|]. split; [|discriminate]. intros _. cbn [map]. destruct r as [|c2 r2].
    + cbn [length] in X1. rewrite Nat.sub_0_r, Nat.eqb_refl in X1. rewrite (Y' eq_refl). exact X1.
    + cbn [length] in X1. destruct (Nat.eqb_spec (k - S (length r2)) k); [lia|]. destruct (X' ltac:(discriminate)) as [X1' X2']. split; [|exact X2']. rewrite X1'. destruct X1 as [_ ->]. rewrite <- app_assoc. reflexivity.
Qed.
Theorem C116_slimmable_partial (subnets : list C) it mi (s : tstate) :
  (it < mi)%nat -> subnets <> [] -> between (length subnets) it mi s ->
  exists s' total, slimmable_step subnets it mi s = Ok (s', total) /\
    t_par _ _ s' = averaged_slim (t_par _ _ s) subnets /\ between (length subnets) (S it) mi s' /\ t_ready _ _ s' = true /\
    (forall i c k, nth_error subnets i = Some c -> dget total (("subnet_" ++ decimal i) ++ "." ++ k) = dget (hard (t_par _ _ s) c) k).
Proof.
  intros Hi Hn (A & B & E). unfold Train_Model.slimmable_step. set (k := length subnets) in *. assert (Hk : (0 < k)%nat) by (unfold k; destruct subnets; [congruence|cbn; lia]).
  set (s1 := reinitialized P G s (Z.of_nat it) (Z.of_nat mi) k).
  assert (H1 : here k it mi 0 s1 /\ t_par _ _ s1 = t_par _ _ s /\ t_pend _ _ s1 = []).
  { unfold s1, reinitialized. destruct (t_ready _ _ s) eqn:Er; [destruct (E eq_refl) as (E1 & E2 & E3); unfold here; rewrite Nat.add_0_r; repeat split; assumption|].
    unfold here, reinitialize, initialize_count_status. cbn [t_wrap w_acc w_inner w_max w_rem t_ready t_par t_pend]. rewrite B. repeat split; try assumption; try lia. apply Z.mod_divide; [lia|]. exists (Z.of_nat mi). lia. }
  destruct H1 as (H1 & H2 & H3). clearbody s1.
  destruct (slim_loop (t_par _ _ s) k it mi Hi subnets 0 s1 []) as (s' & L & H' & X & _); [reflexivity|fold k; rewrite Nat.sub_diag; exact H1|intros _; exact H2|].
  destruct (X Hn) as [X1 X2]. eexists. eexists. split; [exact L|]. split; [rewrite X1, H3; reflexivity|]. destruct H' as (H4 & H5 & H6 & H7 & H8). split; [|split; [exact H8|]].
  - split; [exact X2|]. split; [exact H4|]. intros _. split; [rewrite H5; f_equal; lia|]. split; assumption.
  - intros i c key Hc. pose proof (proj1 (C71_slimmable C (hard (t_par _ _ s)) subnets (D1 _)) i key) as Q0. unfold slimmable_val in Q0. rewrite Q0, Hc. reflexivity.
Qed.

(** With accumulative_counts = 1 every subnet has its own step: the smaller ones are evaluated
    after the larger one was updated, and distilled from what the largest one gave before. *)
Definition own_step (both : bool) (t : R) (p : P) (c : C) : P :=
  sgd p [(1%Q, grad p c (parsed (dupdate (if both then hard p c else []) (soft t (record p c)))))].
Lemma update_each (s : tstate) c l : w_acc (t_wrap _ _ s) = 1 ->
  update_params s c l = Ok {| t_par := sgd (t_par _ _ s) (t_pend _ _ s ++ [(1%Q, grad (t_par _ _ s) c (parsed l))]); t_pend := []; t_wrap := adv (t_wrap _ _ s); t_ready := t_ready _ _ s |}.
Proof.
  intros A. unfold Train_Model.update_params, loss_factor. rewrite A. cbn [Z.eqb Pos.eqb bind]. unfold should_update. cbn [w_acc w_inner w_max]. rewrite ?A. rewrite Z.mod_1_r. cbn [Z.eqb orb]. unfold adv. rewrite A. reflexivity.
Qed.
Lemma each_loop both mx mn (sample : nat -> C) t : forall l i (s : tstate) total, w_acc (t_wrap _ _ s) = 1 -> t_pend _ _ s = [] ->
  exists s' total', kinds_loop P G C R sgd hard record soft grad both mx mn sample i (map (fun j => "random" ++ decimal j)%string l) s (Some t) total = Ok (s', total') /\
    t_pend _ _ s' = [] /\ t_par _ _ s' = fold_left (own_step both t) (map sample (seq i (length l))) (t_par _ _ s).
Proof.
  induction l as [|a l IH]; intros i s total A E; [exists s, total; repeat split; exact E|].
  assert (X1 : String.eqb ("random" ++ decimal a) "max" = false) by reflexivity. assert (X2 : String.eqb ("random" ++ decimal a) "min" = false) by reflexivity.
  cbn [map kinds_loop length seq fold_left]. rewrite X1, X2, random_in. unfold distill_step. rewrite update_each by exact A. cbn [bind fst snd].
  edestruct IH as (s' & total' & L & Q1 & Q2); [| |exists s', total'; split; [exact L|split; [exact Q1|]]]; [cbn [t_wrap adv w_acc]; exact A|reflexivity|].
  rewrite Q2. cbn [t_par]. rewrite E. cbn [app]. f_equal. unfold own_step. destruct both; [rewrite (update_nil _ (D1 _ _))|]; reflexivity.
Qed.
Theorem C116_each both mx mn (sample : nat -> C) n it mi (s : tstate) :
  w_acc (t_wrap _ _ s) = 1 -> t_pend _ _ s = [] ->
  exists s' total, train_step both mx mn sample n it mi s = Ok (s', total) /\ t_pend _ _ s' = [] /\
    t_par _ _ s' = fold_left (own_step both (record (t_par _ _ s) mx)) (mn :: map sample (seq 2 n))
                     (sgd (t_par _ _ s) [(1%Q, grad (t_par _ _ s) mx (parsed (hard (t_par _ _ s) mx)))]).
Proof.
  intros A E. unfold Train_Model.train_step. set (s1 := reinitialized P G s (Z.of_nat it) (Z.of_nat mi) (length (sample_kinds n))).
  assert (H1 : w_acc (t_wrap _ _ s1) = 1 /\ t_par _ _ s1 = t_par _ _ s /\ t_pend _ _ s1 = []).
  { unfold s1, reinitialized. destruct (t_ready _ _ s); repeat split; assumption. }
  destruct H1 as (A1 & P1 & E1). clearbody s1. unfold sample_kinds. cbn [kinds_loop String.eqb Ascii.eqb Bool.eqb]. rewrite update_each by exact A1. cbn [bind].
  unfold distill_step. rewrite update_each by exact A1. cbn [bind fst snd].
  destruct (each_loop both mx mn sample (record (t_par _ _ s1) mx) (seq 0 n) 2
    {| t_par := own_step both (record (t_par _ _ s1) mx) (sgd (t_par _ _ s1) [(1%Q, grad (t_par _ _ s1) mx (parsed (hard (t_par _ _ s1) mx)))]) mn; t_pend := []; t_wrap := adv (adv (t_wrap _ _ s1)); t_ready := t_ready _ _ s1 |}
    (dupdate (dupdate [] (add_prefix "max_subnet" (hard (t_par _ _ s1) mx))) (add_prefix "min_subnet"
       (dupdate (if both then hard (sgd (t_par _ _ s1) [(1%Q, grad (t_par _ _ s1) mx (parsed (hard (t_par _ _ s1) mx)))]) mn else [])
          (soft (record (t_par _ _ s1) mx) (record (sgd (t_par _ _ s1) [(1%Q, grad (t_par _ _ s1) mx (parsed (hard (t_par _ _ s1) mx)))]) mn)))))) as (s' & total & L & Q1 & Q2); [exact A1|reflexivity|].
  exists s', total. split; [|split; [exact Q1|]].
  - rewrite <- L. cbn [t_par t_pend t_wrap t_ready]. rewrite E1. cbn [app]. unfold own_step. destruct both; [rewrite (update_nil _ (D1 _ _))|]; reflexivity.
  - rewrite Q2. cbn [t_par]. rewrite P1, seq_length. reflexivity.
Qed.
End Spec.

(** The step is averaged whatever accumulative_counts is set to: it is not. *)
Definition C116_claim : Prop :=
  forall (P G C R : Type) (sgd : P -> list (Q * G) -> P) (hard : P -> C -> subnet) (record : P -> C -> R) (soft : R -> R -> subnet) (grad : P -> C -> subnet -> G),
  (forall p c, NoDup (map fst (hard p c))) -> (forall a b, NoDup (map fst (soft a b))) ->
  forall both mx mn sample n it mi (s : tstate P G), (it < mi)%nat -> 1 <= w_acc (t_wrap _ _ s) -> t_pend _ _ s = [] -> t_ready _ _ s = false ->
  exists s' total, train_step P G C R sgd hard record soft grad both mx mn sample n it mi s = Ok (s', total) /\
    t_par _ _ s' = averaged P G C R sgd hard record soft grad both (t_par _ _ s) mx (trained C mx mn sample n).
(** A small trainer whose parameters record the steps taken: each step a list of (weight, subnet). *)
Definition demo_hard (p : list (list (Q * nat))) (c : nat) : subnet := [("loss", decimal c); ("acc", "0.5")]%string.
Definition demo_step := train_step (list (list (Q * nat))) nat nat nat (fun p g => p ++ [g]) demo_hard (fun p c => length p) (fun a b => [("loss_kd", decimal (b - a))])%string (fun _ c _ => c).
Definition fresh (acc : Z) : tstate (list (list (Q * nat))) nat := {| t_par := []; t_pend := []; t_wrap := {| w_acc := acc; w_inner := 0; w_max := -1; w_rem := 0 |}; t_ready := false |}.
Definition steps_of (o : outcome (tstate (list (list (Q * nat))) nat * subnet)) : option (list (list (Q * nat)) * list (Q * nat)) :=
  match o with Ok (s, _) => Some (t_par _ _ s, t_pend _ _ s) | Raise _ => None end.
(** With 2 there is one step after two subnets and the gradient of the third is left over. *)
Example C116_accumulated : steps_of (demo_step true 9%nat 1%nat (fun i => 4 + i)%nat 1 0 10 (fresh 2)) = Some ([[(1 # 2, 9%nat); (1 # 2, 1%nat)]], [(1 # 2, 6%nat)])%Q.
Proof. vm_compute. reflexivity. Qed.
Example C116_each_case : steps_of (demo_step true 9%nat 1%nat (fun i => 4 + i)%nat 1 0 10 (fresh 1)) = Some ([[(1, 9%nat)]; [(1, 1%nat)]; [(1, 6%nat)]], [])%Q.
Proof. vm_compute. reflexivity. Qed.
Theorem C116_refuted : ~ C116_claim.
Proof.
  intros H. specialize (H (list (list (Q * nat))) nat nat nat (fun p g => p ++ [g]) demo_hard (fun p c => length p) (fun a b => [("loss_kd", decimal (b - a))])%string (fun _ c _ => c)
    ltac:(intros p c; repeat constructor; cbn; intuition discriminate) ltac:(intros a b; repeat constructor; cbn; tauto) true 9%nat 1%nat (fun i => 4 + i)%nat 1%nat 0%nat 10%nat (fresh 2) ltac:(lia) ltac:(cbn; lia) eq_refl eq_refl).
  destruct H as (s' & total & E & H). pose proof C116_accumulated as X. unfold demo_step in X. rewrite E in X. cbn [steps_of] in X. injection X as X _. rewrite X in H. vm_compute in H. discriminate H.
Qed.
Example C116_step_case :
  between (list (list (Q * nat))) nat (2 + 1) 0 10 (fresh 3) /\
  steps_of (demo_step true 9%nat 1%nat (fun i => 4 + i)%nat 1 0 10 (fresh 3)) = Some ([[(1 # 3, 9%nat); (1 # 3, 1%nat); (1 # 3, 6%nat)]], [])%Q /\
  match demo_step true 9%nat 1%nat (fun i => 4 + i)%nat 1 0 10 (fresh 3) with
  | Ok (_, total) => total = [("max_subnet.loss", "9"); ("max_subnet.acc", "0.5"); ("min_subnet.loss", "1"); ("min_subnet.acc", "0.5"); ("min_subnet.loss_kd", "0");
                              ("random0_subnet.loss", "6"); ("random0_subnet.acc", "0.5"); ("random0_subnet.loss_kd", "0")]%string
  | Raise _ => False
  end.
Proof. split; [repeat split; discriminate|]. vm_compute. repeat split. Qed.
(** A resumed run of three iterations. *)
Example C116_run_case :
  match train_run (list (list (Q * nat))) nat nat nat (fun p g => p ++ [g]) demo_hard (fun p c => length p) (fun a b => [("loss_kd", decimal (b - a))])%string (fun _ c _ => c)
          false 9%nat 1%nat (fun it i => 4 + 10 * it + i)%nat 0 10 3 5 (fresh 2) with
  | Ok s => t_par _ _ s = [[(1 # 2, 9%nat); (1 # 2, 1%nat)]; [(1 # 2, 9%nat); (1 # 2, 1%nat)]; [(1 # 2, 9%nat); (1 # 2, 1%nat)]]%Q /\ w_inner (t_wrap _ _ s) = 16
  | Raise _ => False
  end.
Proof. vm_compute. repeat split. Qed.
Example C116_slimmable_case :
  steps_of (slimmable_step (list (list (Q * nat))) nat nat (fun p g => p ++ [g]) demo_hard (fun _ c _ => c) [3; 5; 8]%nat 4 10 (fresh 3)) = Some ([[(1 # 3, 3%nat); (1 # 3, 5%nat); (1 # 3, 8%nat)]], [])%Q.
Proof. vm_compute. reflexivity. Qed.

(** The smaller subnets of AutoSlim are trained with all their own losses and all distillation
    losses: not when a distillation loss has the name of an own loss, which it replaces. *)
Definition C116_losses_claim : Prop :=
  forall (P C R : Type) (hard : P -> C -> subnet) (record : P -> C -> R) (soft : R -> R -> subnet),
  (forall p c, NoDup (map fst (hard p c))) -> (forall a b, NoDup (map fst (soft a b))) ->
  forall p mx c kv, In kv (parsed (hard p c)) \/ In kv (parsed (soft (record p mx) (record p c))) ->
    In kv (parsed (losses_at P C R hard record soft true p mx (false, c))).
Theorem C116_losses_refuted : ~ C116_losses_claim.
Proof.
  intros H. specialize (H nat nat nat (fun _ _ => [("loss_cls", "1")])%string (fun _ _ => 0%nat) (fun _ _ => [("loss_cls", "2")])%string
    ltac:(intros; repeat constructor; cbn; tauto) ltac:(intros; repeat constructor; cbn; tauto) 0%nat 0%nat 0%nat ("loss_cls", "1")%string (or_introl (or_introl eq_refl))).
  vm_compute in H. destruct H as [H|[]]. discriminate H.
Qed.
Lemma dget_in (d : subnet) : NoDup (map fst d) -> forall k v, In (k, v) d <-> dget d k = Some v.
Proof.
  induction d as [|[k0 v0] d IH]; intros N k v; [split; [intros []|discriminate]|]. cbn [map fst] in N. apply NoDup_cons_iff in N as [N1 N2]. cbn [dget In]. destruct (String.eqb_spec k0 k) as [->|E].
  - split; [intros [H|H]; [congruence|exfalso; apply N1, in_map_iff; exists (k, v); split; [reflexivity|exact H]]|intros [= ->]; left; reflexivity].
  - rewrite <- (IH N2). split; [intros [H|H]; [congruence|exact H]|intros H; right; exact H].
Qed.
Theorem C116_losses_partial :
  forall (P C R : Type) (hard : P -> C -> subnet) (record : P -> C -> R) (soft : R -> R -> subnet),
  (forall p c, NoDup (map fst (hard p c))) -> (forall a b, NoDup (map fst (soft a b))) ->
  forall p mx c, (forall k, In k (map fst (hard p c)) -> ~ In k (map fst (soft (record p mx) (record p c)))) ->
  forall kv, In kv (parsed (losses_at P C R hard record soft true p mx (false, c))) <->
    In kv (parsed (hard p c)) \/ In kv (parsed (soft (record p mx) (record p c))).
Proof.
  intros P C R hard record soft D1 D2 p mx c X [k v]. unfold parsed. rewrite !filter_In. unfold losses_at.
  rewrite !dget_in; [|apply D2|apply D1|apply dupdate_nodup, D1]. rewrite dupdate_get by apply D2.
  destruct (dget (soft (record p mx) (record p c)) k) as [w|] eqn:E; [|intuition discriminate].
  assert (Nk : dget (hard p c) k = None).
  { destruct (dget (hard p c) k) as [z|] eqn:Ez; [|reflexivity]. exfalso. apply (X k); apply in_map_iff; [exists (k, z)|exists (k, w)]; (split; [reflexivity|]); apply dget_in; auto. }
  rewrite Nk. intuition discriminate.
Qed.
Example C116_losses_case :
  parsed (losses_at nat nat nat (fun _ _ => [("loss_cls", "1"); ("acc", "0.5")])%string (fun _ _ => 0%nat) (fun _ _ => [("loss_kl", "2")])%string true 0%nat 0%nat (false, 0%nat))
    = [("loss_cls", "1"); ("loss_kl", "2")]%string.
Proof. reflexivity. Qed.
Print Assumptions C116_step_partial.
Print Assumptions C116_run_partial.
Print Assumptions C116_slimmable_partial.
Print Assumptions C116_each.
Print Assumptions C116_refuted.
Print Assumptions C116_losses_refuted.
Print Assumptions C116_losses_partial.

Lemma prefix_split : forall a s, String.prefix a s = true -> exists y, s = (a ++ y)%string.
Proof.
  induction a as [| c a IH]; intros s H; [exists s; reflexivity |]. destruct s as [| b s]; [discriminate |]. cbn [String.prefix] in H.
  destruct (ascii_dec c b) as [<- |]; [| discriminate]. destruct (IH s H) as (y & ->). exists y. reflexivity.
Qed.
Lemma contains_split : forall sub s, contains sub s = true -> exists x y, s = (x ++ sub ++ y)%string.
Proof.
  intros sub s. unfold contains. induction s as [| b s IH]; intro H.
  - destruct sub as [| c sub]; [exists ""%string, ""%string; reflexivity | discriminate H].
  - cbn [index] in H. destruct (String.prefix sub (String b s)) eqn:Pf.
    + apply prefix_split in Pf. destruct Pf as (y & ->). exists ""%string, y. reflexivity.
    + destruct (index 0 sub s); [| discriminate]. destruct (IH eq_refl) as (x & y & ->). exists (String b x), y. reflexivity.
Qed.
(** Entries whose name does not contain "loss" do not matter to an optimizer step. *)
Theorem C116_other_entries : forall P G C sgd grad (s : tstate P G) (c : C) a k v b,
  (forall x y, k <> x ++ "loss" ++ y)%string ->
  update_params P G C sgd grad s c (a ++ (k, v) :: b) = update_params P G C sgd grad s c (a ++ b).
Proof.
  intros P G C sgd grad s c a k v b N. unfold update_params.
  assert (X : parsed (a ++ (k, v) :: b) = parsed (a ++ b)); [| rewrite X; reflexivity].
  unfold parsed. rewrite !filter_app. f_equal. cbn [filter fst]. destruct (contains "loss" k) eqn:K; [| reflexivity].
  apply contains_split in K. destruct K as (x & y & ->). exfalso. apply (N x y). reflexivity.
Qed.
(** A smaller subnet cannot be trained before the largest one has been. *)
Theorem C116_teacher_first : forall P G C R sgd hard record soft grad both mx mn sample i k r (s : tstate P G) total,
  k = "min"%string \/ (exists x, k = "random" ++ x)%string ->
  kinds_loop P G C R sgd hard record soft grad both mx mn sample i (k :: r) s None total = Raise AssertionError.
Proof.
  intros P G C R sgd hard record soft grad both mx mn sample i k r s total [-> | (x & ->)]; [reflexivity |].
  assert (X1 : String.eqb ("random" ++ x) "max" = false) by reflexivity. assert (X2 : String.eqb ("random" ++ x) "min" = false) by reflexivity.
  cbn [kinds_loop]. rewrite X1, X2, random_in. reflexivity.
Qed.
Example C116_other_entries_case :
  update_params nat nat nat (fun p g => p + length g)%nat (fun _ _ l => length l) {| t_par := 3%nat; t_pend := []; t_wrap := {| w_acc := 2; w_inner := 0; w_max := -1; w_rem := 0 |}; t_ready := true |} 7%nat
    [("loss_cls", "1"); ("acc", "0.5")]%string
  = Ok {| t_par := 3%nat; t_pend := [(1 / inject_Z 2, 1%nat)%Q]; t_wrap := {| w_acc := 2; w_inner := 1; w_max := -1; w_rem := 0 |}; t_ready := true |}.
Proof. reflexivity. Qed.
Print Assumptions C116_other_entries.
Print Assumptions C116_teacher_first.
