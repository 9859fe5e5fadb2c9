(** C119 - cleaning up an ONNX graph keeps what it computes. *)
From Coq Require Import String Permutation.
From Verif Require Import Prelude Onnx_Model Onnx_Lemmas Onnx_Props.
Local Open Scope string_scope.
Local Open Scope list_scope.
Local Open Scope Z_scope.

(** ** Specification: what a graph computes *)
Section Semantics.
Variable V : Type.
(** The operators: op_type, attributes and inputs give the outputs. *)
Variable exec : string -> nat -> list V -> list V.
Implicit Type m : omodel V.
Definition env : Type := string -> option V.
Fixpoint known (e : env) (l : list string) : option (list V) :=
  match l with
  | [] => Some []
  | i :: r => match e i, known e r with Some v, Some vs => Some (v :: vs) | _, _ => None end
  end.
Definition extend (e : env) (outs : list string) (vs : list V) : env := fun k => match get (combine outs vs) k with Some v => Some v | None => e k end.
Fixpoint run (e : env) (l : list onode) : option env :=
  match l with
  | [] => Some e
  | n :: r => match known e (o_in n) with Some vs => run (extend e (o_out n) (exec (o_op n) (o_attr n) vs)) r | None => None end
  end.
Definition start m (feed : string -> V) : env :=
  fun k => match get (m_init _ m) k with Some v => Some v | None => if mem k (m_in _ m) then Some (feed k) else None end.
(** The values of the outputs of the graph, nodes being executed in the order of the list. *)
Definition evaluate m (feed : string -> V) : option (list V) :=
  match run (start m feed) (m_node _ m) with Some e => known e (m_out _ m) | None => None end.
(** Names are used once: nodes, graph inputs, outputs of nodes, initializers. *)
Record distinct m : Prop := {
  ds_names : NoDup (map o_name (m_node _ m));
  ds_apart : forall i, In i (m_in _ m) -> ~ In i (map o_name (m_node _ m));
  ds_single : NoDup (m_in _ m ++ flat_map o_out (m_node _ m));
  ds_init : NoDup (map fst (m_init _ m));
  ds_fresh : forall o, In o (flat_map o_out (m_node _ m)) -> ~ In o (map fst (m_init _ m)) }.
Definition consumed m (k : string) : Prop := exists n, In n (m_node _ m) /\ In k (o_in n).
Definition produced m (k : string) : Prop := In k (flat_map o_out (m_node _ m)).
(** Connected to no other node. *)
Definition isolated m (n : onode) : Prop := (forall i, In i (o_in n) -> ~ produced m i) /\ (forall o, In o (o_out n) -> ~ consumed m o).

(** ** Proof *)
Lemma known_get e l vs : known e l = Some vs -> forall i, In i l -> exists v, e i = Some v.
Proof. revert vs. induction l as [|x l IH]; intros vs H i I; [destruct I|]. cbn [known] in H. destruct (e x) as [v|] eqn:E; [|discriminate]. destruct (known e l) as [w|]; [|discriminate]. destruct I as [<-|I]; [eauto|eauto]. Qed.
Lemma known_ext e e' l : (forall i, In i l -> e i = e' i) -> known e l = known e' l.
Proof. induction l as [|x l IH]; intros H; [reflexivity|]. cbn [known]. rewrite (H x (or_introl eq_refl)), IH; [reflexivity|]. intros i I. apply H. right. exact I. Qed.
(** [e] gives node [n] the outputs it computes from its inputs. *)
Definition solves (e : env) (n : onode) : Prop :=
  exists vs, known e (o_in n) = Some vs /\ forall o, In o (o_out n) -> e o = get (combine (o_out n) (exec (o_op n) (o_attr n) vs)) o.
Lemma combine_out (outs : list string) (vs : list V) k v : get (combine outs vs) k = Some v -> In k outs.
Proof. intros H. apply get_in in H. apply in_combine_l in H. exact H. Qed.
Lemma nodup_app {A} (a b : list A) : NoDup (a ++ b) -> NoDup a /\ NoDup b /\ forall x, In x a -> ~ In x b.
Proof.
  induction a as [|x a IH]; intros N; [split; [constructor|]; split; [exact N|intros x []]|]. cbn [app] in N. apply NoDup_cons_iff in N as [N1 N2]. destruct (IH N2) as (A1 & B1 & C1).
  split; [constructor; [intros I; apply N1, in_or_app; auto|exact A1]|]. split; [exact B1|]. intros y [<-|I]; [intros J; apply N1, in_or_app; auto|auto].
Qed.
Lemma run_solves : forall l e e', run e l = Some e' -> NoDup (flat_map o_out l) -> (forall o, In o (flat_map o_out l) -> e o = None) ->
  (forall k, ~ In k (flat_map o_out l) -> e' k = e k) /\ (forall n, In n l -> solves e' n).
Proof.
  induction l as [|n l IH]; intros e e' H N F; [injection H as <-; split; [reflexivity|intros n []]|]. cbn [run] in H. destruct (known e (o_in n)) as [vs|] eqn:K; [|discriminate].
  cbn [flat_map] in N, F. destruct (nodup_app _ _ N) as (N1 & N2 & N3). set (e1 := extend e (o_out n) (exec (o_op n) (o_attr n) vs)) in H.
  assert (E1 : forall k, ~ In k (o_out n) -> e1 k = e k). { intros k Hk. unfold e1, extend. destruct (get _ k) as [v|] eqn:G; [|reflexivity]. apply combine_out in G. contradiction. }
  destruct (IH e1 e' H N2) as [A B].
  { intros o Ho. rewrite E1; [apply F, in_or_app; auto|]. intros J. exact (N3 o J Ho). }
  assert (KE : known e' (o_in n) = Some vs).
  { rewrite <- K. apply known_ext. intros i Hi. destruct (known_get _ _ _ K i Hi) as [v Ev]. assert (Ni : ~ In i (o_out n ++ flat_map o_out l)) by (intros J; rewrite (F i J) in Ev; discriminate). rewrite A, E1; [reflexivity| |]; intros J; apply Ni, in_or_app; auto. }
  split.
  - intros k Hk. cbn [flat_map] in Hk. rewrite A, E1; [reflexivity| |]; intros J; apply Hk, in_or_app; auto.
  - intros n' [<-|I]; [|auto]. exists vs. split; [exact KE|]. intros o Ho. rewrite A by (intros J; exact (N3 o Ho J)). unfold e1, extend. destruct (get _ o); [reflexivity|]. apply F, in_or_app. auto.
Qed.
(** An ordered list of nodes computes whatever solves them. *)
Lemma replay (X : string -> Prop) e1 : forall l e, (forall k, X k -> forall n, In n l -> ~ In k (o_in n)) ->
  NoDup (flat_map o_out l) -> (forall n, In n l -> solves e1 n) -> (forall o, In o (flat_map o_out l) -> e o = None) ->
  (forall k, ~ X k -> ~ In k (flat_map o_out l) -> e k = e1 k) ->
  (forall a n b, l = a ++ n :: b -> forall i, In i (o_in n) -> ~ In i (flat_map o_out (n :: b))) ->
  exists e', run e l = Some e' /\ forall k, ~ X k -> e' k = e1 k.
Proof.
  induction l as [|n l IH]; intros e HX N S0 F A O; [exists e; split; [reflexivity|]; intros k Hk; apply A; [exact Hk|intros []]|].
  cbn [flat_map] in N, F, A. destruct (nodup_app _ _ N) as (N1 & N2 & N3). destruct (S0 n (or_introl eq_refl)) as (vs & K & G).
  assert (KE : known e (o_in n) = Some vs).
  { rewrite <- K. apply known_ext. intros i Hi. apply A; [intros Xi; exact (HX i Xi n (or_introl eq_refl) Hi)|]. exact (O [] n l eq_refl i Hi). }
  cbn [run]. rewrite KE. set (e2 := extend e (o_out n) (exec (o_op n) (o_attr n) vs)).
  apply IH.
  - intros k Xk n' I. apply HX; [exact Xk|right; exact I].
  - exact N2.
  - intros n' I. apply S0. right. exact I.
  - intros o Ho. unfold e2, extend. destruct (get _ o) as [v|] eqn:Gv; [apply combine_out in Gv; exfalso; exact (N3 o Gv Ho)|]. apply F, in_or_app. auto.
  - intros k Xk Hk. unfold e2, extend. destruct (get _ k) as [v|] eqn:Gv.
    + rewrite (G k) by (eapply combine_out; exact Gv). symmetry. exact Gv.
    + destruct (in_dec string_dec k (o_out n)) as [I|I]; [rewrite (G k I), Gv; apply F, in_or_app; auto|]. apply A; [exact Xk|]. intros J. apply in_app_or in J as [J|J]; auto.
  - intros a n' b E. apply (O (n :: a) n' b). rewrite E. reflexivity.
Qed.

(** Removing. *)
Lemma same_node_eq a b : same_node a b = true <-> a = b.
Proof.
  unfold same_node. rewrite !andb_true_iff, !String.eqb_eq, Nat.eqb_eq. destruct a as [a1 a2 a3 a4 a5], b as [b1 b2 b3 b4 b5]; cbn [o_name o_op o_attr o_in o_out].
  repeat match goal with |- context [list_eq_dec string_dec ?x ?y] => destruct (list_eq_dec string_dec x y) end; split; intros H; try (inversion H; congruence); intuition (congruence || discriminate).
Qed.
Lemma remove_filter (f : onode -> bool) : forall b a, NoDup (a ++ b) -> (forall x, In x a -> f x = false) -> remove_all (filter f b) (a ++ b) = Ok (a ++ filter (fun x => negb (f x)) b).
Proof.
  assert (R1 : forall n a b, ~ In n a -> remove_node n (a ++ n :: b) = Ok (a ++ b)).
  { intros n a b. induction a as [|x a IH]; intros Hn; cbn [app remove_node].
    - rewrite (proj2 (same_node_eq n n) eq_refl). reflexivity.
    - destruct (same_node x n) eqn:E; [apply same_node_eq in E; exfalso; apply Hn; left; exact E|]. rewrite IH by (intros J; apply Hn; right; exact J). reflexivity. }
  induction b as [|n b IH]; intros a N H; [reflexivity|]. cbn [filter]. destruct (f n) eqn:E; cbn [negb].
  - cbn [remove_all]. rewrite R1; [|intros J; apply NoDup_remove_2 in N; apply N, in_or_app; auto]. cbn [bind]. apply IH; [apply NoDup_remove_1 in N; exact N|exact H].
  - specialize (IH (a ++ [n])). rewrite <- !app_assoc in IH. cbn [app] in IH. apply IH; [exact N|]. intros x I. apply in_app_or in I as [I|[<-|[]]]; auto.
Qed.
Lemma remove_inits (f : string -> bool) : forall (b a : list (string * V)), NoDup (map fst (a ++ b)) -> (forall x, In x a -> f (fst x) = false) ->
  remove_initializers V (filter f (map fst b)) (a ++ b) = Ok (a ++ filter (fun x => negb (f (fst x))) b).
Proof.
  assert (R1 : forall k v (a b : list (string * V)), ~ In k (map fst a) -> remove_initializer V k (a ++ (k, v) :: b) = Ok (a ++ b)).
  { intros k v a b. induction a as [|x a IH]; intros Hn; cbn [app remove_initializer fst].
    - rewrite String.eqb_refl. reflexivity.
    - destruct (String.eqb_spec (fst x) k) as [E|E]; [exfalso; apply Hn; left; exact E|]. rewrite IH by (intros J; apply Hn; right; exact J). reflexivity. }
  induction b as [|[k v] b IH]; intros a N H; [reflexivity|]. cbn [map filter fst]. destruct (f k) eqn:E; cbn [negb].
  - cbn [remove_initializers]. rewrite map_app in N. cbn [map fst] in N. rewrite R1; [|intros J; apply NoDup_remove_2 in N; apply N, in_or_app; auto]. cbn [bind]. apply IH; [rewrite map_app; apply NoDup_remove_1 in N; exact N|exact H].
  - specialize (IH (a ++ [(k, v)])). rewrite <- !app_assoc in IH. cbn [app] in IH. apply IH; [exact N|]. intros x I. apply in_app_or in I as [I|[<-|[]]]; auto.
Qed.

(** The dictionaries. *)
Lemma enum_in {A} : forall (l : list A) i x, In x l <-> exists j, In (j, x) (enum i l).
Proof.
  induction l as [|y l IH]; intros i x; cbn [enum In]; [split; [tauto|intros [j []]]|]. rewrite (IH (S i) x). split.
  - intros [-> |[j J]]; [exists i; auto|exists j; auto].
  - intros [j [J|J]]; [inversion J; auto|eauto].
Qed.
Lemma use_keys d i p k : In k (map fst (add_use d i p)) <-> In k (map fst d) \/ k = i.
Proof.
  unfold add_use. assert (X : forall (v : list (nat * nat)), In k (map fst (put d i v)) <-> In k (map fst d) \/ k = i).
  { intros v. rewrite put_fst. destruct (has d i) eqn:E; [apply has_in in E; split; [tauto|intros [H| ->]; assumption]|rewrite in_app_iff; cbn; intuition]. }
  destruct (get d i); apply X.
Qed.
Lemma has_use m k : has (map_input_and_node V m) k = true <-> consumed m k.
Proof.
  rewrite has_in. unfold map_input_and_node, consumed.
  assert (I1 : forall p (ins : list (nat * string)) d, In k (map fst (fold_left (fun d ji => add_use d (snd ji) (p, fst ji)) ins d)) <-> In k (map fst d) \/ In k (map snd ins)).
  { intros p. induction ins as [|x ins IH]; intros d; cbn [fold_left map]; [cbn; tauto|]. rewrite IH, use_keys. cbn. intuition. }
  assert (I2 : forall (ns : list (nat * onode)) d, In k (map fst (fold_left (fun d pn => fold_left (fun d ji => add_use d (snd ji) (fst pn, fst ji)) (enum 0 (o_in (snd pn))) d) ns d)) <-> In k (map fst d) \/ exists x, In x ns /\ In k (o_in (snd x))).
  { induction ns as [|x ns IH]; intros d; cbn [fold_left]; [cbn; split; [tauto|intros [H|(x & I & _)]; [exact H|destruct I]]|]. rewrite IH, I1.
    assert (E : In k (map snd (enum 0 (o_in (snd x)))) <-> In k (o_in (snd x))).
    { rewrite (enum_in (o_in (snd x)) 0 k), in_map_iff. split; [intros ([j y] & <- & J); exists j; exact J|intros [j J]; exists (j, k); auto]. }
    rewrite E. split.
    - intros [[H|H]|[y [I J]]]; [auto|right; exists x; split; [left; reflexivity|exact H]|right; exists y; split; [right; exact I|exact J]].
    - intros [H|[y [[-> |I] J]]]; [auto|auto|right; exists y; auto]. }
  rewrite I2. cbn. split.
  - intros [[]|[[j n] [I J]]]. exists n. split; [apply (enum_in _ 0%nat); eauto|exact J].
  - intros (n & I & J). right. apply (enum_in _ 0%nat) in I as [j I]. exists (j, n). auto.
Qed.
Lemma has_out m k : has (map_output_and_node V m) k = true <-> produced m k.
Proof.
  rewrite has_in. unfold map_output_and_node, produced.
  assert (I2 : forall ns d, In k (map fst (fold_left (fun d n => fold_left (fun d o => put d o n) (o_out n) d) ns d)) <-> In k (map fst d) \/ In k (flat_map o_out ns)).
  { induction ns as [|x ns IH]; intros d; cbn [fold_left flat_map]; [cbn; tauto|]. rewrite IH, (fold_put_keys (fun o => o) (fun _ => x)), map_id, in_app_iff. tauto. }
  rewrite I2. cbn. tauto.
Qed.
Lemma init_keys m : NoDup (map fst (m_init _ m)) -> map fst (map_name_and_initializer V m) = map fst (m_init _ m).
Proof. intros N. unfold map_name_and_initializer. rewrite (fold_put_fst fst (fun kv => kv)); [reflexivity|exact N]. Qed.

(** The steps of [optimize]. *)
Lemma standalone_iff m n : is_standalone (map_input_and_node V m) (map_output_and_node V m) n = true <-> isolated m n.
Proof.
  unfold is_standalone, isolated. rewrite andb_true_iff, !forallb_forall.
  assert (A : forall i, negb (has (map_output_and_node V m) i) = true <-> ~ produced m i). { intros i. rewrite <- has_out. destruct (has _ i); cbn; split; congruence. }
  assert (B : forall i, negb (has (map_input_and_node V m) i) = true <-> ~ consumed m i). { intros i. rewrite <- has_use. destruct (has _ i); cbn; split; congruence. }
  split; intros [H1 H2]; split; intros k I; [apply A|apply B|apply A|apply B]; auto.
Qed.
Lemma nodup_outs (f : onode -> bool) : forall l I, NoDup (I ++ flat_map o_out l) -> NoDup (I ++ flat_map o_out (filter f l)).
Proof.
  induction l as [|n l IH]; intros I N; [exact N|]. cbn [flat_map filter] in *. destruct (f n); cbn [flat_map].
  - rewrite app_assoc in N |- *. apply IH. exact N.
  - apply IH. apply (Permutation_NoDup (Permutation_app_swap_app _ _ _)) in N. apply nodup_app in N. tauto.
Qed.
Lemma nodup_names (f : onode -> bool) : forall l, NoDup (map o_name l) -> NoDup (map o_name (filter f l)).
Proof.
  induction l as [|x l IH]; intros N; [constructor|]. cbn [map] in N. apply NoDup_cons_iff in N as [N1 N2]. cbn [filter]. destruct (f x); [|auto]. cbn [map]. constructor; [|auto].
  intros J. apply N1. apply in_map_iff in J as (y & <- & J). apply filter_In in J as [J _]. apply in_map. exact J.
Qed.
Lemma run_ready : forall l e e', run e l = Some e' -> forall a n b, l = a ++ n :: b -> forall i, In i (o_in n) -> e i <> None \/ In i (flat_map o_out a).
Proof.
  induction l as [|x l IH]; intros e e' H a n b E i Hi; [destruct a; discriminate E|]. cbn [run] in H. destruct (known e (o_in x)) as [vs|] eqn:K; [|discriminate]. destruct a as [|y a].
  - injection E as -> _. destruct (known_get _ _ _ K i Hi) as [v Ev]. left. congruence.
  - injection E as <- E. cbn [flat_map]. destruct (IH _ _ H a n b E i Hi) as [Ne|I]; [|right; apply in_or_app; auto]. unfold extend in Ne. destruct (get _ i) as [v|] eqn:G; [right; apply in_or_app; left; eapply combine_out; exact G|auto].
Qed.
Lemma start_some m feed i : start m feed i <> None <-> In i (map fst (m_init _ m)) \/ In i (m_in _ m).
Proof.
  unfold start. destruct (get (m_init _ m) i) as [v|] eqn:G.
  - split; [intros _; left; apply get_some; eauto|discriminate].
  - apply get_none in G. destruct (mem i (m_in _ m)) eqn:M; [apply mem_in in M; split; [auto|discriminate]|apply mem_not in M; split; [congruence|tauto]].
Qed.
Lemma get_filter (f : string -> bool) (d : list (string * V)) k : f k = true -> get (filter (fun x => f (fst x)) d) k = get d k.
Proof. intros H. induction d as [|[k0 v0] d IH]; [reflexivity|]. cbn [filter fst get]. destruct (String.eqb_spec k0 k) as [->|N]; [rewrite H; cbn [get]; rewrite String.eqb_refl; reflexivity|]. destruct (f k0); [|exact IH]. cbn [get]. destruct (String.eqb_spec k0 k); [contradiction|exact IH]. Qed.

Section Clean.
Variable m : omodel V.
Variable feed : string -> V.
Variable e1 : env.
Hypothesis D : distinct m.
(** Some order of the nodes can be executed. *)
Variable l0 : list onode.
Hypothesis P0 : Permutation l0 (m_node _ m).
Hypothesis Rn : run (start m feed) l0 = Some e1.
Let keep (n : onode) : bool := negb (is_standalone (map_input_and_node V m) (map_output_and_node V m) n).
Let stay (kv : string * V) : bool := has (map_input_and_node V m) (fst kv).
Let m2 : omodel V := with_init V (with_nodes V m (filter keep (m_node _ m))) (filter stay (m_init _ m)).
Lemma optimize_steps : optimize V m = topo_sort V m2.
Proof.
  unfold optimize, find_standalone_nodes. rewrite (remove_filter _ (m_node _ m) []); [|cbn [app]; apply (NoDup_map_inv o_name); exact (ds_names _ D)|intros x []]. cbn [bind app].
  unfold find_redundant_initializers. change (m_init V (with_nodes V m _)) with (m_init V m). change (map_name_and_initializer V (with_nodes V m _)) with (map_name_and_initializer V m).
  assert (E : map fst (filter (fun kv => negb (has (map_input_and_node V m) (fst kv))) (map_name_and_initializer V m)) = filter (fun k => negb (has (map_input_and_node V m) k)) (map fst (m_init V m))).
  { rewrite <- (init_keys m (ds_init _ D)). induction (map_name_and_initializer V m) as [|x l IH]; [reflexivity|]. cbn [filter map]. destruct (negb _); cbn [map]; rewrite IH; reflexivity. }
  rewrite E, (remove_inits _ (m_init V m) []); [|exact (ds_init _ D)|intros x []]. cbn [bind app]. f_equal. unfold m2. f_equal. apply filter_ext. intros x. rewrite negb_involutive. reflexivity.
Qed.
Lemma known2 : forall a n b, l0 = a ++ n :: b -> keep n = true -> ready V m2 (filter keep a) n.
Proof.
  intros a n b E Kn i Hi. assert (Ci : consumed m i) by (exists n; split; [apply (Permutation_in _ P0); rewrite E; apply in_elt|exact Hi]).
  destruct (run_ready _ _ _ Rn a n b E i Hi) as [S0|O].
  - apply start_some in S0 as [I|I]; [left|right; left; exact I]. cbn [m2 with_init m_init]. apply in_map_iff in I as ([k v] & <- & I). apply in_map_iff. exists (k, v). split; [reflexivity|]. apply filter_In. split; [exact I|]. apply has_use. exact Ci.
  - right. right. apply in_flat_map in O as (x & I & O). apply in_flat_map. exists x. split; [|exact O]. apply filter_In. split; [exact I|]. unfold keep. apply negb_true_iff. destruct (is_standalone _ _ x) eqn:Sx; [|reflexivity]. exfalso. apply standalone_iff in Sx as [_ Sx]. exact (Sx i O Ci).
Qed.
Lemma sound2 : sound V m2.
Proof.
  split.
  - cbn [m2 with_init with_nodes m_node]. apply nodup_names. exact (ds_names _ D).
  - intros i I J. cbn in J. apply (ds_apart _ D i I). apply in_map_iff in J as (y & <- & J). apply filter_In in J as [J _]. apply in_map. exact J.
  - apply nodup_outs. exact (ds_single _ D).
  - intros n I. cbn [m2 with_init with_nodes m_node] in I |- *. apply filter_In in I as [I Kn]. destruct (in_split _ _ (Permutation_in _ (Permutation_sym P0) I)) as (a & b & E). pose proof (known2 a n b E Kn) as Rd. intros i Hi. destruct (Rd i Hi) as [A|[A|A]]; [auto|auto|right; right]. apply in_flat_map in A as (x & Ix & Jx). apply filter_In in Ix as [Ix Kx]. apply in_flat_map. exists x. split; [|exact Jx]. apply filter_In. split; [|exact Kx]. apply (Permutation_in _ P0). rewrite E. apply in_or_app. auto.
Qed.
Lemma ordered2 : ordered V m2 (filter keep l0).
Proof.
  intros a n b E.
  assert (X : forall l a b, filter keep l = a ++ n :: b -> exists a' b', l = a' ++ n :: b' /\ filter keep a' = a).
  { clear. induction l as [|x l IH]; intros a b E; [destruct a; discriminate E|]. cbn [filter] in E. destruct (keep x) eqn:Kx.
    - destruct a as [|y a]; injection E as -> E; [exists [], l; auto|]. destruct (IH a b E) as (a' & b' & -> & F). exists (y :: a'), b'. split; [reflexivity|]. cbn [filter]. rewrite Kx, F. reflexivity.
    - destruct (IH a b E) as (a' & b' & -> & F). exists (x :: a'), b'. split; [reflexivity|]. cbn [filter]. rewrite Kx. exact F. }
  destruct (X _ _ _ E) as (a' & b' & E' & <-). apply (known2 a' n b' E').
  assert (I : In n (filter keep l0)) by (rewrite E; apply in_elt). apply filter_In in I. tauto.
Qed.
Lemma perm_filter (f : onode -> bool) a b : Permutation a b -> Permutation (filter f a) (filter f b).
Proof.
  induction 1 as [|x a b P IH|x y l|a b c _ IH1 _ IH2]; cbn [filter]; [constructor|destruct (f x); [constructor|]; exact IH|destruct (f x), (f y); try apply Permutation_refl; apply perm_swap|exact (Permutation_trans IH1 IH2)].
Qed.
Lemma optimize_ok : exists m', optimize V m = Ok m'.
Proof. rewrite optimize_steps. apply (proj1 (C118_order_partial V m2 sound2)). exists (filter keep l0). split; [apply perm_filter; exact P0|exact ordered2]. Qed.
Lemma optimize_run m' : optimize V m = Ok m' -> exists e', run (start m' feed) (m_node _ m') = Some e' /\
  forall k, ~ (exists n, In n (m_node _ m) /\ isolated m n /\ In k (o_out n)) -> ~ (In k (map fst (m_init _ m)) /\ ~ consumed m k) -> e' k = e1 k.
Proof.
  intros E. rewrite optimize_steps in E. destruct (C118_sorted_partial V m2 m' sound2 E) as (P & O & Ei & Em & Eo).
  assert (Fr : forall o, In o (flat_map o_out (m_node _ m)) -> start m feed o = None).
  { intros o Ho. destruct (start m feed o) eqn:S0; [|reflexivity]. exfalso. assert (S1 : start m feed o <> None) by congruence. apply start_some in S1 as [I|I]; [exact (ds_fresh _ D o Ho I)|]. destruct (nodup_app _ _ (ds_single _ D)) as (_ & _ & N). exact (N o I Ho). }
  assert (P1 : Permutation (flat_map o_out l0) (flat_map o_out (m_node _ m))) by (apply Permutation_flat_map; exact P0).
  destruct (run_solves _ _ _ Rn) as [Rs0 Sl0].
  { apply (Permutation_NoDup (Permutation_sym P1)). exact (proj1 (proj2 (nodup_app _ _ (ds_single _ D)))). }
  { intros o Ho. apply Fr, (Permutation_in _ P1), Ho. }
  assert (Rs : forall k, ~ In k (flat_map o_out (m_node _ m)) -> e1 k = start m feed k) by (intros k Hk; apply Rs0; intros J; apply Hk, (Permutation_in _ P1), J).
  assert (Sl : forall n, In n (m_node _ m) -> solves e1 n) by (intros n I; apply Sl0, (Permutation_in _ (Permutation_sym P0)), I).
  assert (Sub : forall n, In n (m_node _ m') -> In n (m_node _ m) /\ keep n = true).
  { intros n I. apply (Permutation_in _ P) in I. cbn [m2 with_init with_nodes m_node] in I. apply filter_In in I. exact I. }
  set (X := fun k => (exists n, In n (m_node _ m) /\ isolated m n /\ In k (o_out n)) \/ (In k (map fst (m_init _ m)) /\ ~ consumed m k)).
  assert (Nd : NoDup (m_in _ m' ++ flat_map o_out (m_node _ m'))).
  { rewrite Em. apply (Permutation_NoDup (l := m_in _ m2 ++ flat_map o_out (m_node _ m2))); [apply Permutation_app_head, Permutation_flat_map, Permutation_sym; exact P|]. exact (sd_single _ _ sound2). }
  assert (Outs : forall o, In o (flat_map o_out (m_node _ m')) <-> exists n, In n (m_node _ m) /\ keep n = true /\ In o (o_out n)).
  { intros o. rewrite in_flat_map. split; [intros (n & I & J); exists n; destruct (Sub n I); auto|]. intros (n & I & Kn & J). exists n. split; [|exact J]. apply (Permutation_in _ (Permutation_sym P)). cbn [m2 with_init with_nodes m_node]. apply filter_In. auto. }
  assert (Ini : m_init _ m' = filter stay (m_init _ m)) by exact Ei. assert (Inp : m_in _ m' = m_in _ m) by exact Em.
  assert (St : forall k, ~ (In k (map fst (m_init _ m)) /\ ~ consumed m k) -> start m' feed k = start m feed k).
  { intros k Hk. unfold start. rewrite Ini, Inp. destruct (has (map_input_and_node V m) k) eqn:Hu.
    - unfold stay. rewrite (get_filter (has (map_input_and_node V m))) by exact Hu. reflexivity.
    - assert (Nk : ~ In k (map fst (m_init _ m))). { intros J. apply Hk. split; [exact J|]. rewrite <- has_use, Hu. discriminate. }
      rewrite (proj2 (get_none _ _) Nk). assert (Nk' : get (filter stay (m_init V m)) k = None); [|rewrite Nk'; reflexivity]. apply get_none. intros J. apply Nk. apply in_map_iff in J as (y & <- & J). apply filter_In in J as [J _]. apply in_map. exact J. }
  destruct (replay X e1 (m_node _ m') (start m' feed)) as (e' & Rn' & Eq).
  - intros k [(n & I & [_ Is] & J)|[_ Nc]] x Ix Jx; [exact (Is k J (ex_intro _ x (conj (proj1 (Sub x Ix)) Jx)))|exact (Nc (ex_intro _ x (conj (proj1 (Sub x Ix)) Jx)))].
  - exact (proj1 (proj2 (nodup_app _ _ Nd))).
  - intros n I. apply Sl, (Sub n I).
  - intros o Ho. assert (Ho' : In o (flat_map o_out (m_node _ m))) by (apply Outs in Ho as (n & I & _ & J); apply in_flat_map; eauto).
    rewrite St; [apply Fr; exact Ho'|]. intros [J _]. exact (ds_fresh _ D o Ho' J).
  - intros k Xk Hk. rewrite St by (intros J; apply Xk; right; exact J). symmetry. apply Rs. intros J. apply in_flat_map in J as (n & I & J). destruct (keep n) eqn:Kn.
    + apply Hk, Outs. eauto.
    + apply Xk. left. exists n. split; [exact I|]. split; [|exact J]. apply standalone_iff. unfold keep in Kn. apply negb_false_iff in Kn. exact Kn.
  - intros a n b E' i Hi J. destruct (O a n b E' i Hi) as [A|[A|A]].
    + rewrite Ini in A. apply in_map_iff in A as (y & Ey & A). apply filter_In in A as [A _]. assert (Jm : In i (flat_map o_out (m_node _ m'))) by (rewrite E', flat_map_app; apply in_or_app; auto).
      apply Outs in Jm as (x & Ix & _ & Jx). apply (ds_fresh _ D i); [apply in_flat_map; eauto|]. rewrite <- Ey. apply in_map. exact A.
    + apply (proj2 (proj2 (nodup_app _ _ Nd)) i A). rewrite E', flat_map_app. apply in_or_app. auto.
    + destruct (nodup_app _ _ Nd) as (_ & N & _). rewrite E', flat_map_app in N. exact (proj2 (proj2 (nodup_app _ _ N)) i A J).
  - exists e'. split; [exact Rn'|]. intros k K1 K2. apply Eq. intros [Y|Y]; auto.
Qed.
Lemma optimize_kept m' : optimize V m = Ok m' -> (forall n, In n (m_node _ m') <-> In n (m_node _ m) /\ ~ isolated m n) /\
  (forall kv, In kv (m_init _ m') <-> In kv (m_init _ m) /\ consumed m (fst kv)) /\ m_in _ m' = m_in _ m /\ m_out _ m' = m_out _ m /\ ordered V m' (m_node _ m').
Proof.
  intros E. rewrite optimize_steps in E. destruct (C118_sorted_partial V m2 m' sound2 E) as (P & O & Ei & Em & Eo). split; [|split; [|split; [exact Em|split; [exact Eo|exact O]]]].
  - intros n. assert (A : In n (m_node _ m') <-> In n (filter keep (m_node _ m))). { split; apply Permutation_in; [exact P|apply Permutation_sym; exact P]. }
    rewrite A, filter_In. unfold keep. rewrite <- standalone_iff. destruct (is_standalone _ _ n); cbn [negb]; intuition congruence.
  - intros kv. rewrite Ei. cbn [m2 with_init m_init]. rewrite filter_In. unfold stay. rewrite has_use. tauto.
Qed.
End Clean.

(** ** Theorems *)
(** The outputs of a graph whose nodes may be listed in any order. *)
Definition computes m (feed : string -> V) (vs : list V) : Prop := exists l, Permutation l (m_node _ m) /\ evaluate (with_nodes V m l) feed = Some vs.
Lemma computes_run m feed vs : computes m feed vs -> exists l e, Permutation l (m_node _ m) /\ run (start m feed) l = Some e /\ known e (m_out _ m) = Some vs.
Proof. intros (l & P & E). unfold evaluate in E. cbn [with_nodes m_node m_out] in E. change (start (with_nodes V m l) feed) with (start m feed) in E. destruct (run _ l) as [e|] eqn:Rn; [|discriminate]. exists l, e. auto. Qed.
(** When no output of the graph comes from an isolated node or an unused initializer, cleaning up
    succeeds and keeps the values of all outputs, executing the nodes in the order of the result. *)
Theorem C119_same_partial m feed vs : distinct m -> computes m feed vs ->
  (forall o, In o (m_out _ m) -> (forall n, In n (m_node _ m) -> In o (o_out n) -> ~ isolated m n) /\ (In o (map fst (m_init _ m)) -> consumed m o)) ->
  exists m', optimize V m = Ok m' /\ evaluate m' feed = Some vs.
Proof.
  intros D C Ho. destruct (computes_run _ _ _ C) as (l & e1 & P & Rn & E). destruct (optimize_ok m feed e1 D l P Rn) as [m' Om]. exists m'. split; [exact Om|].
  destruct (optimize_run m feed e1 D l P Rn m' Om) as (e' & Rn' & Eq). destruct (optimize_kept m feed e1 D l P Rn m' Om) as (_ & _ & _ & Eo & _).
  unfold evaluate. rewrite Rn', Eo, <- E. apply known_ext. intros o I. destruct (Ho o I) as [H1 H2]. apply Eq; [intros (n & J & Is & K); exact (H1 n J K Is)|intros [J K]; auto].
Qed.
(** What stays: the nodes connected to another node, in topological order, and the initializers
    that are used by a node. *)
Theorem C119_kept_partial m feed vs m' : distinct m -> computes m feed vs -> optimize V m = Ok m' ->
  (forall n, In n (m_node _ m') <-> In n (m_node _ m) /\ ~ isolated m n) /\
  (forall kv, In kv (m_init _ m') <-> In kv (m_init _ m) /\ consumed m (fst kv)) /\
  m_in _ m' = m_in _ m /\ m_out _ m' = m_out _ m /\ ordered V m' (m_node _ m').
Proof. intros D C Om. destruct (computes_run _ _ _ C) as (l & e1 & P & Rn & E). exact (optimize_kept m feed e1 D l P Rn m' Om). Qed.
Lemma evaluate_computes m feed vs : evaluate m feed = Some vs -> computes m feed vs.
Proof. intros E. exists (m_node _ m). split; [apply Permutation_refl|]. destruct m. exact E. Qed.
End Semantics.

(** The full claim: cleaning up keeps the outputs. *)
Definition C119_claim : Prop := forall (V : Type) (exec : string -> nat -> list V -> list V) (m : omodel V) feed vs,
  distinct V m -> evaluate V exec m feed = Some vs -> exists m', optimize V m = Ok m' /\ evaluate V exec m' feed = Some vs.
(** A network of a single node: the node is isolated, so it is removed and the output is lost. *)
Definition ex_exec (op : string) (_ : nat) (vs : list nat) : list nat := [if String.eqb op "Relu" then list_sum vs else S (list_sum vs)].
Definition ex_single : omodel nat := {| m_node := [nd "fc" "Gemm" ["x"; "w"] ["y"]]; m_init := [("w", 3%nat)]; m_in := ["x"]; m_out := ["y"] |}.
Example ex_single_distinct : distinct nat ex_single.
Proof.
  split; cbn.
  - repeat constructor. intros [].
  - intros i [<-|[]] [K|[]]. discriminate.
  - repeat constructor; cbn; intuition discriminate.
  - repeat constructor. intros [].
  - intros o [<-|[]] [K|[]]. discriminate.
Qed.
Theorem C119_outputs_refuted : ~ C119_claim.
Proof.
  intros H. destruct (H nat ex_exec ex_single (fun _ => 1%nat) [5%nat] ex_single_distinct) as (m' & E & G); [vm_compute; reflexivity|].
  vm_compute in E. apply Ok_inj in E. subst m'. vm_compute in G. discriminate G.
Qed.
(** The claim that no unused initializer stays. *)
Definition C119_used_claim : Prop := forall (V : Type) (exec : string -> nat -> list V -> list V) (m m' : omodel V) feed vs,
  distinct V m -> evaluate V exec m feed = Some vs -> optimize V m = Ok m' -> forall kv, In kv (m_init _ m') -> consumed V m' (fst kv).
(** "s" is used only by the node "q", which is removed: the uses are those of the graph before. *)
Definition ex_clean : omodel nat := {| m_node := [nd "q" "QuantizeLinear" ["s"] ["t"]; nd "conv" "Conv" ["x"; "w"] ["u"]; nd "relu" "Relu" ["u"] ["y"]];
  m_init := [("w", 3%nat); ("s", 2%nat); ("z", 0%nat)]; m_in := ["x"]; m_out := ["y"] |}.
Example ex_clean_distinct : distinct nat ex_clean.
Proof.
  split; cbn.
  - repeat constructor; cbn; intuition discriminate.
  - intros i [<-|[]] K. intuition discriminate.
  - repeat constructor; cbn; intuition discriminate.
  - repeat constructor; cbn; intuition discriminate.
  - intros o [<-|[<-|[<-|[]]]] K; intuition discriminate.
Qed.
Theorem C119_unused_refuted : ~ C119_used_claim.
Proof.
  intros H. remember (optimize nat ex_clean) as o eqn:E. vm_compute in E. subst o.
  specialize (H nat ex_exec ex_clean _ (fun _ => 1%nat) [5%nat] ex_clean_distinct ltac:(vm_compute; reflexivity) eq_refl ("s", 2%nat)).
  destruct H as (n & I & J); [cbn; auto|]. cbn in I, J. destruct I as [<-|[<-|[]]]; cbn in J; intuition discriminate.
Qed.
(** The nodes in another order. *)
Definition ex_mixed : omodel nat := with_nodes nat ex_clean (rev (m_node _ ex_clean)).
Example C119_case : distinct nat ex_mixed /\ computes nat ex_exec ex_mixed (fun _ => 1%nat) [5%nat] /\ evaluate nat ex_exec ex_mixed (fun _ => 1%nat) = None /\
  (forall o, In o (m_out _ ex_mixed) -> (forall n, In n (m_node _ ex_mixed) -> In o (o_out n) -> ~ isolated nat ex_mixed n) /\ (In o (map fst (m_init _ ex_mixed)) -> consumed nat ex_mixed o)) /\
  match optimize nat ex_mixed with
  | Ok m' => map o_name (m_node _ m') = ["conv"; "relu"] /\ map fst (m_init _ m') = ["w"; "s"] /\ evaluate nat ex_exec m' (fun _ => 1%nat) = Some [5%nat]
  | Raise _ => False
  end.
Proof.
  split; [|split; [exists (m_node _ ex_clean); split; [apply Permutation_rev|vm_compute; reflexivity]|split; [vm_compute; reflexivity|split; [|vm_compute; repeat split; reflexivity]]]].
  { split; cbn; [repeat constructor; cbn; intuition discriminate|intros i [<-|[]] K; intuition discriminate|repeat constructor; cbn; intuition discriminate|repeat constructor; cbn; intuition discriminate|intros o [<-|[<-|[<-|[]]]] K; intuition discriminate]. }
  intros o [<-|[]]. split; [|intros K; cbn in K; intuition discriminate]. intros n I J [Is _]. cbn in I. destruct I as [<-|[<-|[<-|[]]]]; cbn in J; try (destruct J as [J|[]]; discriminate J).
  apply (Is "u"); cbn; auto.
Qed.
Print Assumptions C119_same_partial.
Print Assumptions C119_kept_partial.
Print Assumptions C119_outputs_refuted.
Print Assumptions C119_unused_refuted.
