(** Loading the state of a learnable fake quantizer (C255). *)
From Coq Require Import QArith Ascii String.
From Verif Require Import Prelude LsqLoad_Model.
Open Scope string_scope.
Open Scope list_scope.

(** The tensor [x] of the module or dictionary [d] is called [k]: the first of that name. *)
Inductive named : dict -> string -> tensor -> Prop :=
| named_here k x r : named ((k, x) :: r) k x
| named_later k x k' x' r : k <> k' -> named r k x -> named ((k', x') :: r) k x.
Lemma get_named d k x : get d k = Some x <-> named d k x.
Proof.
  split.
  - induction d as [|[k' v] d IH]; [discriminate|]. cbn. destruct (String.eqb_spec k k') as [->|N].
    + intros E. injection E as ->. constructor.
    + intros E. constructor; [exact N|apply IH; exact E].
  - induction 1 as [k x r|k x k' x' r N H IH]; cbn; [rewrite String.eqb_refl; reflexivity|]. apply String.eqb_neq in N. rewrite N. exact IH.
Qed.
Lemma get_none d k : get d k = None <-> ~ In k (map fst d).
Proof.
  induction d as [|[k' v] d IH]; cbn; [tauto|]. destruct (String.eqb_spec k k') as [->|N].
  - split; [discriminate|]. intros H. exfalso. apply H. left. reflexivity.
  - rewrite IH. split; [intros H [E|I]; [congruence|exact (H I)]|tauto].
Qed.
Lemma shape_eqb_eq a b : shape_eqb a b = true <-> a = b.
Proof.
  revert b. induction a as [|x a IH]; intros [|y b]; cbn; split; try discriminate; try reflexivity.
  - rewrite andb_true_iff, Nat.eqb_eq, IH. intros [-> ->]. reflexivity.
  - intros E. injection E as -> ->. rewrite Nat.eqb_refl. apply IH. reflexivity.
Qed.
(** A map that keeps the names. *)
Lemma get_map (f : string * tensor -> string * tensor) q k : (forall t, fst (f t) = fst t) -> get (map f q) k = match get q k with Some x => Some (snd (f (k, x))) | None => None end.
Proof.
  intros F. induction q as [|[k' x] q IH]; [reflexivity|]. cbn [map get]. pose proof (F (k', x)) as E. destruct (f (k', x)) as [k2 x2] eqn:Ef. cbn in E. subst k2.
  destruct (String.eqb_spec k k') as [->|N]; [rewrite Ef; reflexivity|exact IH].
Qed.
Lemma own_fst sd p junk t : fst (own_step junk sd p t) = fst t.
Proof. destruct t as [name x]. cbn. destruct (_ || _); [|reflexivity]. destruct (get sd (p ++ name)); reflexivity. Qed.
Lemma copy_fst sd p t : fst (copy_step sd p t) = fst t.
Proof. destruct t as [name x]. cbn. destruct (get sd (p ++ name)) as [v|]; [|reflexivity]. destruct (shape_eqb _ _); reflexivity. Qed.
Definition resized (k : string) : Prop := k = "scale" \/ k = "zero_point".
Lemma resized_eqb k : (String.eqb k "scale" || String.eqb k "zero_point") = true <-> resized k.
Proof. unfold resized. rewrite orb_true_iff, !String.eqb_eq. tauto. Qed.

(** What a tensor is after loading. *)
Lemma get_after junk sd p strict q k : get (after (load junk sd p strict q)) k =
  match get q k with Some x => Some (snd (copy_step sd p (own_step junk sd p (k, x)))) | None => None end.
Proof.
  cbn [after load]. rewrite (get_map (copy_step sd p)) by apply copy_fst. rewrite (get_map (own_step junk sd p)) by apply own_fst. destruct (get q k) as [x|]; [|reflexivity].
  pose proof (own_fst sd p junk (k, x)) as E. destruct (own_step junk sd p (k, x)) as [k' x'] eqn:Eo. cbn in E. subst k'. reflexivity.
Qed.

(** Scale and zero point are taken from the state, whatever shape they had before; another
    tensor is taken if it has the right shape; otherwise it stays as it is. *)
Theorem C255_values : forall junk sd p strict q k x, named q k x ->
  (forall v, named sd (p ++ k)%string v -> resized k \/ shape v = shape x -> named (after (load junk sd p strict q)) k v) /\
  (forall v, named sd (p ++ k)%string v -> ~ resized k -> shape v <> shape x -> named (after (load junk sd p strict q)) k x) /\
  (~ In (p ++ k)%string (map fst sd) -> named (after (load junk sd p strict q)) k x).
Proof.
  intros junk sd p strict q k x Hx. apply get_named in Hx. split; [|split].
  - intros v Hv C. apply get_named in Hv. apply get_named. rewrite get_after, Hx. cbn [own_step]. f_equal. destruct (String.eqb k "scale" || String.eqb k "zero_point") eqn:E.
    + rewrite Hv. cbn [copy_step]. rewrite Hv. cbn [shape resize]. rewrite (proj2 (shape_eqb_eq _ _) eq_refl). reflexivity.
    + destruct C as [C|C]; [apply resized_eqb in C; congruence|]. cbn [copy_step]. rewrite Hv. rewrite (proj2 (shape_eqb_eq _ _) C). reflexivity.
  - intros v Hv C D. apply get_named in Hv. apply get_named. rewrite get_after, Hx. cbn [own_step]. f_equal. destruct (String.eqb k "scale" || String.eqb k "zero_point") eqn:E; [apply resized_eqb in E; tauto|].
    cbn [copy_step]. rewrite Hv. destruct (shape_eqb (shape v) (shape x)) eqn:E2; [apply shape_eqb_eq in E2; tauto|]. reflexivity.
  - intros N. apply get_none in N. apply get_named. rewrite get_after, Hx. cbn [own_step]. f_equal. destruct (_ || _); [rewrite N|]; cbn [copy_step]; rewrite N; reflexivity.
Qed.
Definition vec (l : list Q) : tensor := {| shape := [length l]; vals := l |}.
Definition fresh : dict := [("scale", vec [1]); ("zero_point", vec [0]); ("fake_quant_enabled", vec [1]); ("static_enabled", vec [1]); ("learning_enabled", vec [0]); ("eps", vec [1 # 8388608])]%Q.
Definition trained : dict := [("scale", vec [1 # 2; 3; 5 # 4]); ("zero_point", vec [4; 5; 6]); ("fake_quant_enabled", vec [1]); ("static_enabled", vec [0]); ("learning_enabled", vec [1]); ("eps", vec [1 # 8388608])]%Q.
Example C255_values_ex : named fresh "scale" (vec [1]%Q) /\ named (state_dict "w." trained) ("w." ++ "scale")%string (vec [1 # 2; 3; 5 # 4]%Q) /\ resized "scale" /\
  get (after (load 7 (state_dict "w." trained) "w." true fresh)) "scale" = Some (vec [1 # 2; 3; 5 # 4]%Q).
Proof. repeat split; [apply get_named; reflexivity|apply get_named; reflexivity|left; reflexivity]. Qed.

(** An error is noted exactly for the tensors that are not resized and have another shape. *)
Theorem C255_errors : forall junk sd p strict q e, In e (error_msgs (load junk sd p strict q)) <->
  exists k x v, In (k, x) q /\ e = (p ++ k)%string /\ named sd e v /\ ~ resized k /\ shape v <> shape x.
Proof.
  intros junk sd p strict q e. cbn [error_msgs load]. rewrite in_flat_map. split.
  - intros (t & I & H). apply in_map_iff in I as ((k & x) & <- & I). cbn [own_step] in H.
    destruct (String.eqb k "scale" || String.eqb k "zero_point") eqn:E.
    + exfalso. destruct (get sd (p ++ k)) as [v|] eqn:G; cbn [copy_errors] in H; rewrite G in H; [|exact H]. cbn [shape resize] in H. rewrite (proj2 (shape_eqb_eq _ _) eq_refl) in H. exact H.
    + cbn [copy_errors] in H. destruct (get sd (p ++ k)) as [v|] eqn:G; [|destruct H]. destruct (shape_eqb (shape v) (shape x)) eqn:S2; [destruct H|]. destruct H as [<-|[]].
      exists k, x, v. split; [exact I|]. split; [reflexivity|]. split; [apply get_named; exact G|]. split; [intros R; apply resized_eqb in R; congruence|]. intros S3. apply shape_eqb_eq in S3. congruence.
  - intros (k & x & v & I & -> & Hv & R & Sh). apply get_named in Hv. exists (k, x). split; [apply in_map_iff; exists (k, x); split; [|exact I]|].
    + cbn [own_step]. destruct (_ || _) eqn:E; [apply resized_eqb in E; tauto|reflexivity].
    + cbn [copy_errors]. rewrite Hv. destruct (shape_eqb _ _) eqn:E; [apply shape_eqb_eq in E; tauto|left; reflexivity].
Qed.
Example C255_errors_ex : error_msgs (load 7 [("w.scale", vec [1; 2]%Q); ("w.eps", vec [1; 2]%Q)] "w." true fresh) = ["w.eps"].
Proof. reflexivity. Qed.

(** Missing keys. *)
Theorem C255_missing : forall junk sd p q e, incl ["scale"; "zero_point"] (map fst q) ->
  (In e (missing_keys (load junk sd p true q)) <-> exists k, In k (map fst q) /\ e = (p ++ k)%string /\ ~ In e (map fst sd)) /\ missing_keys (load junk sd p false q) = [].
Proof.
  intros junk sd p q e Inc. assert (Fst : forall t, fst (own_step junk sd p t) = fst t) by (intros t; apply own_fst). cbn [missing_keys load]. split.
  - rewrite in_app_iff. split.
    + intros [H|H].
      * unfold own_missing in H. apply in_flat_map in H as (k & I & H). destruct (get sd (p ++ k)) eqn:G; [destruct H|]. destruct H as [<-|[]]. exists k. split; [apply Inc; exact I|]. split; [reflexivity|]. apply get_none. exact G.
      * apply in_flat_map in H as (t & I & H). apply in_map_iff in I as (t0 & <- & I). pose proof (Fst t0) as F. destruct (own_step junk sd p t0) as [k x]. cbn [fst] in F. cbn [copy_missing] in H.
        destruct (get sd (p ++ k)) eqn:G; [destruct H|]. destruct H as [<-|[]]. exists k. split; [rewrite F; apply in_map; exact I|]. split; [reflexivity|]. apply get_none. exact G.
    + intros (k & I & -> & N). right. apply in_map_iff in I as (t0 & <- & I). apply in_flat_map. exists (own_step junk sd p t0). split; [apply in_map; exact I|]. pose proof (Fst t0) as F. destruct (own_step junk sd p t0) as [k x].
      cbn [fst] in F. subst k. cbn [copy_missing]. apply get_none in N. rewrite N. left. reflexivity.
  - assert (E : forall l, flat_map (copy_missing sd p false) (map (own_step junk sd p) l) = []).
    { induction l as [|u l IH]; [reflexivity|]. cbn [map flat_map]. rewrite IH. destruct (own_step junk sd p u) as [k x]. cbn [copy_missing]. destruct (get sd (p ++ k)); reflexivity. }
    rewrite E. unfold own_missing. cbn [flat_map]. destruct (get sd (p ++ "scale")), (get sd (p ++ "zero_point")); reflexivity.
Qed.
(** A missing key should be reported once; scale and zero point are reported twice, by this
    class and by torch. *)
Definition C255_once_claim : Prop := forall junk sd p q, map fst q = names -> NoDup (missing_keys (load junk sd p true q)).
Theorem C255_once_refuted : ~ C255_once_claim.
Proof.
  intros H. specialize (H 0%Q [] "" fresh eq_refl). vm_compute in H. inversion H as [|x l N _]; subst. apply N. cbn. tauto.
Qed.
Example C255_missing_ex : missing_keys (load 0 (state_dict "w." (tl trained)) "w." true fresh) = ["w.scale"; "w.scale"].
Proof. reflexivity. Qed.

(** ** Saving and loading *)
Lemma append_inj p a b : (p ++ a = p ++ b)%string -> a = b.
Proof. induction p as [|c p IH]; cbn; intros E; [exact E|]. injection E as E. apply IH. exact E. Qed.
Lemma get_state p q k : get (state_dict p q) (p ++ k) = get q k.
Proof.
  induction q as [|[k' x] q IH]; [reflexivity|]. cbn [state_dict map get fst snd]. destruct (String.eqb_spec k k') as [->|N]; [rewrite String.eqb_refl; reflexivity|].
  destruct (String.eqb_spec (p ++ k) (p ++ k')) as [E|_]; [apply append_inj in E; tauto|]. exact IH.
Qed.
Lemma get_in q k x : NoDup (map fst q) -> In (k, x) q -> get q k = Some x.
Proof.
  induction q as [|[k' x'] q IH]; intros N I; [destruct I|]. cbn [map fst] in N. inversion N as [|a b N1 N2]; subst. cbn [get]. destruct I as [E|I].
  - injection E as -> ->. rewrite String.eqb_refl. reflexivity.
  - destruct (String.eqb_spec k k') as [->|_]; [exfalso; apply N1; apply (in_map fst) in I; exact I|apply IH; assumption].
Qed.
Lemma copy_own_id junk sd p t v : get sd (p ++ fst t) = Some v -> resized (fst t) \/ shape v = shape (snd t) -> copy_step sd p (own_step junk sd p t) = (fst t, v).
Proof.
  destruct t as [k x]. cbn [fst snd]. intros G C. cbn [own_step]. destruct (String.eqb k "scale" || String.eqb k "zero_point") eqn:E.
  - rewrite G. cbn [copy_step]. rewrite G. cbn [shape resize]. rewrite (proj2 (shape_eqb_eq _ _) eq_refl). reflexivity.
  - destruct C as [C|C]; [apply resized_eqb in C; congruence|]. cbn [copy_step]. rewrite G, (proj2 (shape_eqb_eq _ _) C). reflexivity.
Qed.
Lemma prefix_app p s : String.prefix p (p ++ s) = true.
Proof. induction p as [|c p IH]; [destruct s; reflexivity|]. cbn. destruct (ascii_dec c c) as [_|N]; [exact IH|congruence]. Qed.
Lemma drop_app p s : drop (String.length p) (p ++ s) = s.
Proof. induction p as [|c p IH]; [reflexivity|]. cbn. exact IH. Qed.

(** The state of any quantizer, of any shape, can be loaded into any other, and nothing is
    missing, unexpected or wrong. *)
Theorem C255_roundtrip : forall junk p strict q q', map fst q = names -> map fst q' = names ->
  (forall k x x', named q k x -> named q' k x' -> resized k \/ shape x = shape x') ->
  load junk (state_dict p q) p strict q' = {| after := q; missing_keys := []; unexpected_keys := []; error_msgs := [] |}.
Proof.
  intros junk p strict q q' Nq Nq' Sh.
  assert (ND : NoDup names) by (unfold names; repeat constructor; cbn; intuition congruence).
  assert (Len : length q = length q') by (rewrite <- (map_length fst q), <- (map_length fst q'), Nq, Nq'; reflexivity).
  assert (NDq : NoDup (map fst q)) by (rewrite Nq; exact ND). assert (NDq' : NoDup (map fst q')) by (rewrite Nq'; exact ND).
  assert (Has : forall k, In k (map fst q') -> exists x, get (state_dict p q) (p ++ k) = Some x /\ In (k, x) q).
  { intros k I. rewrite Nq', <- Nq in I. apply in_map_iff in I as ((k2 & x) & E & I). cbn in E. subst k2. exists x. split; [rewrite get_state; apply get_in; assumption|exact I]. }
  assert (Fst : map fst (map (own_step junk (state_dict p q) p) q') = map fst q') by (rewrite map_map; apply map_ext; intros t; apply own_fst).
  unfold load. f_equal.
  - rewrite map_map. assert (E : map (fun t => (fst t, match get q (fst t) with Some x => x | None => snd t end)) q' = q).
    { clear Sh Has Fst. assert (G : forall l l', map fst l = map fst l' -> (forall k x, In (k, x) l -> get q k = Some x) -> map (fun t : string * tensor => (fst t, match get q (fst t) with Some x => x | None => snd t end)) l' = l).
      { induction l as [|[k x] l IH]; intros [|[k' x'] l'] E G; cbn in E; try discriminate E; [reflexivity|]. injection E as -> E. cbn [map fst snd]. rewrite (G k' x) by (left; reflexivity). f_equal. apply IH; [exact E|]. intros a b I. apply G. right. exact I. }
      apply G; [congruence|]. intros k x I. apply get_in; assumption. }
    etransitivity; [|exact E]. apply map_ext_in. intros t I. destruct (Has (fst t) (in_map fst _ _ I)) as (x & G & Ix). rewrite (copy_own_id junk _ p t x G).
    + f_equal. rewrite (get_in q (fst t) x NDq Ix). reflexivity.
    + destruct t as [k y]. cbn [fst snd]. apply (Sh k x y); apply get_named; apply get_in; assumption.
  - unfold own_missing. cbn [flat_map]. destruct (Has "scale") as (x & G & _); [rewrite Nq'; left; reflexivity|]. rewrite G. destruct (Has "zero_point") as (z & Gz & _); [rewrite Nq'; right; left; reflexivity|]. rewrite Gz. cbn [app].
    assert (E : forall l, incl (map fst l) (map fst q') -> flat_map (copy_missing (state_dict p q) p strict) l = []).
    { induction l as [|[k y] l IH]; intros Inc; [reflexivity|]. cbn [flat_map copy_missing]. destruct (Has k) as (v & Gv & _); [apply Inc; left; reflexivity|]. rewrite Gv. cbn [app]. apply IH. intros a I. apply Inc. right. exact I. }
    apply E. rewrite Fst. apply incl_refl.
  - unfold unexpected. destruct strict; [|reflexivity]. rewrite Fst, Nq'. unfold state_dict. rewrite map_map. cbn [fst].
    assert (E : forall l, incl l names -> filter (fun k => String.prefix p k && negb (existsb (String.eqb (component (drop (String.length p) k))) (children ++ names))) (map (fun k => (p ++ k)%string) l) = []).
    { induction l as [|k l IH]; intros Inc; [reflexivity|]. cbn [map filter]. rewrite prefix_app, drop_app. assert (Ik : In k names) by (apply Inc; left; reflexivity).
      replace (existsb (String.eqb (component k)) (children ++ names)) with true; [cbn [negb andb]; apply IH; intros a I; apply Inc; right; exact I|].
      unfold names in Ik. cbn in Ik. destruct Ik as [<-|[<-|[<-|[<-|[<-|[<-|[]]]]]]]; reflexivity. }
    rewrite <- (map_map fst (fun k => (p ++ k)%string)). apply E. rewrite Nq. apply incl_refl.
  - assert (E : forall l, (forall t, In t l -> In t q') -> flat_map (copy_errors (state_dict p q) p) (map (own_step junk (state_dict p q) p) l) = []).
    { induction l as [|[k y] l IH]; intros Inc; [reflexivity|]. cbn [map flat_map]. rewrite IH by (intros t I; apply Inc; right; exact I). rewrite app_nil_r.
      assert (Iy : In (k, y) q') by (apply Inc; left; reflexivity). destruct (Has k (in_map fst _ _ Iy)) as (v & Gv & Iv). cbn [own_step].
      destruct (String.eqb k "scale" || String.eqb k "zero_point") eqn:E.
      - rewrite Gv. cbn [copy_errors]. rewrite Gv. cbn [shape resize]. rewrite (proj2 (shape_eqb_eq _ _) eq_refl). reflexivity.
      - cbn [copy_errors]. rewrite Gv. destruct (Sh k v y) as [R|R]; [apply get_named, get_in; assumption|apply get_named, get_in; assumption|apply resized_eqb in R; congruence|]. rewrite (proj2 (shape_eqb_eq _ _) R). reflexivity. }
    apply E. tauto.
Qed.
Example C255_roundtrip_ex : map fst trained = names /\ map fst fresh = names /\ (forall k x x', named trained k x -> named fresh k x' -> resized k \/ shape x = shape x') /\
  after (load 7 (state_dict "act." trained) "act." true fresh) = trained.
Proof.
  split; [reflexivity|]. split; [reflexivity|]. split; [|reflexivity]. intros k x x' H H'. unfold resized.
  unfold trained, fresh in *. repeat (match goal with A : named (_ :: _) _ _ |- _ => inversion A; clear A; subst end; try tauto; try congruence; try (right; reflexivity)).
  all: match goal with A : named [] _ _ |- _ => inversion A end.
Qed.
Print Assumptions C255_values.
Print Assumptions C255_errors.
Print Assumptions C255_missing.
Print Assumptions C255_once_refuted.
Print Assumptions C255_roundtrip.
