(** C79: what the forward passes of the operation and route mutables compute. *)
From Verif Require Import Prelude Module_Model Module_Props.
From Coq Require Import Sorting.Permutation.

(** The specification adds up outputs in any order: outputs form a commutative monoid
    (tensors of one shape under addition, in exact arithmetic). *)
Section Forward.
Variables X Y : Type.
Variable add : Y -> Y -> Y.
Variable zero : Y.
Hypothesis add_assoc : forall a b c, add a (add b c) = add (add a b) c.
Hypothesis add_comm : forall a b, add a b = add b a.
Hypothesis add_zero : forall a, add zero a = a.

(** Specification: the total of a family of outputs, independent of the order. *)
Inductive total : list Y -> Y -> Prop :=
| total_nil : total [] zero
| total_cons y l s : total l s -> total (y :: l) (add y s)
| total_perm l l' s : Permutation l l' -> total l s -> total l' s.

Lemma sum_acc l : forall a, fold_left add l a = add a (fold_left add l zero).
Proof.
  induction l as [|y l IH]; intros a; cbn.
  - rewrite add_comm, add_zero. reflexivity.
  - rewrite IH, (IH (add zero y)), add_zero, add_assoc. reflexivity.
Qed.
Lemma sum_cons y l : sum_ add zero (y :: l) = add y (sum_ add zero l).
Proof. unfold sum_. cbn. rewrite sum_acc, add_zero. reflexivity. Qed.
Lemma sum_perm l l' : Permutation l l' -> sum_ add zero l = sum_ add zero l'.
Proof.
  induction 1 as [|y l l' _ IH|y z l|l l' l'' _ IH1 _ IH2].
  - reflexivity.
  - rewrite !sum_cons, IH. reflexivity.
  - rewrite !sum_cons, !add_assoc, (add_comm y z). reflexivity.
  - congruence.
Qed.
Lemma sum_total l y : total l y <-> y = sum_ add zero l.
Proof.
  split.
  - induction 1 as [|y l s _ IH|l l' s Hp _ IH].
    + reflexivity.
    + rewrite sum_cons, IH. reflexivity.
    + rewrite IH. apply sum_perm, Hp.
  - intros ->. induction l as [|y l IH]; [apply total_nil|]. rewrite sum_cons. apply total_cons, IH.
Qed.

(** ** One-shot operations *)

(** With no choice set, the forward pass runs every candidate and adds the outputs. *)
Theorem C79_oneshot_all :
  forall (cs : list (string * (X -> Y))) x,
  exists y, oneshot_forward add zero (new_oneshot_op cs) x = Ok y /\
            total (map (fun p => snd p x) cs) y.
Proof.
  intros cs x. eexists. split; [reflexivity|]. apply sum_total. reflexivity.
Qed.

(** ** Differentiable operations *)
Variable scale : Q -> Y -> Y.
Hypothesis scale_0 : forall p y, (p == 0)%Q -> scale p y = zero.
Hypothesis scale_1 : forall p y, (p == 1)%Q -> scale p y = y.

Definition new_diff_op (cs : list (string * (X -> Y))) : diff_op X Y :=
  {| d_cands := cs; d_chosen := None; d_fixed := false |}.

(** For non-negative weights the result is the weighted sum over all candidates: skipping
    the candidates of weight zero is not observable. *)
Theorem C79_weighted :
  forall cs ps x, length ps = length cs -> Forall (fun p => 0 <= p)%Q ps ->
    total (map (fun pc => scale (fst pc) (snd (snd pc) x)) (combine ps cs))
          (diff_forward_arch add zero scale (new_diff_op cs) ps x).
Proof.
  intros cs ps x _ Hp. apply sum_total. unfold diff_forward_arch. cbn [d_cands new_diff_op].
  revert cs. induction Hp as [|p ps H0 _ IH]; intros cs; [reflexivity|].
  destruct cs as [|c cs]; [reflexivity|]. cbn [combine flat_map map fst snd].
  rewrite sum_cons, <- IH. destruct (Qle_bool p 0) eqn:E.
  - apply Qle_bool_iff in E. rewrite scale_0, add_zero; [reflexivity|]. apply Qle_antisym; assumption.
  - cbn [app]. apply sum_cons.
Qed.

(** A candidate of weight zero is not run at all: replacing its function by any other one
    cannot be seen in the result. *)
Theorem C79_zero_not_run :
  forall cs cs' ps x, length cs = length cs' ->
    (forall i p c c', nth_error ps i = Some p -> nth_error cs i = Some c ->
       nth_error cs' i = Some c' -> (0 < p)%Q -> snd c x = snd c' x) ->
    diff_forward_arch add zero scale (new_diff_op cs) ps x
    = diff_forward_arch add zero scale (new_diff_op cs') ps x.
Proof.
  intros cs cs' ps x. unfold diff_forward_arch. cbn [d_cands new_diff_op]. intros Hl H. f_equal.
  revert cs cs' Hl H. induction ps as [|p ps IH]; intros cs cs' Hl H; [reflexivity|].
  destruct cs as [|c cs], cs' as [|c' cs']; try discriminate; [reflexivity|].
  cbn [combine flat_map fst snd]. f_equal.
  - destruct (Qle_bool p 0) eqn:E; [reflexivity|].
    rewrite (H 0%nat p c c' eq_refl eq_refl eq_refl); [reflexivity|].
    apply Qnot_le_lt. intros F. apply Qle_bool_iff in F. congruence.
  - apply IH; [cbn in Hl; lia|]. intros i q d d' H1 H2 H3. apply (H (S i) q d d' H1 H2 H3).
Qed.

(** Fixing keeps exactly the chosen candidates, in their order, and the fixed forward pass
    adds the outputs of the chosen ones. *)
Theorem C79_diff_fix :
  forall cs ch x, NoDup (map fst cs) -> NoDup ch -> incl ch (map fst cs) ->
  exists o, diff_fix (new_diff_op cs) ch = (o, Ok tt) /\
    (forall nf, In nf (d_cands o) <-> In nf cs /\ In (fst nf) ch) /\ NoDup (map fst (d_cands o)) /\
    exists y, diff_forward_fixed add zero o x = Ok y /\
      total (map (fun nf => snd nf x) (filter (fun nf => if in_dec string_dec (fst nf) ch then true else false) cs)) y.
Proof.
  intros cs ch x Hnd Hch Hin. eexists. split; [reflexivity|]. cbn [d_cands new_diff_op].
  rewrite pop_names.
  assert (Hs : forall c, str_in c ch = true <-> In c ch).
  { intros c. unfold str_in. rewrite existsb_exists. split.
    - intros (d & Hd & He). apply String.eqb_eq in He. congruence.
    - intros H. exists c. split; [exact H|apply String.eqb_refl]. }
  assert (Hf : filter (fun p => str_in (fst p) ch) cs
      = filter (fun nf : string * (X -> Y) => if in_dec string_dec (fst nf) ch then true else false) cs).
  { apply filter_ext. intros nf. destruct (in_dec string_dec (fst nf) ch) as [H|H].
    - apply Hs. exact H.
    - destruct (str_in (fst nf) ch) eqn:E; [|reflexivity]. apply Hs in E. contradiction. }
  split; [|split].
  - intros nf. rewrite filter_In, Hs. reflexivity.
  - clear - Hnd. induction cs as [|p cs IH]; [constructor|]. cbn in *. inversion Hnd as [|? ? Hni Hnd']; subst.
    destruct (str_in (fst p) ch); [|apply IH, Hnd']. cbn. constructor; [|apply IH, Hnd'].
    intros H. apply Hni. apply in_map_iff in H as (q & Hq & H). apply filter_In in H as [H _].
    rewrite <- Hq. apply in_map, H.
  - unfold diff_forward_fixed. cbn [d_chosen d_cands].
    assert (Hlk : forall c, In c ch -> exists f, In (c, f) cs /\ lookup c (filter (fun p => str_in (fst p) ch) cs) = Some f).
    { intros c Hc. pose proof (Hin c Hc) as Hn. apply in_map_iff in Hn as ([n f] & Hn & Hi). cbn in Hn. subst n.
      exists f. split; [exact Hi|]. rewrite (lookup_filter (fun y => str_in y ch)) by (apply Hs; exact Hc).
      apply lookup_in; assumption. }
    set (F := fun c => lookup c (filter (fun p => str_in (fst p) ch) cs)) in *.
    assert (Hm : forall l, (forall c, In c l -> exists f, F c = Some f) ->
        mapM (fun c => match F c with Some f => Ok (f x) | None => Raise KeyError end) l
        = Ok (map (fun nf => snd nf x) (map (fun c => (c, match F c with Some f => f | None => fun _ => zero end)) l))).
    { clearbody F. clear. induction l as [|c r IH]; intros H; [reflexivity|].
      destruct (H c (or_introl eq_refl)) as (f & E). cbn [mapM map].
      rewrite IH by (intros; apply H; right; assumption). rewrite E. reflexivity. }
    assert (E1 := Hm ch (fun c Hc => match Hlk c Hc with ex_intro _ f (conj _ E) => ex_intro _ f E end)).
    remember (map (fun nf => snd nf x) (map (fun c => (c, match F c with Some f => f | None => fun _ => zero end)) ch)) as ys eqn:E2.
    exists (sum_ add zero ys). split.
    + change (bind (mapM (fun c => match F c with Some f => Ok (f x) | None => Raise KeyError end) ch)
                (fun ys0 => Ok (sum_ add zero ys0)) = Ok (sum_ add zero ys)). rewrite E1. reflexivity.
    + apply total_perm with ys; [|apply sum_total; reflexivity]. rewrite E2, <- Hf. apply Permutation_map.
      apply NoDup_Permutation.
      * apply FinFun.Injective_map_NoDup; [|exact Hch]. intros a b H. inversion H. reflexivity.
      * apply NoDup_filter. apply NoDup_map_inv with (f := fst). exact Hnd.
      * intros [c f]. rewrite in_map_iff, filter_In, Hs. cbn [fst]. split.
        -- intros (c' & H & Hc). destruct (Hlk c' Hc) as (f' & Hi & E). unfold F in H.
           rewrite E in H. inversion H; subst. auto.
        -- intros [Hi Hc]. exists c. split; [|exact Hc]. destruct (Hlk c Hc) as (f' & Hi' & E).
           unfold F. rewrite E. f_equal.
           pose proof (lookup_in _ _ _ Hnd Hi) as L1. pose proof (lookup_in _ _ _ Hnd Hi') as L2. congruence.
Qed.

(** One-hot weights: the forward pass is the sampled candidate's, and equals the forward
    pass after fixing that candidate. *)
Theorem C79_one_hot :
  forall cs i c f x ps, NoDup (map fst cs) -> nth_error cs i = Some (c, f) ->
    length ps = length cs ->
    (forall j p, nth_error ps j = Some p -> (p == if Nat.eqb j i then 1 else 0)%Q) ->
    diff_forward_arch add zero scale (new_diff_op cs) ps x = f x /\
    exists o, diff_fix (new_diff_op cs) [c] = (o, Ok tt) /\ diff_forward_fixed add zero o x = Ok (f x).
Proof.
  intros cs i c f x ps Hnd Hi Hl Hp. split.
  - assert (Hpos : Forall (fun p => 0 <= p)%Q ps).
    { apply Forall_forall. intros p Hin. apply In_nth_error in Hin as (j & Hj). rewrite (Hp j p Hj).
      destruct (Nat.eqb j i); discriminate. }
    pose proof (C79_weighted cs ps x Hl Hpos) as T. apply sum_total in T. rewrite T. clear T Hnd Hpos.
    revert cs i Hi Hl Hp. induction ps as [|p ps IH]; intros cs i Hi Hl Hp.
    + destruct cs; [destruct i|]; discriminate.
    + destruct cs as [|nf cs]; [discriminate|]. cbn [combine map fst snd]. rewrite sum_cons.
      destruct i as [|i].
      * cbn in Hi. inversion Hi; subst nf. cbn [snd]. rewrite scale_1 by exact (Hp 0%nat p eq_refl).
        assert (Z : forall (l : list Q) (ds : list (string * (X -> Y))), (forall j q, nth_error l j = Some q -> (q == 0)%Q) ->
           sum_ add zero (map (fun pc => scale (fst pc) (snd (snd pc) x)) (combine l ds)) = zero).
        { induction l as [|q l IHl]; intros ds H; [reflexivity|]. destruct ds as [|d ds]; [reflexivity|].
          cbn [combine map fst snd]. rewrite sum_cons, (scale_0 q) by exact (H 0%nat q eq_refl).
          rewrite add_zero. apply IHl. intros j r Hr. exact (H (S j) r Hr). }
        rewrite Z; [rewrite add_comm; apply add_zero|]. intros j q Hq. exact (Hp (S j) q Hq).
      * rewrite (scale_0 p) by exact (Hp 0%nat p eq_refl). rewrite add_zero.
        apply (IH cs i); [exact Hi|cbn in Hl; lia|]. intros j q Hq. exact (Hp (S j) q Hq).
  - assert (Hin : In (c, f) cs) by (eapply nth_error_In; eauto).
    eexists. split; [reflexivity|]. cbn [d_cands new_diff_op]. rewrite pop_names.
    unfold diff_forward_fixed. cbn [d_chosen d_cands mapM].
    rewrite (lookup_filter (fun y => str_in y [c])) by (cbn; rewrite String.eqb_refl; reflexivity).
    rewrite (lookup_in _ _ _ Hnd Hin). cbn [bind]. unfold sum_. cbn. rewrite add_zero. reflexivity.
Qed.

(** ** Choice routes *)

(** Running all edges needs one input per edge, and adds every edge applied to its input. *)
Theorem C79_route_all :
  forall (es : list (string * (X -> Y))) xs,
    (length xs <> length es -> route_forward_all add zero (new_route es) xs = Raise AssertionError) /\
    (length xs = length es -> exists y, route_forward_all add zero (new_route es) xs = Ok y /\
       total (map (fun ex => snd (fst ex) (snd ex)) (combine es xs)) y).
Proof.
  intros es xs. unfold route_forward_all. cbn [r_cands new_route]. split; intros H.
  - destruct (Nat.eqb_spec (length xs) (length es)); [contradiction|reflexivity].
  - rewrite H, Nat.eqb_refl. eexists. split; [reflexivity|]. apply sum_total. reflexivity.
Qed.

(** Sampling returns the [k] edges of largest architecture parameter. *)
Theorem C79_route_sample :
  forall (es : list (string * (X -> Y))) (param : nat -> Q) k order,
    Permutation order (seq 0 (length es)) ->
    (forall a b i j, (a < b)%nat -> nth_error order a = Some i -> nth_error order b = Some j -> (param j <= param i)%Q) ->
    exists sel, route_sample (new_route es) k order = map (fun i => nth i (map fst es) EmptyString) sel /\
      NoDup sel /\ length sel = Nat.min k (length es) /\
      (forall i, In i sel -> (i < length es)%nat) /\
      (forall i j, In i sel -> (j < length es)%nat -> ~ In j sel -> (param j <= param i)%Q).
Proof.
  intros es param k order Hp Hs. exists (firstn k order).
  assert (Hlt : forall i, In i order -> (i < length es)%nat).
  { intros i Hi. apply (Permutation_in _ Hp) in Hi. apply in_seq in Hi. lia. }
  assert (Hnd : NoDup order) by (apply (Permutation_NoDup (Permutation_sym Hp)), seq_NoDup).
  assert (Hpre : forall i, In i (firstn k order) -> In i order).
  { intros i Hi. rewrite <- (firstn_skipn k order). apply in_or_app. left. exact Hi. }
  split; [|split; [|split; [|split]]].
  - unfold route_sample, names. cbn [r_cands new_route].
    assert (H : forall i, In i (firstn k order) -> (i < length es)%nat) by auto.
    clear - H. induction (firstn k order) as [|i l IH]; [reflexivity|]. cbn [flat_map map].
    rewrite IH by (intros; apply H; right; assumption).
    rewrite (nth_error_nth' (map fst es) EmptyString); [reflexivity|].
    rewrite map_length. apply H. left. reflexivity.
  - rewrite <- (firstn_skipn k order) in Hnd. revert Hnd. generalize (firstn k order). clear.
    induction l as [|i l IH]; intros H; [constructor|]. cbn in H. inversion H as [|? ? Hi Hr]; subst.
    constructor; [|apply IH, Hr]. intros F. apply Hi, in_or_app. left. exact F.
  - rewrite firstn_length, (Permutation_length Hp), seq_length. reflexivity.
  - auto.
  - intros i j Hi Hj Hni.
    assert (Hjo : In j order) by (apply (Permutation_in _ (Permutation_sym Hp)), in_seq; lia).
    rewrite <- (firstn_skipn k order) in Hjo. apply in_app_or in Hjo as [Hjo|Hjo]; [contradiction|].
    apply In_nth_error in Hi as (a & Ha). apply In_nth_error in Hjo as (b & Hb).
    assert (Hak : (a < length (firstn k order))%nat) by (apply nth_error_Some; congruence).
    apply (Hs a (length (firstn k order) + b)%nat); [lia| |].
    + rewrite <- (firstn_skipn k order), nth_error_app1 by exact Hak. exact Ha.
    + rewrite <- (firstn_skipn k order) at 1. rewrite nth_error_app2 by lia.
      replace (length (firstn k order) + b - length (firstn k order))%nat with b by lia. exact Hb.
Qed.
End Forward.
Print Assumptions C79_oneshot_all.
Print Assumptions C79_weighted.
Print Assumptions C79_zero_not_run.
Print Assumptions C79_diff_fix.
Print Assumptions C79_one_hot.
Print Assumptions C79_route_all.
Print Assumptions C79_route_sample.

(** Three operations on integers; scaling by 0 and 1 behaves as required (integers are
    scaled by the numerator and denominator of the weight). *)
Definition ex_ops : list (string * (Z -> Z)) :=
  [("conv"%string, fun x => x + 1); ("pool"%string, fun x => 2 * x); ("skip"%string, fun x => x)].
Definition ex_scale (p : Q) (y : Z) : Z := (Qnum (Qred p) * y) / Z.pos (Qden (Qred p)).
Example C79_example_laws :
  (forall p y, (p == 0)%Q -> ex_scale p y = 0) /\ (forall p y, (p == 1)%Q -> ex_scale p y = y).
Proof.
  unfold ex_scale. split; intros p y H; rewrite (Qred_complete _ _ H); cbn; [reflexivity|].
  destruct y; reflexivity || (rewrite Z.div_1_r; reflexivity).
Qed.
Example C79_example_ops :
  oneshot_forward Z.add 0 (new_oneshot_op ex_ops) 5 = Ok 21 /\
  diff_forward_arch Z.add 0 ex_scale (new_diff_op _ _ ex_ops) [2#1; 0#1; 1#1]%Q 5 = 17 /\
  diff_forward_fixed Z.add 0 (fst (diff_fix (new_diff_op _ _ ex_ops) ["skip"; "conv"]%string)) 5 = Ok 11 /\
  names (d_cands (fst (diff_fix (new_diff_op _ _ ex_ops) ["skip"; "conv"]%string))) = ["conv"; "skip"]%string /\
  diff_forward_arch Z.add 0 ex_scale (new_diff_op _ _ ex_ops) [0#1; 1#1; 0#1]%Q 5 = 10.
Proof. repeat split; vm_compute; reflexivity. Qed.
Example C79_example_route :
  route_forward_all Z.add 0 (new_route ex_ops) [1; 2; 3] = Ok 9 /\
  route_forward_all Z.add 0 (new_route ex_ops) [1; 2] = Raise AssertionError /\
  (* parameters 0.1, 0.7, 0.2 *)
  route_sample (new_route ex_ops) 2 [1; 2; 0]%nat = ["pool"; "skip"]%string.
Proof. repeat split; vm_compute; reflexivity. Qed.
