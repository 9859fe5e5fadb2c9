(** C30, C31, C32, C65. *)
From Coq Require Import Lqa Qfield.
From Verif Require Import Prelude Recorder_Model Recorder_Props Estimator_Model.

(** * C31: layer costs *)
(** Textbook cost, counted operation by operation. *)
Fixpoint sumn (n : nat) (f : nat -> Z) : Z := match n with O => 0 | S m => f m + sumn m f end.
Definition textbook_conv (c : conv) (batch : Z) (dims : list Z) : Z :=
  sumn (Z.to_nat batch) (fun _ => sumn (Z.to_nat (prodZ dims)) (fun _ => sumn (Z.to_nat (cv_out c)) (fun _ =>
    prodZ (cv_kernel c) * (cv_in c / cv_groups c) + (if cv_bias c then 1 else 0)))).
(** A transposed convolution: every input element is multiplied into prod(k) positions of the
    out/groups output channels of its group; every output element gets one bias addition. *)
Definition textbook_deconv (c : conv) (batch ih iw oh ow : Z) : Z :=
  sumn (Z.to_nat batch) (fun _ =>
    sumn (Z.to_nat (ih * iw)) (fun _ => sumn (Z.to_nat (cv_in c)) (fun _ => prodZ (cv_kernel c) * (cv_out c / cv_groups c)))
    + (if cv_bias c then sumn (Z.to_nat (oh * ow)) (fun _ => sumn (Z.to_nat (cv_out c)) (fun _ => 1)) else 0)).
Definition wf_conv (c : conv) : Prop :=
  0 < cv_groups c /\ 0 <= cv_in c /\ 0 <= cv_out c /\ (cv_groups c | cv_in c) /\ (cv_groups c | cv_out c).

Lemma inj0 z : (inject_Z z == 0)%Q -> z = 0.
Proof. unfold Qeq. cbn. lia. Qed.
Lemma sumn_const n k : sumn n (fun _ => k) = Z.of_nat n * k.
Proof. induction n; [reflexivity|]. cbn [sumn]. rewrite IHn. lia. Qed.

Theorem C31_conv :
  forall c batch dims, wf_conv c -> 0 <= batch -> Forall (fun d => 0 <= d) dims ->
    (conv_flops c batch dims == inject_Z (textbook_conv c batch dims))%Q /\
    conv_params c = cv_out c * (prodZ (cv_kernel c) * (cv_in c / cv_groups c)) + (if cv_bias c then cv_out c else 0).
Proof.
  intros c batch dims (Hg & Hi & Ho & [qi Ei] & [qo Eo]) Hb Hd.
  assert (Hp : 0 <= prodZ dims). { induction Hd; cbn; [lia|]. unfold prodZ in *. nia. }
  assert (Di : cv_in c / cv_groups c = qi) by (rewrite Ei; apply Z.div_mul; lia).
  assert (Fq : (inject_Z (cv_out c) / inject_Z (cv_groups c) == inject_Z qo)%Q).
  { rewrite Eo, inject_Z_mult. field. intro E. apply inj0 in E. lia. }
  split.
  - unfold conv_flops, textbook_conv. cbv zeta. rewrite Fq. rewrite !sumn_const. rewrite !Z2Nat.id by assumption.
    rewrite Di. rewrite <- !inject_Z_mult, <- inject_Z_plus. apply inject_Z_injective. rewrite Ei, Eo. destruct (cv_bias c); nia.
  - unfold conv_params. cbv zeta.
    assert (T : forall q z, (q == inject_Z z)%Q -> Qtrunc q = z).
    { intros q z E. unfold Qtrunc. unfold Qeq in E. cbn in E. rewrite Z.mul_1_r in E. rewrite E. apply Z.quot_mul. lia. }
    apply T. rewrite Fq, Di, inject_Z_plus. rewrite <- inject_Z_mult.
    replace (prodZ (cv_kernel c) * cv_in c * qo) with (cv_out c * (prodZ (cv_kernel c) * qi)) by (rewrite Ei, Eo; ring).
    destruct (cv_bias c); reflexivity.
Qed.
Print Assumptions C31_conv.
Example C31_conv_example :
  let c := {| cv_in := 8; cv_out := 4; cv_groups := 2; cv_kernel := [3; 3]; cv_bias := true |} in
  wf_conv c /\ (conv_flops c 2 [5; 7]%Z == inject_Z 10360)%Q /\ textbook_conv c 2 [5; 7] = 10360 /\ conv_params c = 148.
Proof. cbv zeta. repeat split; try (vm_compute; congruence); try lia; [exists 4; reflexivity|exists 2; reflexivity]. Qed.

Definition C31_deconv_claim : Prop :=
  forall c batch ih iw oh ow, wf_conv c -> 0 <= batch -> 0 <= ih -> 0 <= iw -> 0 <= oh -> 0 <= ow ->
    deconv_flops c batch ih iw oh ow = textbook_deconv c batch ih iw oh ow.
(** Line 35 of deconv_layer_counter.py multiplies the output height by itself: 16 x 2 outputs
    are charged for 256 instead of 32 bias additions. *)
Theorem C31_deconv_refuted : ~ C31_deconv_claim.
Proof.
  intro H. specialize (H {| cv_in := 1; cv_out := 1; cv_groups := 1; cv_kernel := [2; 2]; cv_bias := true |} 1 8 1 16 2).
  assert (W : wf_conv {| cv_in := 1; cv_out := 1; cv_groups := 1; cv_kernel := [2; 2]; cv_bias := true |}).
  { repeat split; cbn; try lia; exists 1; reflexivity. }
  specialize (H W ltac:(lia) ltac:(lia) ltac:(lia) ltac:(lia) ltac:(lia)). vm_compute in H. discriminate.
Qed.
Print Assumptions C31_deconv_refuted.
(** Exact for square outputs and for layers without bias. *)
Theorem C31_deconv_partial :
  forall c batch ih iw oh ow, wf_conv c -> 0 <= batch -> 0 <= ih -> 0 <= iw -> 0 <= oh -> 0 <= ow ->
    (cv_bias c = false \/ oh = ow) ->
    deconv_flops c batch ih iw oh ow = textbook_deconv c batch ih iw oh ow.
Proof.
  intros c batch ih iw oh ow (Hg & Hi & Ho & _ & _) Hb H1 H2 H3 H4 H. unfold deconv_flops, textbook_deconv. cbv zeta.
  rewrite !sumn_const. rewrite !Z2Nat.id by nia. destruct H as [->| ->]; [ring|]. destruct (cv_bias c); ring.
Qed.
Print Assumptions C31_deconv_partial.
Example C31_deconv_example :
  let c := {| cv_in := 4; cv_out := 6; cv_groups := 2; cv_kernel := [2; 2]; cv_bias := true |} in
  wf_conv c /\ deconv_flops c 2 3 3 6 6 = 1296 /\ textbook_deconv c 2 3 3 6 6 = 1296.
Proof. cbv zeta. repeat split; try (vm_compute; congruence); try lia; [exists 2; reflexivity|exists 3; reflexivity]. Qed.

(** Dynamic convolutions: the cost of the convolution that is exported for the same choice. *)
Definition C31_dynamic_claim : Prop :=
  forall c ai ao batch dims, wf_conv c -> (forall i, ai = Some i -> 0 < i <= cv_in c) -> (forall o, ao = Some o -> 0 < o <= cv_out c) ->
    (dyn_conv_flops c ai ao batch dims == conv_flops (sliced_conv c ai ao) batch dims)%Q.
Theorem C31_dynamic_refuted : ~ C31_dynamic_claim.
Proof.
  intro H. specialize (H {| cv_in := 4; cv_out := 4; cv_groups := 4; cv_kernel := [3; 3]; cv_bias := false |} (Some 2) (Some 2) 1 [8; 8]).
  assert (W : wf_conv {| cv_in := 4; cv_out := 4; cv_groups := 4; cv_kernel := [3; 3]; cv_bias := false |}).
  { repeat split; cbn; try lia; exists 1; reflexivity. }
  assert (X : forall i, Some 2 = Some i -> 0 < i <= 4) by (intros i E; inversion E; lia).
  specialize (H W X X). vm_compute in H. discriminate.
Qed.
Print Assumptions C31_dynamic_refuted.
Theorem C31_dynamic_partial :
  forall c ai ao batch dims, ~ (cv_groups c = cv_in c /\ cv_in c = cv_out c) \/ ai = None ->
    (dyn_conv_flops c ai ao batch dims == conv_flops (sliced_conv c ai ao) batch dims)%Q.
Proof.
  intros c ai ao batch dims H. unfold dyn_conv_flops, sliced_conv. cbv zeta.
  destruct (Z.eqb_spec (cv_groups c) (cv_in c)); cbn [andb]; [|reflexivity]. destruct (Z.eqb_spec (cv_in c) (cv_out c)); [|reflexivity].
  destruct H as [H| ->]; [tauto|]. unfold dyn_conv. cbn [cv_in cv_out cv_groups]. rewrite e. reflexivity.
Qed.
Print Assumptions C31_dynamic_partial.
(** The exact size of the error for a depthwise layer without bias: a layer cut from g to i
    channels is charged i/g of its cost. *)
Theorem C31_dynamic_depthwise :
  forall c i o batch dims, 0 < i -> 0 < cv_groups c -> cv_groups c = cv_in c -> cv_in c = cv_out c -> cv_bias c = false ->
    (dyn_conv_flops c (Some i) (Some o) batch dims * inject_Z (cv_groups c)
     == conv_flops (sliced_conv c (Some i) (Some o)) batch dims * inject_Z i)%Q.
Proof.
  intros c i o batch dims Hi Hg E1 E2 Hb. unfold dyn_conv_flops, sliced_conv. cbv zeta.
  rewrite (proj2 (Z.eqb_eq _ _) E1), (proj2 (Z.eqb_eq _ _) E2). cbn [andb]. unfold dyn_conv, conv_flops.
  cbn [cv_in cv_out cv_groups cv_kernel cv_bias]. rewrite Hb, E1, !inject_Z_mult. rewrite E1 in Hg.
  field; split; intro E; apply inj0 in E; lia.
Qed.
Print Assumptions C31_dynamic_depthwise.
Example C31_dynamic_example :
  let c := {| cv_in := 8; cv_out := 16; cv_groups := 4; cv_kernel := [3; 3]; cv_bias := true |} in
  (dyn_conv_flops c (Some 4%Z) (Some 8%Z) 1 [2; 2]%Z == 320)%Q /\ (conv_flops (sliced_conv c (Some 4%Z) (Some 8%Z)) 1 [2; 2]%Z == 320)%Q /\
  let d := {| cv_in := 4; cv_out := 4; cv_groups := 4; cv_kernel := [3; 3]; cv_bias := false |} in
  (dyn_conv_flops d (Some 2%Z) (Some 2%Z) 1 [8; 8]%Z == 576)%Q /\ (conv_flops (sliced_conv d (Some 2%Z) (Some 2%Z)) 1 [8; 8]%Z == 1152)%Q.
Proof. vm_compute. repeat split. Qed.

(** * C65: per-image cost *)
Definition C65_claim : Prop := forall l b, 0 < b -> (layer_flops l b / inject_Z b == layer_flops l 1)%Q.
Theorem C65_upsample_refuted : ~ C65_claim.
Proof. intro H. specialize (H (Upsample [3; 4; 4]) 2 ltac:(lia)). vm_compute in H. discriminate. Qed.
Print Assumptions C65_upsample_refuted.
Theorem C65_per_image_partial :
  forall l b, 0 < b -> (forall s, l <> Upsample s) -> (layer_flops l b / inject_Z b == layer_flops l 1)%Q.
Proof.
  intros l b Hb H. assert (B : ~ (inject_Z b == 0)%Q) by (intro E; apply inj0 in E; lia).
  destruct l as [c o|s o|s a|s|s]; cbn [layer_flops].
  - unfold conv_flops. cbv zeta. set (k := (inject_Z (prodZ (cv_kernel c) * cv_in c) * (inject_Z (cv_out c) / inject_Z (cv_groups c)))%Q).
    destruct (cv_bias c); rewrite !inject_Z_mult; cbn [inject_Z]; field; assumption.
  - cbn [prodZ fold_right]. rewrite !inject_Z_mult. field. assumption.
  - cbn [prodZ fold_right]. rewrite !inject_Z_mult. field. assumption.
  - cbn [prodZ fold_right]. rewrite !inject_Z_mult. field. assumption.
  - destruct (H s eq_refl).
Qed.
Print Assumptions C65_per_image_partial.
Example C65_example :
  let c := {| cv_in := 3; cv_out := 4; cv_groups := 1; cv_kernel := [3; 3]; cv_bias := true |} in
  (layer_flops (Conv c [5; 5]%Z) 8 == 22400)%Q /\ (layer_flops (Conv c [5; 5]%Z) 1 == 2800)%Q.
Proof. vm_compute. split; reflexivity. Qed.

(** * C30: sums over the module tree *)
Section TreeInd.
  Variable P : tree -> Prop.
  Hypothesis step : forall i s ks, Forall P ks -> P (Node i s ks).
  Fixpoint tree_rect' (t : tree) : P t :=
    match t with Node i s ks => step i s ks ((fix go l : Forall P l := match l with [] => Forall_nil _ | k :: r => Forall_cons _ (tree_rect' k) (go r) end) ks) end.
End TreeInd.

Lemma uniq_spec l : forall seen, NoDup (map root (uniq seen l)) /\ (forall t, In t (uniq seen l) -> In t l /\ ~ In (root t) seen).
Proof.
  induction l as [|t l IH]; intros seen; cbn [uniq]; [split; [constructor|easy]|].
  destruct (existsb _ seen) eqn:E.
  - destruct (IH seen) as [A B]. split; [exact A|]. intros x Hx. destruct (B x Hx). split; [right|]; assumption.
  - destruct (IH (root t :: seen)) as [A B]. cbn [map]. split.
    + constructor; [|exact A]. intro H. apply in_map_iff in H as (x & E' & Hx). destruct (B x Hx) as [_ N]. apply N. left. auto.
    + intros x [<-|Hx]; [split; [left; reflexivity|]|].
      * intro H. assert (existsb (Nat.eqb (root t)) seen = true) by (apply existsb_exists; exists (root t); split; [exact H|apply Nat.eqb_refl]). congruence.
      * destruct (B x Hx) as [I N]. split; [right; exact I|]. intro H. apply N. right. exact H.
Qed.
Lemma uniq_id l : forall seen, NoDup (map root l) -> (forall t, In t l -> ~ In (root t) seen) -> uniq seen l = l.
Proof.
  induction l as [|t l IH]; intros seen N D; cbn [uniq]; [reflexivity|]. cbn [map] in N. apply NoDup_cons_iff in N as [N1 N2].
  destruct (existsb _ seen) eqn:E.
  - apply existsb_exists in E as (x & Hx & E). apply Nat.eqb_eq in E. subst x. destruct (D t (or_introl eq_refl) Hx).
  - f_equal. apply IH; [exact N2|]. intros u Hu [E'|H]; [|exact (D u (or_intror Hu) H)]. apply N1. rewrite E'. apply in_map. exact Hu.
Qed.
Lemma sumQ_upd (L : list tree) f i x : NoDup (map root L) -> In i (map root L) ->
  (sumQ (map (fun m => upd f i (f i + x)%Q (root m)) L) == sumQ (map (fun m => f (root m)) L) + x)%Q.
Proof.
  induction L as [|m L IH]; intros N H; cbn [map] in *; [destruct H|]. apply NoDup_cons_iff in N as [N1 N2]. cbn [sumQ fold_right].
  change (fold_right Qplus 0%Q) with sumQ. destruct (Nat.eq_dec (root m) i) as [E|E].
  - assert (X : forall L, ~ In i (map root L) -> map (fun m => upd f i (f i + x)%Q (root m)) L = map (fun m => f (root m)) L).
    { clear. induction L as [|m L IH]; intros H; [reflexivity|]. cbn [map] in *. f_equal; [|apply IH; intro Y; apply H; right; exact Y]. unfold upd.
      destruct (Nat.eqb_spec i (root m)); [exfalso; apply H; left; auto|reflexivity]. }
    rewrite X by (rewrite <- E; exact N1). unfold upd at 1. rewrite E, Nat.eqb_refl. ring.
  - destruct H as [H|H]; [congruence|]. rewrite (IH N2 H). unfold upd at 1. destruct (Nat.eqb_spec i (root m)); [congruence|]. ring.
Qed.
Definition counted (t : tree) : list tree := filter supp (modules t).
Lemma counted_nodup t : NoDup (map root (counted t)).
Proof.
  unfold counted, modules. destruct (uniq_spec (subtrees t) []) as [N _]. revert N. generalize (uniq [] (subtrees t)). intros L.
  induction L as [|m L IH]; intros N; cbn [map filter] in *; [constructor|]. apply NoDup_cons_iff in N as [N1 N2].
  destruct (supp m); [|auto]. cbn [map]. constructor; [|auto]. intro H. apply N1. apply in_map_iff in H as (x & E & Hx). apply filter_In in Hx as [Hx _].
  rewrite <- E. apply in_map. exact Hx.
Qed.
Lemma run_sums own L : NoDup (map root L) -> forall calls s, Forall (fun c => In (fst c) (map root L)) calls ->
  (sumQ (map (fun m => flops (fold_left (on_call own) calls s) (root m)) L) == sumQ (map (fun m => flops s (root m)) L) + sumQ (map snd calls))%Q /\
  (sumQ (map (fun m => params (fold_left (on_call own) calls s) (root m)) L) == sumQ (map (fun m => params s (root m)) L) + sumQ (map (fun c => own (fst c)) calls))%Q.
Proof.
  intros N. induction calls as [|[i f] calls IH]; intros s H; cbn [fold_left map sumQ fold_right].
  - split; ring.
  - apply Forall_cons_iff in H as [Hi H]. cbn [fst snd] in *. destruct (IH (on_call own s (i, f)) H) as [A B]. rewrite A, B. cbn [on_call flops params].
    rewrite (sumQ_upd L (flops s) i f N Hi), (sumQ_upd L (params s) i (own i) N Hi). change (fold_right Qplus 0%Q) with sumQ. split; ring.
Qed.
Lemma sumQ_zero {A} (L : list A) : (sumQ (map (fun _ => 0%Q) L) == 0)%Q.
Proof. induction L; [reflexivity|]. cbn [map sumQ fold_right]. change (fold_right Qplus 0%Q) with sumQ. rewrite IHL. ring. Qed.

(** FLOPs: every call of a counted module is counted once, whatever the nesting and sharing. *)
Theorem C30_flops :
  forall t own calls batch, Forall (fun c => exists m, In m (counted t) /\ root m = fst c) calls ->
    (fst (compute_average t batch (run own calls)) == sumQ (map snd calls) / batch)%Q.
Proof.
  intros t own calls batch H. unfold compute_average, run. cbn [fst]. fold (counted t).
  destruct (run_sums own (counted t) (counted_nodup t) calls reset) as [A _].
  - eapply Forall_impl; [|exact H]. intros c (m & Hm & <-). apply in_map. exact Hm.
  - rewrite A. cbn [reset flops]. rewrite sumQ_zero. unfold Qdiv. ring.
Qed.
Print Assumptions C30_flops.
(** Parameters once, for models in which every counted module is called. *)
Definition C30_params_claim : Prop :=
  forall t own calls batch, Forall (fun c => exists m, In m (counted t) /\ root m = fst c) calls ->
    (forall m, In m (counted t) -> In (root m) (map fst calls)) ->
    (snd (compute_average t batch (run own calls)) == sumQ (map (fun m => own (root m)) (counted t)))%Q.
(** A layer that is applied twice in the forward pass is charged twice. *)
Definition two_uses : tree := Node 0 false [Node 1 true []].
Theorem C30_params_refuted : ~ C30_params_claim.
Proof.
  intro H. specialize (H two_uses (fun _ => 10%Q) [(1%nat, 5%Q); (1%nat, 5%Q)] 1%Q). revert H. vm_compute. intro H.
  assert (X : (20 * 1 = 10 * 1)); [|discriminate]. apply H.
  - repeat constructor; eexists; (split; [left; reflexivity|reflexivity]).
  - intros m [<-|[]]. left. reflexivity.
Qed.
Print Assumptions C30_params_refuted.
(** What is reported: the parameters of the called module at every call. *)
Theorem C30_params_per_call :
  forall t own calls batch, Forall (fun c => exists m, In m (counted t) /\ root m = fst c) calls ->
    (snd (compute_average t batch (run own calls)) == sumQ (map (fun c => own (fst c)) calls))%Q.
Proof.
  intros t own calls batch H. unfold compute_average, run. cbn [snd]. fold (counted t).
  destruct (run_sums own (counted t) (counted_nodup t) calls reset) as [_ B].
  - eapply Forall_impl; [|exact H]. intros c (m & Hm & <-). apply in_map. exact Hm.
  - rewrite B. cbn [reset params]. rewrite sumQ_zero. ring.
Qed.
Print Assumptions C30_params_per_call.
(** Hence the claim holds when every counted module is called exactly once. *)
From Coq Require Import Permutation.
Lemma sumQ_perm l l' : Permutation l l' -> (sumQ l == sumQ l')%Q.
Proof. induction 1; cbn [sumQ fold_right]; change (fold_right Qplus 0%Q) with sumQ; [reflexivity|rewrite IHPermutation; reflexivity|ring|etransitivity; eassumption]. Qed.
Theorem C30_params_partial :
  forall t own calls batch, Permutation (map fst calls) (map root (counted t)) ->
    (snd (compute_average t batch (run own calls)) == sumQ (map (fun m => own (root m)) (counted t)))%Q.
Proof.
  intros t own calls batch P. rewrite C30_params_per_call.
  - rewrite <- (map_map fst own calls), <- (map_map root own). apply sumQ_perm. apply Permutation_map. exact P.
  - apply Forall_forall. intros c Hc. assert (H : In (fst c) (map root (counted t))) by (eapply Permutation_in; [exact P|apply in_map; exact Hc]).
    apply in_map_iff in H as (m & E & Hm). exists m. split; assumption.
Qed.
Print Assumptions C30_params_partial.
Example C30_example :
  let t := Node 0 false [Node 1 false [Node 2 true []; Node 3 true []]; Node 4 true []; Node 2 true []] in
  let calls := [(2%nat, 10%Q); (3%nat, 4%Q); (4%nat, 6%Q)] in
  map root (counted t) = [2; 3; 4]%nat /\
  (fst (compute_average t 2 (run (fun i => inject_Z (Z.of_nat i)) calls)) == 10)%Q /\
  (snd (compute_average t 2 (run (fun i => inject_Z (Z.of_nat i)) calls)) == 9)%Q.
Proof. vm_compute. repeat split. Qed.

(** Per-module results (spec_modules): each module reports the converted sum over the distinct
    counted modules below it. *)
Definition C30_accumulate_claim : Prop :=
  forall t batch cf cp s m, (forall x y, (x == y)%Q -> (cf x == cf y)%Q) -> (forall x y, (x == y)%Q -> (cp x == cp y)%Q) -> In m (modules t) ->
    (flops (accumulate batch cf cp t s) (root m) == cf (sumQ (map (fun x => flops s (root x)) (counted m)) / batch))%Q /\
    (params (accumulate batch cf cp t s) (root m) == cp (sumQ (map (fun x => params s (root x)) (counted m))))%Q.
(** A layer that two branches share is converted in place before the second branch reads it
    and is counted twice in the root. *)
Definition shared_leaf : tree := Node 0 false [Node 1 false [Node 3 true []]; Node 2 false [Node 3 true []]].
Theorem C30_accumulate_refuted : ~ C30_accumulate_claim.
Proof.
  intro H. destruct (H shared_leaf 1%Q (fun x => x / 1000)%Q (fun x => x) (run (fun _ => 7%Q) [(3%nat, 1000%Q)]) (Node 2 false [Node 3 true []])) as [H1 _].
  - intros x y E. rewrite E. reflexivity.
  - intros x y E. exact E.
  - vm_compute. auto.
  - vm_compute in H1. discriminate.
Qed.
Print Assumptions C30_accumulate_refuted.

(** Proof for trees without sharing and with counted modules at the leaves. *)
Definition accs (v : nat -> Q) := fix go (seen : list nat) (l : list tree) : Q :=
  match l with [] => 0%Q | k :: r => if existsb (Nat.eqb (root k)) seen then go seen r else (acc v k + go (root k :: seen) r)%Q end.
Lemma accs_uniq v : forall l seen, accs v seen l = sumQ (map (acc v) (uniq seen l)).
Proof. induction l as [|k l IH]; intros seen; cbn; [reflexivity|]. destruct (existsb _ seen); [apply IH|]. cbn. rewrite IH. reflexivity. Qed.
Lemma acc_eq v i ks : acc v (Node i false ks) = sumQ (map (acc v) (uniq [] ks)).
Proof. exact (accs_uniq v ks []). Qed.
Lemma in_kids_subtrees i s ks k x : In k ks -> In x (subtrees k) -> In x (subtrees (Node i s ks)).
Proof. intros H1 H2. cbn [subtrees]. right. apply in_flat_map. exists k. split; assumption. Qed.
Lemma self_subtree t : In t (subtrees t).
Proof. destruct t. left. reflexivity. Qed.
Lemma nodup_app_l {A} (l l' : list A) : NoDup (l ++ l') -> NoDup l.
Proof. induction l; intros H; [constructor|]. cbn in H. apply NoDup_cons_iff in H as [N H]. constructor; [|auto]. intro X. apply N. apply in_or_app. left. exact X. Qed.
Lemma nodup_app_r {A} (l l' : list A) : NoDup (l ++ l') -> NoDup l'.
Proof. induction l; intros H; [exact H|]. cbn in H. apply NoDup_cons_iff in H as [_ H]. auto. Qed.
Lemma kids_nodup ks : NoDup (map root (flat_map subtrees ks)) -> NoDup (map root ks) /\ Forall (fun k => NoDup (map root (subtrees k))) ks.
Proof.
  induction ks as [|k ks IH]; intros N; cbn [flat_map map] in *; [split; constructor|]. rewrite map_app in N.
  destruct (IH (nodup_app_r _ _ N)) as [A B]. split; [|constructor; [exact (nodup_app_l _ _ N)|exact B]].
  constructor; [|exact A]. intro H. apply in_map_iff in H as (x & E & Hx).
  assert (X : In (root k) (map root (flat_map subtrees ks))).
  { rewrite <- E. apply in_map. apply in_flat_map. exists x. split; [exact Hx|apply self_subtree]. }
  destruct k as [i s l]. cbn in N. apply NoDup_cons_iff in N as [N _]. apply N. apply in_or_app. right. exact X.
Qed.
Lemma acc_ext v w t : (forall i, In i (map root (subtrees t)) -> v i = w i) -> acc v t = acc w t.
Proof.
  induction t as [i s ks IH] using tree_rect'. intros H. destruct s; [apply H; left; reflexivity|]. rewrite !acc_eq. f_equal. apply map_ext_in.
  intros k Hk. destruct (uniq_spec ks []) as [_ U]. destruct (U k Hk) as [Ik _]. rewrite Forall_forall in IH. apply (IH k Ik). intros j Hj. apply H.
  apply in_map_iff in Hj as (x & <- & Hx). apply in_map. eapply in_kids_subtrees; eassumption.
Qed.
Lemma sumQ_app l l' : (sumQ (l ++ l') == sumQ l + sumQ l')%Q.
Proof. induction l as [|x l IH]; cbn [app sumQ fold_right]; change (fold_right Qplus 0%Q) with sumQ; [ring|]. rewrite IH. ring. Qed.
Definition leafy (t : tree) : Prop := forall m, In m (subtrees t) -> supp m = true -> filter supp (subtrees m) = [m].
Lemma acc_sum v t : NoDup (map root (subtrees t)) -> leafy t -> (acc v t == sumQ (map (fun m => v (root m)) (filter supp (subtrees t))))%Q.
Proof.
  induction t as [i s ks IH] using tree_rect'. intros N L. destruct s.
  - rewrite (L (Node i true ks) (self_subtree _) eq_refl). cbn. ring.
  - rewrite acc_eq. cbn [subtrees filter supp]. cbn [subtrees map root] in N. apply NoDup_cons_iff in N as [_ N]. destruct (kids_nodup ks N) as [N1 N2].
    rewrite uniq_id by (auto; intros t _ []).
    assert (L' : Forall leafy ks). { apply Forall_forall. intros k Hk m Hm. apply L. eapply in_kids_subtrees; eassumption. }
    clear L N N1. induction ks as [|k ks IHk]; cbn [map flat_map]; [reflexivity|].
    apply Forall_cons_iff in IH as [I1 I2]. apply Forall_cons_iff in N2 as [N1 N2]. apply Forall_cons_iff in L' as [L1 L2].
    rewrite filter_app, map_app, sumQ_app. cbn [sumQ fold_right]. change (fold_right Qplus 0%Q) with sumQ. rewrite (I1 N1 L1), (IHk I2 N2 L2). reflexivity.
Qed.
(** The nodes after [m] in pre-order start with [m]'s own subtree. *)
Lemma subtrees_prefix t : forall A m B, subtrees t = A ++ m :: B -> exists C, m :: B = subtrees m ++ C.
Proof.
  induction t as [i s ks IH] using tree_rect'. intros A m B E. cbn [subtrees] in E. destruct A as [|a A]; cbn [app] in E.
  - inversion E; subst. exists []. rewrite app_nil_r. reflexivity.
  - inversion E as [[E1 E2]]. clear E E1. revert A E2. induction ks as [|k ks IHk]; intros A E; cbn [flat_map] in E; [destruct A; discriminate|].
    apply Forall_cons_iff in IH as [I1 I2].
    assert (X : (exists A', A = subtrees k ++ A' /\ flat_map subtrees ks = A' ++ m :: B) \/ exists B', subtrees k = A ++ m :: B' /\ B = B' ++ flat_map subtrees ks).
    { revert E. generalize (flat_map subtrees ks). generalize (subtrees k). clear. induction A as [|a A IH]; intros l r E.
      - destruct l as [|x l]; [left; exists []; split; [reflexivity|exact E]|]. cbn in E. inversion E; subst. right. exists l. split; reflexivity.
      - destruct l as [|x l]; [left; exists (a :: A); split; [reflexivity|exact E]|]. cbn in E. inversion E; subst.
        destruct (IH l r H1) as [(A' & -> & ->)|(B' & -> & ->)]; [left; exists A'|right; exists B']; split; reflexivity. }
    destruct X as [(A' & -> & E')|(B' & E' & ->)]; [exact (IHk I2 A' E')|].
    destruct (I1 A m B' E') as (C & EC). exists (C ++ flat_map subtrees ks). rewrite app_assoc, <- EC. reflexivity.
Qed.
Lemma acc_loop batch cf cp : forall L s,
  NoDup (map root L) -> (forall A m B, L = A ++ m :: B -> forall i, In i (map root (subtrees m)) -> ~ In i (map root A)) ->
  (forall j, ~ In j (map root L) -> flops (fold_left (acc_step batch cf cp) L s) j = flops s j /\ params (fold_left (acc_step batch cf cp) L s) j = params s j) /\
  forall m, In m L -> flops (fold_left (acc_step batch cf cp) L s) (root m) = cf (acc (fun i => flops s i / batch)%Q m) /\
                      params (fold_left (acc_step batch cf cp) L s) (root m) = cp (acc (params s) m).
Proof.
  induction L as [|h L IH]; intros s N D; cbn [fold_left map] in *; [split; [split; reflexivity|easy]|].
  apply NoDup_cons_iff in N as [N1 N2].
  assert (D' : forall A m B, L = A ++ m :: B -> forall i, In i (map root (subtrees m)) -> ~ In i (map root A)).
  { intros A m B E i Hi X. apply (D (h :: A) m B) with (i := i); [rewrite E; reflexivity|exact Hi|right; exact X]. }
  destruct (IH (acc_step batch cf cp s h) N2 D') as [P Q]. split.
  - intros j Hj. destruct (P j) as [P1 P2]; [intro Y; apply Hj; right; exact Y|]. rewrite P1, P2. unfold acc_step, upd. cbn [flops params].
    destruct (Nat.eqb_spec (root h) j); [exfalso; apply Hj; left; assumption|]. split; reflexivity.
  - intros m [<-|Hm].
    + destruct (P (root h) N1) as [P1 P2]. rewrite P1, P2. unfold acc_step, upd. cbn [flops params]. rewrite Nat.eqb_refl. split; reflexivity.
    + destruct (Q m Hm) as [Q1 Q2]. rewrite Q1, Q2. apply in_split in Hm as (A & B & ->).
      assert (X : forall i, In i (map root (subtrees m)) -> root h <> i).
      { intros i Hi E. apply (D (h :: A) m B eq_refl i Hi). left. exact E. }
      split; f_equal; apply acc_ext; intros i Hi; specialize (X i Hi); unfold acc_step, upd; cbn [flops params]; destruct (Nat.eqb_spec (root h) i); try congruence; reflexivity.
Qed.
Lemma sub_nodup t : NoDup (map root (subtrees t)) -> forall m, In m (subtrees t) -> NoDup (map root (subtrees m)).
Proof.
  intros N m Hm. apply in_split in Hm as (A & B & E). destruct (subtrees_prefix t A m B E) as (C & EC). rewrite E, EC, !map_app in N.
  apply nodup_app_r in N. exact (nodup_app_l _ _ N).
Qed.
Lemma sub_leafy t : leafy t -> forall m, In m (subtrees t) -> leafy m.
Proof.
  intros L m Hm x Hx. apply L. apply in_split in Hm as (A & B & E). destruct (subtrees_prefix t A m B E) as (C & EC). rewrite E, EC. apply in_or_app. right.
  apply in_or_app. left. exact Hx.
Qed.
Theorem C30_accumulate_partial :
  forall t batch cf cp s m, (forall x y, (x == y)%Q -> (cf x == cf y)%Q) -> (forall x y, (x == y)%Q -> (cp x == cp y)%Q) ->
    NoDup (map root (subtrees t)) -> leafy t -> In m (modules t) ->
    (flops (accumulate batch cf cp t s) (root m) == cf (sumQ (map (fun x => flops s (root x)) (counted m)) / batch))%Q /\
    (params (accumulate batch cf cp t s) (root m) == cp (sumQ (map (fun x => params s (root x)) (counted m))))%Q.
Proof.
  intros t batch cf cp s m Hf Hp N L Hm. unfold accumulate, counted, modules in *. rewrite uniq_id in * by (auto; intros x _ []).
  rewrite (uniq_id (subtrees m)); [|exact (sub_nodup t N m Hm)|intros x _ []].
  destruct (acc_loop batch cf cp (subtrees t) s N) as [_ A].
  { intros A x B E i Hi X. destruct (subtrees_prefix t A x B E) as (C & EC). rewrite E, EC, map_app, map_app in N.
    assert (forall (u v w : list nat), NoDup (u ++ v ++ w) -> In i u -> ~ In i v).
    { clear. induction u as [|y u IH]; intros v w N H; [destruct H|]. cbn in N. apply NoDup_cons_iff in N as [N1 N2].
      destruct H as [->|H]; [|exact (IH v w N2 H)]. intro X. apply N1. apply in_or_app. right. apply in_or_app. left. exact X. }
    exact (H _ _ _ N X Hi). }
  destruct (A m Hm) as [A1 A2]. rewrite A1, A2. pose proof (sub_nodup t N m Hm) as Nm. pose proof (sub_leafy t L m Hm) as Lm. split.
  - apply Hf. rewrite (acc_sum _ m Nm Lm). generalize (filter supp (subtrees m)). induction l as [|x l IH]; cbn [map sumQ fold_right]; [unfold Qdiv; ring|].
    change (fold_right Qplus 0%Q) with sumQ. rewrite IH. unfold Qdiv. ring.
  - apply Hp. apply (acc_sum _ m Nm Lm).
Qed.
Print Assumptions C30_accumulate_partial.
Example C30_accumulate_example :
  let t := Node 0 false [Node 1 false [Node 2 true []; Node 3 true []]; Node 4 true []] in
  let s := run (fun i => inject_Z (Z.of_nat i)) [(2%nat, 1000%Q); (3%nat, 4000%Q); (4%nat, 6000%Q)] in
  let a := accumulate 2 (fun x => x / 1000)%Q (fun x => x) t s in
  NoDup (map root (subtrees t)) /\ leafy t /\ (flops a 1%nat == 5 # 2)%Q /\ (flops a 0%nat == 11 # 2)%Q /\ (params a 0%nat == 9)%Q.
Proof.
  cbv zeta. split; [repeat constructor; cbn; intuition discriminate|]. split; [|vm_compute; repeat split].
  intros m H. cbn in H. repeat (destruct H as [<-|H]; [cbn; intro; (reflexivity || discriminate)|]). destruct H.
Qed.

(** * C32: the estimator's configuration *)
Section C32.
  (** The configuration a call should use: per-call settings first, then the constructor's
      flops_params_cfg, then the constructor's input_shape, units and as_strings. *)
  Definition wanted (e : est) (call : cfg) (k : string) : option cval :=
    match cget (rev call) k with
    | Some v => Some v
    | None => match cget (e_cfg e) k with
              | Some v => Some v
              | None => if String.eqb k "input_shape" then Some (e_input_shape e)
                        else if String.eqb k "units" then Some (e_units e)
                        else if String.eqb k "as_strings" then Some (e_as_strings e) else None
              end
    end.
End C32.
Definition extensional (counter : (string -> option cval) -> outcome cres) : Prop :=
  forall f g, (forall k, f k = g k) -> counter f = counter g.
Definition C32_claim : Prop :=
  forall legal counter e os call, extensional counter ->
    forallb (fun kv => legal (fst kv)) (e_cfg e) = true -> forallb (fun kv => legal (fst kv)) call = true ->
    estimate legal counter (history legal counter e os) call = (do r <- counter (wanted e call); unpack r).

Definition show (o : option cval) : string := match o with Some (COther s) => s | Some (CBool true) => "True" | Some _ => "set" | None => "default" end.
(** A counter that reports the input shape it was given. *)
Definition shape_counter (f : string -> option cval) : outcome cres :=
  match f "seperate_return"%string with
  | Some (CBool true) => Ok (RDict [("backbone"%string, ("1"%string, "1"%string))])
  | _ => Ok (RPair (show (f "input_shape"%string)) (show (f "units"%string)))
  end.
Lemma shape_counter_ext : extensional shape_counter.
Proof. intros f g H. unfold shape_counter. rewrite !H. reflexivity. Qed.
(** The constructor's input_shape is ignored when no per-call configuration is given. *)
Theorem C32_ctor_ignored_refuted : ~ C32_claim.
Proof.
  intro H. specialize (H (fun _ => true) shape_counter
    {| e_input_shape := COther "(1,3,32,32)"; e_units := COther "G"; e_as_strings := CBool false; e_cfg := [] |} [] [] shape_counter_ext eq_refl eq_refl).
  vm_compute in H. discriminate.
Qed.
Print Assumptions C32_ctor_ignored_refuted.
(** Even for estimators whose settings are all in flops_params_cfg, a call of
    estimate_separation_modules changes what later calls of estimate return. *)
Definition C32_history_claim : Prop :=
  forall legal counter e os call, extensional counter ->
    forallb (fun kv => legal (fst kv)) (e_cfg e) = true -> forallb (fun kv => legal (fst kv)) call = true ->
    estimate legal counter (history legal counter e os) call = estimate legal counter e call.
Theorem C32_history_refuted : ~ C32_history_claim.
Proof.
  intro H. specialize (H (fun _ => true) shape_counter
    {| e_input_shape := COther "(1,3,32,32)"; e_units := COther "G"; e_as_strings := CBool false; e_cfg := [("spec_modules"%string, CNames ["backbone"%string])] |}
    [Separation []] [] shape_counter_ext eq_refl eq_refl).
  vm_compute in H. discriminate.
Qed.
Print Assumptions C32_history_refuted.

Lemma cget_cput c k v k' : cget (cput c k v) k' = if String.eqb k' k then Some v else cget c k'.
Proof.
  induction c as [|[a w] c IH]; cbn [cput cget]; [destruct (String.eqb k' k); reflexivity|]. destruct (String.eqb_spec k a); cbn [cget].
  - subst. destruct (String.eqb k' a); reflexivity.
  - destruct (String.eqb_spec k' a); [|exact IH]. subst. destruct (String.eqb_spec a k); [congruence|reflexivity].
Qed.
Lemma cget_app a b k : cget (a ++ b) k = match cget a k with Some v => Some v | None => cget b k end.
Proof. induction a as [|[x w] a IH]; cbn [app cget]; [reflexivity|]. destruct (String.eqb k x); [reflexivity|exact IH]. Qed.
Lemma cget_cmerge b : forall a k, cget (cmerge a b) k = match cget (rev b) k with Some v => Some v | None => cget a k end.
Proof.
  unfold cmerge. induction b as [|[x w] b IH]; intros a k; cbn [fold_left rev fst snd]; [reflexivity|]. rewrite IH, cget_app, cget_cput. cbn [cget].
  destruct (cget (rev b) k); [reflexivity|]. destruct (String.eqb k x); reflexivity.
Qed.
Lemma cget_setdef c k v k' : cget (setdef c k v) k' = match cget c k' with Some w => Some w | None => if String.eqb k' k then Some v else None end.
Proof.
  unfold setdef. destruct (cget c k) eqn:E.
  - destruct (cget c k') eqn:E'; [reflexivity|]. destruct (String.eqb_spec k' k); [congruence|reflexivity].
  - rewrite cget_cput. destruct (String.eqb_spec k' k); [subst; rewrite E; reflexivity|]. destruct (cget c k'); reflexivity.
Qed.
Lemma cput_legal legal c k v : forallb (fun kv : string * cval => legal (fst kv)) c = true -> legal k = true -> forallb (fun kv => legal (fst kv)) (cput c k v) = true.
Proof.
  induction c as [|[a w] c IH]; cbn [cput forallb fst]; intros H1 H2; [rewrite H2; reflexivity|]. apply andb_true_iff in H1 as [A B].
  destruct (String.eqb k a); cbn [forallb fst]; [rewrite H2, B|rewrite A, IH]; auto.
Qed.
Lemma cmerge_legal legal b : forall a, forallb (fun kv : string * cval => legal (fst kv)) a = true -> forallb (fun kv => legal (fst kv)) b = true ->
  forallb (fun kv => legal (fst kv)) (cmerge a b) = true.
Proof.
  unfold cmerge. induction b as [|[k v] b IH]; intros a Ha Hb; cbn [fold_left]; [exact Ha|]. cbn [forallb fst] in Hb. apply andb_true_iff in Hb as [H1 H2].
  apply IH; [apply cput_legal; assumption|exact H2].
Qed.
Lemma resolve_wanted legal e call : call <> [] -> forallb (fun kv => legal (fst kv)) (e_cfg e) = true -> forallb (fun kv => legal (fst kv)) call = true ->
  exists c, resolve legal e call = Ok c /\ forall k, cget c k = wanted e call k.
Proof.
  intros N H1 H2. destruct call as [|kv call]; [congruence|]. unfold resolve. unfold check_cfg. rewrite cmerge_legal by assumption. cbn [bind].
  eexists. split; [reflexivity|]. intros k. unfold set_defaults, wanted. rewrite !cget_setdef, cget_cmerge.
  destruct (cget (rev (kv :: call)) k); [reflexivity|]. destruct (cget (e_cfg e) k); [reflexivity|].
  destruct (String.eqb k "input_shape"); [reflexivity|]. destruct (String.eqb k "units"); [reflexivity|]. destruct (String.eqb k "as_strings"); reflexivity.
Qed.
(** With a per-call configuration: the documented precedence, after any history in which every
    separation call had a per-call configuration, too. *)
Definition clean (o : op) : Prop := match o with Separation [] => False | _ => True end.
Lemma clean_history legal counter e os : Forall clean os -> history legal counter e os = e.
Proof.
  unfold history. revert e. induction os as [|o os IH]; intros e H; cbn [fold_left]; [reflexivity|]. apply Forall_cons_iff in H as [H1 H2].
  destruct o as [c|c]; cbn [step]; [apply IH; exact H2|]. destruct c as [|kv c]; [destruct H1|]. unfold separation.
  destruct (resolve legal e (kv :: c)); cbn [fst]; apply IH; exact H2.
Qed.
Theorem C32_per_call_partial :
  forall legal counter e os call, extensional counter -> Forall clean os -> call <> [] ->
    forallb (fun kv => legal (fst kv)) (e_cfg e) = true -> forallb (fun kv => legal (fst kv)) call = true ->
    estimate legal counter (history legal counter e os) call = (do r <- counter (wanted e call); unpack r).
Proof.
  intros legal counter e os call X C N H1 H2. rewrite clean_history by exact C. unfold estimate.
  destruct (resolve_wanted legal e call N H1 H2) as (c & -> & W). cbn [bind]. rewrite (X _ _ W). reflexivity.
Qed.
Print Assumptions C32_per_call_partial.
(** Without one: the constructor's flops_params_cfg alone. *)
Theorem C32_no_call_partial :
  forall legal counter e os, Forall clean os ->
    estimate legal counter (history legal counter e os) [] = (do r <- counter (cget (e_cfg e)); unpack r).
Proof. intros legal counter e os C. rewrite clean_history by exact C. reflexivity. Qed.
Print Assumptions C32_no_call_partial.
(** An unknown key is rejected. *)
Theorem C32_illegal_key :
  forall legal counter e call k v, In (k, v) call -> legal k = false -> estimate legal counter e call = Raise KeyError.
Proof.
  intros legal counter e call k v H L. destruct call as [|kv call]; [destruct H|]. unfold estimate, resolve, check_cfg.
  destruct (forallb _ (cmerge _ _)) eqn:E; [|reflexivity]. exfalso. set (b := kv :: call) in *.
  assert (exists w, cget (cmerge (e_cfg e) b) k = Some w) as [w Hw].
  { rewrite cget_cmerge. assert (G : forall c, In (k, v) c -> exists w, cget c k = Some w).
    { induction c as [|[a u] c IH]; intros I; [destruct I|]. cbn. destruct (String.eqb_spec k a); [eauto|]. destruct I as [I|I]; [inversion I; congruence|auto]. }
    destruct (G (rev b)) as [w ->]; [apply in_rev; rewrite rev_involutive; exact H|]. eauto. }
  assert (I : In (k, w) (cmerge (e_cfg e) b)).
  { revert Hw. generalize (cmerge (e_cfg e) b). induction c as [|[a u] c IH]; cbn; [discriminate|]. destruct (String.eqb_spec k a).
    - intro E'. inversion E'. left. congruence. - intro. right. auto. }
  rewrite forallb_forall in E. specialize (E _ I). cbn in E. congruence.
Qed.
Print Assumptions C32_illegal_key.
Example C32_example :
  let e := {| e_input_shape := COther "(1,3,32,32)"; e_units := COther "G"; e_as_strings := CBool false; e_cfg := [("units"%string, COther "K")] |} in
  let os := [Estimate []; Separation [("spec_modules"%string, CNames ["backbone"%string])]] in
  Forall clean os /\ estimate (fun _ => true) shape_counter (history (fun _ => true) shape_counter e os) [("flush"%string, CBool true)] = Ok ("(1,3,32,32)"%string, "K"%string).
Proof. split; [repeat constructor|reflexivity]. Qed.
