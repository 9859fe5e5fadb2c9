(** Which gradients the optimizers of DARTS step with (C134, C135) and what the unrolled step leaves
    behind (C136). *)
From Coq Require Import Reals Lra String.
From Verif Require Import Prelude Evolution_Model Recorder_Model Distill_Props Darts_Model.
Local Open Scope string_scope.
Local Open Scope list_scope.
Local Open Scope R_scope.

(** * Lemmas *)

Lemma store_length h : forall r v, length (store h r v) = length h.
Proof. induction h; intros [|r] v; cbn [store length]; auto. Qed.
Lemma deref_same h : forall r v, (r < length h)%nat -> deref (store h r v) r = v.
Proof. unfold deref. induction h as [|x h IH]; intros [|r] v H; cbn [store length nth] in *; try lia; [reflexivity|]. apply IH. lia. Qed.
Lemma deref_other h : forall r j v, j <> r -> deref (store h r v) j = deref h j.
Proof. unfold deref. induction h as [|x h IH]; intros [|r] [|j] v H; cbn [store nth]; try reflexivity; try congruence. apply IH. congruence. Qed.
Lemma deref_app h x j : (j < length h)%nat -> deref (h ++ x) j = deref h j.
Proof. intros H. unfold deref. apply app_nth1. exact H. Qed.
Lemma deref_last h g : deref (h ++ [g]) (length h) = g.
Proof. unfold deref. rewrite app_nth2, Nat.sub_diag; [reflexivity|lia]. Qed.
Lemma vadd_length a : forall b, length a = length b -> length (vadd a b) = length a.
Proof. induction a as [|x a IH]; intros [|y b] H; cbn [vadd length] in *; try lia. f_equal. apply IH. lia. Qed.
Lemma vscale_length c a : length (vscale c a) = length a. Proof. apply map_length. Qed.
Lemma vadd_zero a : forall b, length a = length b -> vadd (vscale 0 a) b = b.
Proof. induction a as [|x a IH]; intros [|y b] H; cbn [vscale map vadd length] in *; try lia; [reflexivity|]. f_equal; [lra|]. apply IH. lia. Qed.
Lemma vsub_self a c d : length d = length a -> vsub d (vscale c (vsub a a)) = d.
Proof.
  revert d. unfold vsub. induction a as [|x a IH]; intros [|y d] H; cbn [vscale map vadd length] in *; try lia; [reflexivity|].
  f_equal; [lra|]. apply IH. lia.
Qed.
Lemma vscale_vscale_sub c e a d : length d = length a -> vsub d (vscale c (vscale e (vsub a a))) = d.
Proof.
  revert d. unfold vsub. induction a as [|x a IH]; intros [|y d] H; cbn [vscale map vadd length] in *; try lia; [reflexivity|].
  f_equal; [lra|]. apply IH. lia.
Qed.

(** * Specification *)

(** A gradient together with one that may be stored already. *)
Definition plus (o : option vec) (g : vec) : vec := match o with Some x => vadd x g | None => g end.

Section Props.
Variables D SW SA : Type.
Variables dW dA : D -> vec -> vec -> vec.
Variable logs : D -> vec -> vec -> subnet.
Variable stepW : SW -> vec -> vec -> SW * vec.
Variable stepA : SA -> vec -> vec -> SA * vec.
Variables (lr momentum weight_decay : R) (buffer : SW -> vec).
Variable norm : vec -> R.
Variable to_none : bool.
Variables nw na : nat.
Hypothesis dW_length : forall b w a, length (dW b w a) = nw.
Hypothesis dA_length : forall b w a, length (dA b w a) = na.
Notation state := (dstate SW SA).

(** The gradient stored at a parameter; nothing and zero are the same to the optimizers' sums. *)
Definition stored (h : heap) (r : option nat) : option vec := match r with Some k => Some (deref h k) | None => None end.
Definition grad_w (s : state) : option vec := stored (d_heap _ _ s) (d_gw _ _ s).
Definition grad_a (s : state) : option vec := stored (d_heap _ _ s) (d_ga _ _ s).
Definition nothing (n : nat) (o : option vec) : Prop := o = None \/ exists x, o = Some (vscale 0 x) /\ length x = n.

(** The gradients of the two modules are different tensors of the right size. *)
Definition ref_ok (h : heap) (r : option nat) (n : nat) : Prop := match r with Some k => (k < length h)%nat /\ length (deref h k) = n | None => True end.
Definition sane (s : state) : Prop :=
  ref_ok (d_heap _ _ s) (d_gw _ _ s) nw /\ ref_ok (d_heap _ _ s) (d_ga _ _ s) na /\
  (forall k, d_gw _ _ s = Some k -> d_ga _ _ s <> Some k).
(** A model whose gradients are not set yet, or zero. *)
Definition clean (s : state) : Prop := sane s /\ nothing nw (grad_w s) /\ nothing na (grad_a s).

Lemma plus_nothing n o g : nothing n o -> length g = n -> plus o g = g.
Proof. intros [->|[x [-> E]]] Hg; cbn [plus]; [reflexivity|]. apply vadd_zero. congruence. Qed.

Lemma accumulate_spec h r g n h' r' :
  ref_ok h r n -> length g = n -> accumulate h r g = (h', r') ->
  ref_ok h' r' n /\ stored h' r' = Some (plus (stored h r) g) /\ (length h <= length h')%nat /\
  (forall k, r = Some k -> r' = Some k) /\
  (r = None -> r' = Some (length h)) /\
  (forall j, (j < length h)%nat -> r <> Some j -> deref h' j = deref h j /\ r' <> Some j).
Proof.
  intros Hr Hg E. unfold accumulate in E. destruct r as [k|]; injection E as <- <-; cbn [ref_ok stored plus] in *.
  - destruct Hr as [Hk Hl]. repeat split.
    + rewrite store_length. exact Hk.
    + rewrite deref_same by exact Hk. rewrite vadd_length; congruence.
    + rewrite deref_same by exact Hk. reflexivity.
    + rewrite store_length. lia.
    + auto.
    + discriminate.
    + apply deref_other. congruence.
    + congruence.
  - repeat split.
    + rewrite app_length. cbn. lia.
    + rewrite deref_last. exact Hg.
    + rewrite deref_last. reflexivity.
    + rewrite app_length. lia.
    + discriminate.
    + rewrite deref_app by assumption. reflexivity.
    + intros X. injection X as X. lia.
Qed.
Lemma backward_spec b s : sane s ->
  let s' := backward D SW SA dW dA b s in
  sane s' /\ d_w _ _ s' = d_w _ _ s /\ d_a _ _ s' = d_a _ _ s /\ d_sw _ _ s' = d_sw _ _ s /\ d_sa _ _ s' = d_sa _ _ s /\
  grad_w s' = Some (plus (grad_w s) (dW b (d_w _ _ s) (d_a _ _ s))) /\
  grad_a s' = Some (plus (grad_a s) (dA b (d_w _ _ s) (d_a _ _ s))) /\
  (forall k, d_gw _ _ s = Some k -> d_gw _ _ s' = Some k) /\ (forall k, d_ga _ _ s = Some k -> d_ga _ _ s' = Some k).
Proof.
  intros (Hw & Ha & Hd) s'. subst s'. unfold backward.
  destruct (accumulate (d_heap _ _ s) (d_gw _ _ s) _) as [h1 gw] eqn:E1.
  pose proof (accumulate_spec _ _ _ nw _ _ Hw (dW_length _ _ _) E1) as (A1 & A2 & A3 & A4 & A4' & A5).
  assert (Ha1 : ref_ok h1 (d_ga _ _ s) na /\ stored h1 (d_ga _ _ s) = stored (d_heap _ _ s) (d_ga _ _ s) /\ (forall k, d_ga _ _ s = Some k -> gw <> Some k)).
  { destruct (d_ga _ _ s) as [j|] eqn:Ej; cbn [ref_ok stored] in *; [|repeat split; auto; discriminate].
    destruct Ha as [Hj Hl]. destruct (A5 j Hj) as [B1 B2]; [intros X; exact (Hd j X eq_refl)|].
    rewrite B1. repeat split; auto; [lia|]. intros k X. congruence. }
  destruct Ha1 as (Ha1 & Ha2 & Ha3).
  destruct (accumulate h1 (d_ga _ _ s) _) as [h2 ga] eqn:E2.
  pose proof (accumulate_spec _ _ _ na _ _ Ha1 (dA_length _ _ _) E2) as (B1 & B2 & B3 & B4 & B4' & B5).
  assert (exists k, gw = Some k) as [k ->] by (destruct (d_gw _ _ s) as [k|]; [exists k|exists (length (d_heap _ _ s))]; auto).
  cbn [ref_ok] in A1. destruct A1 as [K1 K2].
  assert (K3 : d_ga _ _ s <> Some k) by (intros X; exact (Ha3 k X eq_refl)).
  destruct (B5 k K1 K3) as [C1 C2].
  unfold sane, grad_w, grad_a. cbn [d_heap d_gw d_ga d_w d_a d_sw d_sa].
  repeat split; auto.
  - lia.
  - rewrite C1. exact K2.
  - intros k0 X. injection X as <-. exact C2.
  - cbn [stored]. rewrite C1. cbn [stored] in A2. exact A2.
  - rewrite B2, Ha2. reflexivity.
Qed.

Lemma zero_spec h r n : ref_ok h r n ->
  let '(h', r') := zero to_none h r in
  ref_ok h' r' n /\ nothing n (stored h' r') /\ (forall j, r <> Some j -> deref h' j = deref h j) /\ length h' = length h /\ (forall k, r' = Some k -> r = Some k).
Proof.
  intros H. unfold zero. destruct r as [k|]; cbn [ref_ok stored] in *.
  - destruct H as [H1 H2]. destruct to_none; cbn [ref_ok stored].
    + repeat split; auto; [left; reflexivity|discriminate].
    + repeat split.
      * rewrite store_length. exact H1.
      * rewrite deref_same, vscale_length by exact H1. exact H2.
      * right. exists (deref h k). rewrite deref_same by exact H1. auto.
      * intros j X. apply deref_other. congruence.
      * apply store_length.
      * auto.
  - repeat split; auto. left. reflexivity.
Qed.
Lemma zero_w_spec s : sane s ->
  let s' := zero_grad_w SW SA to_none s in
  sane s' /\ d_w _ _ s' = d_w _ _ s /\ d_a _ _ s' = d_a _ _ s /\ d_sw _ _ s' = d_sw _ _ s /\ d_sa _ _ s' = d_sa _ _ s /\
  nothing nw (grad_w s') /\ grad_a s' = grad_a s.
Proof.
  intros (Hw & Ha & Hd). unfold zero_grad_w. pose proof (zero_spec _ _ _ Hw) as Z.
  destruct (zero to_none (d_heap _ _ s) (d_gw _ _ s)) as [h r]. destruct Z as (Z1 & Z2 & Z3 & Z4 & Z5).
  cbn zeta. unfold sane, grad_w, grad_a. cbn [d_heap d_gw d_ga d_w d_a d_sw d_sa].
  assert (E : forall j, d_ga _ _ s = Some j -> deref h j = deref (d_heap _ _ s) j).
  { intros j Ej. apply Z3. intros X. exact (Hd j X Ej). }
  repeat split; auto.
  - destruct (d_ga _ _ s) as [j|]; cbn [ref_ok] in *; [|auto]. rewrite Z4, E by reflexivity. exact Ha.
  - destruct (d_ga _ _ s) as [j|]; cbn [stored]; [|reflexivity]. rewrite E; reflexivity.
Qed.
Lemma zero_a_spec s : sane s ->
  let s' := zero_grad_a SW SA to_none s in
  sane s' /\ d_w _ _ s' = d_w _ _ s /\ d_a _ _ s' = d_a _ _ s /\ d_sw _ _ s' = d_sw _ _ s /\ d_sa _ _ s' = d_sa _ _ s /\
  nothing na (grad_a s') /\ grad_w s' = grad_w s.
Proof.
  intros (Hw & Ha & Hd). unfold zero_grad_a. pose proof (zero_spec _ _ _ Ha) as Z.
  destruct (zero to_none (d_heap _ _ s) (d_ga _ _ s)) as [h r]. destruct Z as (Z1 & Z2 & Z3 & Z4 & Z5).
  cbn zeta. unfold sane, grad_w, grad_a. cbn [d_heap d_gw d_ga d_w d_a d_sw d_sa].
  assert (E : forall j, d_gw _ _ s = Some j -> deref h j = deref (d_heap _ _ s) j).
  { intros j Ej. apply Z3. exact (Hd j Ej). }
  repeat split; auto.
  - destruct (d_gw _ _ s) as [j|]; cbn [ref_ok] in *; [|auto]. rewrite Z4, E by reflexivity. exact Hw.
  - intros k X Y. exact (Hd k X (Z5 k Y)).
  - destruct (d_gw _ _ s) as [j|]; cbn [stored]; [|reflexivity]. rewrite E; reflexivity.
Qed.

Lemma step_w_spec s g : sane s -> grad_w s = Some g ->
  let s' := step_w SW SA stepW s in
  sane s' /\ d_a _ _ s' = d_a _ _ s /\ d_sa _ _ s' = d_sa _ _ s /\ (d_sw _ _ s', d_w _ _ s') = stepW (d_sw _ _ s) (d_w _ _ s) g /\ grad_w s' = grad_w s /\ grad_a s' = grad_a s.
Proof.
  unfold step_w, grad_w. intros H E. destruct (d_gw _ _ s) as [k|] eqn:Ek; [|discriminate]. cbn [stored] in E. injection E as ->.
  destruct (stepW _ _ g) as [o w] eqn:Eo. cbn zeta. unfold sane, grad_a in *. rewrite Ek in *. cbn [d_heap d_gw d_ga d_w d_a d_sw d_sa]. repeat split; try apply H; auto.
Qed.
Lemma step_a_spec s g : sane s -> grad_a s = Some g ->
  let s' := step_a SW SA stepA s in
  sane s' /\ d_w _ _ s' = d_w _ _ s /\ d_sw _ _ s' = d_sw _ _ s /\ (d_sa _ _ s', d_a _ _ s') = stepA (d_sa _ _ s) (d_a _ _ s) g /\ grad_w s' = grad_w s /\ grad_a s' = grad_a s.
Proof.
  unfold step_a, grad_a. intros H E. destruct (d_ga _ _ s) as [k|] eqn:Ek; [|discriminate]. cbn [stored] in E. injection E as ->.
  destruct (stepA _ _ g) as [o w] eqn:Eo. cbn zeta. unfold sane, grad_w in *. rewrite Ek in *. cbn [d_heap d_gw d_ga d_w d_a d_sw d_sa]. repeat split; try apply H; auto.
Qed.

Lemma update_w_spec b s : sane s ->
  let s' := update_w D SW SA dW dA stepW to_none b s in
  sane s' /\ d_a _ _ s' = d_a _ _ s /\ d_sa _ _ s' = d_sa _ _ s /\
  (d_sw _ _ s', d_w _ _ s') = stepW (d_sw _ _ s) (d_w _ _ s) (plus (grad_w s) (dW b (d_w _ _ s) (d_a _ _ s))) /\
  nothing nw (grad_w s') /\ grad_a s' = Some (plus (grad_a s) (dA b (d_w _ _ s) (d_a _ _ s))).
Proof.
  intros H. unfold update_w. cbn zeta.
  destruct (backward_spec b s H) as (A1 & A2 & A3 & A4 & A5 & A6 & A7 & _).
  destruct (step_w_spec _ _ A1 A6) as (B1 & B2 & B3 & B4 & B5 & B6).
  destruct (zero_w_spec _ B1) as (C1 & C2 & C3 & C4 & C5 & C6 & C7).
  rewrite C2, C3, C4, C5, C7, B2, B3, B4, B6, A2, A3, A4, A5, A7. auto 10.
Qed.
Lemma update_a_spec b s : sane s ->
  let s' := update_a D SW SA dW dA stepA to_none b s in
  sane s' /\ d_w _ _ s' = d_w _ _ s /\ d_sw _ _ s' = d_sw _ _ s /\
  (d_sa _ _ s', d_a _ _ s') = stepA (d_sa _ _ s) (d_a _ _ s) (plus (grad_a s) (dA b (d_w _ _ s) (d_a _ _ s))) /\
  nothing na (grad_a s') /\ grad_w s' = Some (plus (grad_w s) (dW b (d_w _ _ s) (d_a _ _ s))).
Proof.
  intros H. unfold update_a. cbn zeta.
  destruct (backward_spec b s H) as (A1 & A2 & A3 & A4 & A5 & A6 & A7 & _).
  destruct (step_a_spec _ _ A1 A7) as (B1 & B2 & B3 & B4 & B5 & B6).
  destruct (zero_a_spec _ B1) as (C1 & C2 & C3 & C4 & C5 & C6 & C7).
  rewrite C2, C3, C4, C5, C7, B2, B3, B4, B5, A2, A3, A4, A5, A6. auto 10.
Qed.

(** * C134: without unrolling *)

(** What DARTS documents: the architecture parameters step along the gradient of the validation loss,
    then the weights along the gradient of the training loss. *)
Fixpoint first_order (batches : list (D * D)) (x : SW * vec * SA * vec) : SW * vec * SA * vec :=
  match batches with
  | [] => x
  | (b, v) :: r =>
      let '(sw, w, sa, a) := x in
      let '(sa', a') := stepA sa a (dA v w a) in
      let '(sw', w') := stepW sw w (dW b w a') in
      first_order r (sw', w', sa', a')
  end.
(** What happens: the gradients of both losses reach both optimizers. *)
Fixpoint mixed (batches : list (D * D)) (left_over : option vec) (x : SW * vec * SA * vec) : SW * vec * SA * vec :=
  match batches with
  | [] => x
  | (b, v) :: r =>
      let '(sw, w, sa, a) := x in
      let '(sa', a') := stepA sa a (plus left_over (dA v w a)) in
      let '(sw', w') := stepW sw w (vadd (dW v w a) (dW b w a')) in
      mixed r (Some (dA b w a')) (sw', w', sa', a')
  end.
Definition view (s : state) : SW * vec * SA * vec := (d_sw _ _ s, d_w _ _ s, d_sa _ _ s, d_a _ _ s).
Notation run := (train_run D SW SA dW dA logs stepW stepA lr momentum weight_decay buffer norm to_none).

Lemma step_false b v s s' l : sane s -> nothing nw (grad_w s) ->
  train_step D SW SA dW dA logs stepW stepA lr momentum weight_decay buffer norm to_none false 2 [b; v] s = Ok (s', l) ->
  let '(sa', a') := stepA (d_sa _ _ s) (d_a _ _ s) (plus (grad_a s) (dA v (d_w _ _ s) (d_a _ _ s))) in
  let '(sw', w') := stepW (d_sw _ _ s) (d_w _ _ s) (vadd (dW v (d_w _ _ s) (d_a _ _ s)) (dW b (d_w _ _ s) a')) in
  sane s' /\ view s' = (sw', w', sa', a') /\ nothing nw (grad_w s') /\ grad_a s' = Some (dA b (d_w _ _ s) a').
Proof.
  intros H Hw E. cbn in E. apply Ok_inj in E. injection E as E _.
  destruct (update_a_spec v s H) as (A1 & A2 & A3 & A4 & A5 & A6). cbn zeta in *.
  destruct (update_w_spec b _ A1) as (B1 & B2 & B3 & B4 & B5 & B6). cbn zeta in *.
  rewrite E in B1, B2, B3, B4, B5, B6. rewrite A2, A3, A6 in B4. rewrite A2 in B6.
  rewrite (plus_nothing _ _ _ Hw (dW_length _ _ _)) in B4. cbn [plus] in B4. rewrite (plus_nothing _ _ _ A5 (dA_length _ _ _)) in B6.
  rewrite <- A4, <- B4. unfold view. rewrite B2, B3. auto.
Qed.
Theorem C134_run_partial batches : forall s s', sane s -> nothing nw (grad_w s) -> run false batches s = Ok s' ->
  view s' = mixed batches (grad_a s) (view s).
Proof.
  induction batches as [|[b v] r IH]; intros s s' H Hw E; cbn [train_run] in E.
  - apply Ok_inj in E. subst. reflexivity.
  - destruct (train_step _ _ _ _ _ _ _ _ _ _ _ _ _ _ false 2 [b; v] s) as [[s1 l]|e] eqn:E1; cbn [bind fst] in E; [|discriminate].
    pose proof (step_false _ _ _ _ _ H Hw E1) as P. cbn [mixed]. unfold view at 2.
    destruct (stepA _ _ (plus (grad_a s) _)) as [sa' a']. destruct (stepW _ _ (vadd _ _)) as [sw' w'].
    destruct P as (P1 & P2 & P3 & P4). rewrite (IH _ _ P1 P3 E), P2, P4. reflexivity.
Qed.
(** The first step of the architecture parameters is the documented one. *)
Theorem C134_first_partial b v s s' l : clean s ->
  train_step D SW SA dW dA logs stepW stepA lr momentum weight_decay buffer norm to_none false 2 [b; v] s = Ok (s', l) ->
  (d_sa _ _ s', d_a _ _ s') = stepA (d_sa _ _ s) (d_a _ _ s) (dA v (d_w _ _ s) (d_a _ _ s)).
Proof.
  intros (H & Hw & Ha) E. pose proof (step_false _ _ _ _ _ H Hw E) as P.
  rewrite (plus_nothing _ _ _ Ha (dA_length _ _ _)) in P.
  destruct (stepA _ _ (dA _ _ _)) as [sa' a']. destruct (stepW _ _ (vadd _ _)) as [sw' w'].
  destruct P as (_ & P & _). unfold view in P. congruence.
Qed.

(** * C135: with unrolling *)

(** The documented gradient of the architecture parameters (arXiv:1806.09055, equations 7 and 8). *)
Definition unrolled_gradient (b v : D) (sw : SW) (w a : vec) : vec :=
  let w' := vsub w (vscale lr (vadd (vscale momentum (buffer sw)) (vadd (dW b w a) (vscale weight_decay w)))) in
  let dw := dW v w' a in
  let eps := / 100 / norm dw in
  let wp := vadd w (vscale eps dw) in
  let wm := vsub w (vscale eps dw) in
  vsub (dA v w' a) (vscale lr (vscale (/ (2 * eps)) (vsub (dA b wp a) (dA b wm a)))).
(** The weights that are tried and the sum that is computed. *)
Definition direction (b v : D) (w a : vec) : vec := vadd (dW b w a) (dW v w a).
Definition tried1 (b v : D) (w a : vec) : vec := vadd w (vscale (/ 100 / norm (direction b v w a)) (direction b v w a)).
Definition direction2 (b v : D) (w a : vec) : vec := vadd (direction b v w a) (dW b (tried1 b v w a) a).
Definition tried2 (b v : D) (w a : vec) : vec := vadd (tried1 b v w a) (vscale (- 2 * (/ 100 / norm (direction b v w a))) (direction2 b v w a)).
Definition summed_a (b v : D) (w a : vec) : vec :=
  vadd (vadd (vadd (dA b w a) (dA v w a)) (dA b (tried1 b v w a) a)) (dA b (tried2 b v w a) a).
Definition summed_w (b v : D) (w a : vec) : vec := vadd (direction2 b v w a) (dW b (tried2 b v w a) a).

Lemma set_w_spec w s : sane s -> sane (set_w SW SA w s) /\ grad_w (set_w SW SA w s) = grad_w s /\ grad_a (set_w SW SA w s) = grad_a s.
Proof. intros H. unfold sane, grad_w, grad_a, set_w in *. cbn [d_heap d_gw d_ga]. auto. Qed.

Lemma shifted_spec e b s j k : sane s -> d_gw _ _ s = Some k -> d_ga _ _ s = Some j ->
  let s' := shifted D SW SA dW dA e k b s in
  let w' := vadd (d_w _ _ s) (vscale e (deref (d_heap _ _ s) k)) in
  sane s' /\ d_w _ _ s' = w' /\ d_a _ _ s' = d_a _ _ s /\ d_sw _ _ s' = d_sw _ _ s /\ d_sa _ _ s' = d_sa _ _ s /\
  d_gw _ _ s' = Some k /\ d_ga _ _ s' = Some j /\
  deref (d_heap _ _ s') k = vadd (deref (d_heap _ _ s) k) (dW b w' (d_a _ _ s)) /\
  deref (d_heap _ _ s') j = vadd (deref (d_heap _ _ s) j) (dA b w' (d_a _ _ s)).
Proof.
  intros H Hk Hj. cbn zeta. unfold shifted.
  set (w' := vadd (d_w _ _ s) (vscale e (deref (d_heap _ _ s) k))).
  destruct (set_w_spec w' s H) as (S1 & S2 & S3).
  destruct (backward_spec b (set_w SW SA w' s) S1) as (A1 & A2 & A3 & A4 & A5 & A6 & A7 & A8 & A9). cbn zeta in *.
  specialize (A8 k Hk). specialize (A9 j Hj). rewrite S2 in A6. rewrite S3 in A7.
  unfold grad_w, grad_a in A6, A7. rewrite A8, Hk in A6. rewrite A9, Hj in A7. cbn [stored plus] in A6, A7.
  injection A6 as A6. injection A7 as A7. split; [exact A1|]. split; [exact A2|]. repeat split; auto.
Qed.

Lemma unrolled_spec b v s s' l : sane s -> nothing nw (grad_w s) -> nothing na (grad_a s) ->
  unrolled_backward D SW SA dW dA logs lr momentum weight_decay buffer norm v b s = Ok (s', l) ->
  sane s' /\ view s' = view s /\ l = logs v (d_w _ _ s) (d_a _ _ s) /\
  grad_a s' = Some (summed_a b v (d_w _ _ s) (d_a _ _ s)) /\ grad_w s' = Some (summed_w b v (d_w _ _ s) (d_a _ _ s)).
Proof.
  intros H Hw Ha E. unfold unrolled_backward, compute_virtual_model in E.
  destruct (backward_spec b s H) as (A1 & A2 & A3 & A4 & A5 & A6 & A7 & _). cbn zeta in *.
  set (s1 := backward D SW SA dW dA b s) in *.
  rewrite (plus_nothing _ _ _ Hw (dW_length _ _ _)) in A6. rewrite (plus_nothing _ _ _ Ha (dA_length _ _ _)) in A7.
  assert (exists k, d_gw _ _ s1 = Some k) as [k Hk] by (unfold grad_w in A6; destruct (d_gw _ _ s1) as [k|]; [eauto|discriminate]).
  assert (exists j, d_ga _ _ s1 = Some j) as [j Hj] by (unfold grad_a in A7; destruct (d_ga _ _ s1) as [j|]; [eauto|discriminate]).
  rewrite Hk in E. cbn [grad_of bind] in E.
  destruct (backward_spec v s1 A1) as (B1 & B2 & B3 & B4 & B5 & B6 & B7 & B8 & B9). cbn zeta in *.
  set (s2 := backward D SW SA dW dA v s1) in *. specialize (B8 k Hk). specialize (B9 j Hj).
  rewrite B8, B9 in E. cbn [grad_of bind] in E.
  rewrite A6 in B6. rewrite A7 in B7. rewrite A2, A3 in B6, B7. cbn [plus] in B6, B7.
  unfold grad_w in B6. unfold grad_a in B7. rewrite B8 in B6. rewrite B9 in B7. cbn [stored] in B6, B7. injection B6 as B6. injection B7 as B7.
  unfold compute_hessian, restore_weights in E.
  set (s2r := set_w SW SA (d_w SW SA s) s2) in *.
  assert (R1 : sane s2r) by (apply (set_w_spec _ s2 B1)).
  assert (R2 : d_gw _ _ s2r = Some k) by exact B8. assert (R3 : d_ga _ _ s2r = Some j) by exact B9.
  change (d_heap _ _ s2r) with (d_heap _ _ s2) in E. rewrite B6 in E.
  change (vadd (dW b (d_w _ _ s) (d_a _ _ s)) (dW v (d_w _ _ s) (d_a _ _ s))) with (direction b v (d_w _ _ s) (d_a _ _ s)) in *.
  set (eps := / 100 / norm (direction b v (d_w _ _ s) (d_a _ _ s))) in *.
  destruct (shifted_spec eps b s2r j k R1 R2 R3) as (C1 & C2 & C3 & C4 & C5 & C6 & C7 & C8 & C9). cbn zeta in *.
  set (s3 := shifted D SW SA dW dA eps k b s2r) in *.
  rewrite C7 in E. cbn [grad_of bind] in E.
  destruct (shifted_spec (- 2 * eps) b s3 j k C1 C6 C7) as (F1 & F2 & F3 & F4 & F5 & F6 & F7 & F8 & F9). cbn zeta in *.
  set (s4 := shifted D SW SA dW dA (- 2 * eps) k b s3) in *.
  rewrite F7 in E. cbn [grad_of bind fst snd] in E. apply Ok_inj in E. injection E as E El.
  change (d_heap _ _ s2r) with (d_heap _ _ s2) in *. change (d_w _ _ s2r) with (d_w _ _ s) in *. change (d_a _ _ s2r) with (d_a _ _ s2) in *.
  rewrite B3, A3 in *. rewrite B6 in C2, C8, C9. rewrite B7 in C9.
  change (vadd (d_w _ _ s) (vscale eps (direction b v (d_w _ _ s) (d_a _ _ s)))) with (tried1 b v (d_w _ _ s) (d_a _ _ s)) in *.
  rewrite C3 in F3, F8, F9. rewrite C2, C8 in F2, F8, F9. rewrite C9 in F9.
  change (vadd (direction b v (d_w _ _ s) (d_a _ _ s)) (dW b (tried1 b v (d_w _ _ s) (d_a _ _ s)) (d_a _ _ s))) with (direction2 b v (d_w _ _ s) (d_a _ _ s)) in *.
  change (vadd (tried1 b v (d_w _ _ s) (d_a _ _ s)) (vscale (- 2 * eps) (direction2 b v (d_w _ _ s) (d_a _ _ s)))) with (tried2 b v (d_w _ _ s) (d_a _ _ s)) in *.
  destruct F1 as (G1 & G2 & G3). rewrite F6 in G1. rewrite F7 in G2. cbn [ref_ok] in G1, G2.
  assert (Lg : length (deref (d_heap _ _ s4) j) = na) by (apply G2).
  rewrite vscale_vscale_sub in E by reflexivity.
  rewrite <- E. unfold sane, view, grad_w, grad_a, set_w. cbn [d_heap d_gw d_ga d_w d_a d_sw d_sa].
  rewrite F6. cbn [stored ref_ok]. rewrite deref_last, deref_app by apply G1.
  rewrite app_length. cbn [length]. repeat split.
  - lia.
  - apply G1.
  - lia.
  - exact Lg.
  - intros k0 X Y. injection X as <-. injection Y as Y. lia.
  - rewrite F3, F4, F5, C4, C5. change (d_sw _ _ s2r) with (d_sw _ _ s2). change (d_sa _ _ s2r) with (d_sa _ _ s2). rewrite B4, B5, A4, A5. reflexivity.
  - symmetry. rewrite <- A2. exact El.
  - rewrite F9. reflexivity.
  - rewrite F8. reflexivity.
Qed.

(** What is documented and what happens over a training run. *)
Fixpoint second_order (batches : list (D * D)) (x : SW * vec * SA * vec) : SW * vec * SA * vec :=
  match batches with
  | [] => x
  | (b, v) :: r =>
      let '(sw, w, sa, a) := x in
      let '(sa', a') := stepA sa a (unrolled_gradient b v sw w a) in
      let '(sw', w') := stepW sw w (dW b w a') in
      second_order r (sw', w', sa', a')
  end.
Fixpoint summed (batches : list (D * D)) (x : SW * vec * SA * vec) : SW * vec * SA * vec :=
  match batches with
  | [] => x
  | (b, v) :: r =>
      let '(sw, w, sa, a) := x in
      let '(sa', a') := stepA sa a (summed_a b v w a) in
      let '(sw', w') := stepW sw w (vadd (summed_w b v w a) (dW b w a')) in
      summed r (sw', w', sa', a')
  end.
Lemma step_true b v s s' l : sane s -> nothing nw (grad_w s) ->
  train_step D SW SA dW dA logs stepW stepA lr momentum weight_decay buffer norm to_none true 2 [b; v] s = Ok (s', l) ->
  let '(sa', a') := stepA (d_sa _ _ s) (d_a _ _ s) (summed_a b v (d_w _ _ s) (d_a _ _ s)) in
  let '(sw', w') := stepW (d_sw _ _ s) (d_w _ _ s) (vadd (summed_w b v (d_w _ _ s) (d_a _ _ s)) (dW b (d_w _ _ s) a')) in
  sane s' /\ view s' = (sw', w', sa', a') /\ nothing nw (grad_w s').
Proof.
  intros H Hw E. unfold train_step in E. cbn [length Nat.eqb assert_ bind] in E.
  destruct (zero_a_spec s H) as (Z1 & Z2 & Z3 & Z4 & Z5 & Z6 & Z7). cbn zeta in *.
  destruct (unrolled_backward _ _ _ _ _ _ _ _ _ _ _ v b (zero_grad_a SW SA to_none s)) as [[u lu]|e] eqn:Eu; cbn [bind fst snd] in E; [|discriminate].
  rewrite <- Z7 in Hw. destruct (unrolled_spec _ _ _ _ _ Z1 Hw Z6 Eu) as (U1 & U2 & U3 & U4 & U5).
  rewrite Z2, Z3 in U4, U5. unfold view in U2. injection U2 as V1 V2 V3 V4.
  destruct (step_a_spec _ _ U1 U4) as (A1 & A2 & A3 & A4 & A5 & A6). cbn zeta in *.
  apply Ok_inj in E. injection E as E _.
  destruct (update_w_spec b _ A1) as (B1 & B2 & B3 & B4 & B5 & B6). cbn zeta in *.
  rewrite E in B1, B2, B3, B4, B5, B6. rewrite A2, A3, A5, U5 in B4. cbn [plus] in B4.
  rewrite V1, V2 in B4. rewrite V3, V4 in A4. rewrite Z4, Z2 in B4. rewrite Z5, Z3 in A4.
  rewrite <- A4, <- B4. unfold view. rewrite B2, B3. auto.
Qed.
Theorem C135_run_partial batches : forall s s', sane s -> nothing nw (grad_w s) -> run true batches s = Ok s' ->
  view s' = summed batches (view s).
Proof.
  induction batches as [|[b v] r IH]; intros s s' H Hw E; cbn [train_run] in E.
  - apply Ok_inj in E. subst. reflexivity.
  - destruct (train_step _ _ _ _ _ _ _ _ _ _ _ _ _ _ true 2 [b; v] s) as [[s1 l]|e] eqn:E1; cbn [bind fst] in E; [|discriminate].
    pose proof (step_true _ _ _ _ _ H Hw E1) as P. cbn [summed]. unfold view at 2.
    destruct (stepA _ _ (summed_a _ _ _ _)) as [sa' a']. destruct (stepW _ _ (vadd _ _)) as [sw' w'].
    destruct P as (P1 & P2 & P3). rewrite (IH _ _ P1 P3 E), P2. reflexivity.
Qed.

(** * C136: what the unrolled backward pass leaves behind, accepted data and logs *)

(** All weights that were tried are undone; parameters and optimizers are as before, whatever gradients were stored. *)
Theorem C136_restored b v s s' l :
  unrolled_backward D SW SA dW dA logs lr momentum weight_decay buffer norm v b s = Ok (s', l) -> view s' = view s.
Proof.
  assert (B : forall c x, view (backward D SW SA dW dA c x) = view x).
  { intros c x. unfold backward, view. destruct (accumulate (d_heap _ _ x) _ _) as [h g]. destruct (accumulate h _ _) as [h' g']. reflexivity. }
  assert (Sh : forall e k c x, (d_sw _ _ (shifted D SW SA dW dA e k c x), d_sa _ _ (shifted D SW SA dW dA e k c x), d_a _ _ (shifted D SW SA dW dA e k c x)) = (d_sw _ _ x, d_sa _ _ x, d_a _ _ x)).
  { intros e k c x. unfold shifted. pose proof (B c (set_w SW SA (vadd (d_w SW SA x) (vscale e (deref (d_heap SW SA x) k))) x)) as P.
    unfold view in P. cbn [set_w d_sw d_sa d_a d_w] in P. congruence. }
  intros E. unfold unrolled_backward, compute_virtual_model in E.
  pose proof (B b s) as P1. pose proof (B v (backward D SW SA dW dA b s)) as P2.
  set (s1 := backward D SW SA dW dA b s) in *. set (s2 := backward D SW SA dW dA v s1) in *.
  destruct (grad_of (d_gw SW SA s1)); cbn [bind] in E; [|discriminate]. fold s2 in E.
  destruct (grad_of (d_gw SW SA s2)) as [k|]; cbn [bind] in E; [|discriminate].
  destruct (grad_of (d_ga SW SA s2)); cbn [bind] in E; [|discriminate].
  unfold compute_hessian, restore_weights in E.
  match type of E with context [shifted _ _ _ _ _ ?e k b (set_w _ _ _ s2)] => pose proof (Sh e k b (set_w SW SA (d_w SW SA s) s2)) as Q1; set (s3 := shifted D SW SA dW dA e k b (set_w SW SA (d_w SW SA s) s2)) in * end.
  destruct (grad_of (d_ga SW SA s3)); cbn [bind] in E; [|discriminate].
  match type of E with context [shifted _ _ _ _ _ ?e k b s3] => pose proof (Sh e k b s3) as Q2; set (s4 := shifted D SW SA dW dA e k b s3) in * end.
  destruct (grad_of (d_ga SW SA s4)); cbn [bind fst snd] in E; [|discriminate].
  apply Ok_inj in E. injection E as <- _. unfold view in *. cbn [set_w d_sw d_sa d_a d_w] in *. congruence.
Qed.

(** Two batches and two optimizers are needed, and nothing else. *)
Theorem C136_accepts unroll n data s : sane s ->
  (exists r, train_step D SW SA dW dA logs stepW stepA lr momentum weight_decay buffer norm to_none unroll n data s = Ok r) <->
  length data = 2%nat /\ n = 2%nat.
Proof.
  intros Hs. unfold train_step. split.
  - intros [r E]. destruct (Nat.eqb_spec (length data) n) as [L|]; cbn [assert_ bind] in E; [|discriminate].
    destruct data as [|b [|v [|x y]]]; try discriminate. cbn [length] in L. auto.
  - intros [L ->]. destruct data as [|b [|v [|x y]]]; try discriminate. cbn [length Nat.eqb assert_ bind].
    destruct unroll; [|cbn [bind]; eauto].
    destruct (zero_a_spec s Hs) as (Z1 & _). cbn zeta in Z1. set (z := zero_grad_a SW SA to_none s) in *.
    unfold unrolled_backward, compute_virtual_model.
    assert (refs : forall c x, sane x -> exists k j, d_gw _ _ (backward D SW SA dW dA c x) = Some k /\ d_ga _ _ (backward D SW SA dW dA c x) = Some j /\ sane (backward D SW SA dW dA c x)).
    { intros c x Hx. destruct (backward_spec c x Hx) as (A1 & _ & _ & _ & _ & A6 & A7 & _). cbn zeta in *.
      unfold grad_w in A6. unfold grad_a in A7.
      destruct (d_gw _ _ (backward D SW SA dW dA c x)) as [k|]; [|discriminate]. destruct (d_ga _ _ (backward D SW SA dW dA c x)) as [j|]; [|discriminate]. eauto. }
    destruct (refs b z Z1) as (k1 & j1 & E1 & F1 & G1). rewrite E1. cbn [grad_of bind].
    destruct (refs v _ G1) as (k2 & j2 & E2 & F2 & G2). rewrite E2, F2. cbn [grad_of bind].
    unfold compute_hessian, shifted, restore_weights.
    match goal with |- context [backward D SW SA dW dA b (set_w _ _ ?w (set_w _ _ ?w0 ?x))] =>
      destruct (refs b (set_w SW SA w (set_w SW SA w0 x))) as (k3 & j3 & E3 & F3 & G3); [apply set_w_spec, set_w_spec; exact G2|] end.
    rewrite F3. cbn [grad_of bind].
    match goal with |- context [grad_of (d_ga _ _ (backward D SW SA dW dA b ?y))] =>
      destruct (refs b y) as (k4 & j4 & E4 & F4 & G4); [apply set_w_spec; exact G3|] end.
    rewrite F4. cbn [grad_of bind]. eauto.
Qed.

(** The values that are logged. *)
Fixpoint at_key (d : subnet) (k : string) : option string :=
  match d with [] => None | (k0, v) :: r => if String.eqb k0 k then Some v else at_key r k end.
Lemma at_dput d k v : forall k', at_key (dput d k v) k' = if String.eqb k k' then Some v else at_key d k'.
Proof.
  induction d as [|[k0 v0] r IH]; intros k'; cbn [dput at_key]; [reflexivity|].
  destruct (String.eqb_spec k0 k) as [->|N]; cbn [at_key].
  - destruct (String.eqb k k'); reflexivity.
  - rewrite IH. destruct (String.eqb_spec k0 k'), (String.eqb_spec k k'); congruence.
Qed.
Lemma at_absent e k : ~ In k (map fst e) -> at_key e k = None.
Proof.
  induction e as [|[k0 v0] r IH]; intros H; cbn [at_key map fst In] in *; [reflexivity|].
  destruct (String.eqb_spec k0 k); [exfalso; auto|]. apply IH. auto.
Qed.
Lemma at_dupdate e : NoDup (map fst e) -> forall d k, at_key (dupdate d e) k = match at_key e k with Some v => Some v | None => at_key d k end.
Proof.
  unfold dupdate. induction e as [|[k0 v0] r IH]; intros H d k; cbn [fold_left at_key fst snd map] in *; [reflexivity|].
  inversion H as [|? ? N ND]; subst. rewrite (IH ND), at_dput.
  destruct (String.eqb_spec k0 k) as [->|]; [|reflexivity]. rewrite at_absent by exact N. reflexivity.
Qed.
Lemma dot_inj p k k' : (p ++ "." ++ k)%string = (p ++ "." ++ k')%string -> k = k'.
Proof. intros E. apply append_inj in E. apply (append_inj ".") in E. exact E. Qed.
Lemma at_prefix p l k : at_key (add_prefix p l) (p ++ "." ++ k)%string = at_key l k.
Proof.
  unfold add_prefix. induction l as [|[k0 v0] r IH]; cbn [map at_key fst snd]; [reflexivity|]. rewrite IH.
  destruct (String.eqb_spec (p ++ "." ++ k0)%string (p ++ "." ++ k)%string) as [E|N], (String.eqb_spec k0 k) as [E'|N']; try reflexivity.
  - apply dot_inj in E. congruence.
  - congruence.
Qed.
Lemma prefix_nodup p l : NoDup (map fst l) -> NoDup (map fst (add_prefix p l)).
Proof.
  unfold add_prefix. rewrite map_map. induction l as [|[k v] r IH]; cbn [map fst]; intros H; [constructor|].
  inversion H as [|? ? N ND]; subst. constructor; [|auto]. intros X. apply N. apply in_map_iff in X. destruct X as [[k' v'] [E I]].
  cbn [fst] in E. apply dot_inj in E. subst. apply (in_map fst) in I. exact I.
Qed.
Lemma other_prefix p q l k : (forall x, (p ++ "." ++ x)%string <> (q ++ "." ++ k)%string) -> at_key (add_prefix p l) (q ++ "." ++ k)%string = None.
Proof.
  intros H. apply at_absent. intros X. unfold add_prefix in X. rewrite map_map in X. apply in_map_iff in X. destruct X as [[k' v'] [E _]].
  exact (H _ E).
Qed.
Hypothesis logs_nodup : forall b w a, NoDup (map fst (logs b w a)).
(** The losses of the mutator's batch are those before the step and the ones of the supernet's batch those after the
    step of the architecture parameters. *)
Theorem C136_logs unroll b v s s' l k : sane s -> nothing nw (grad_w s) ->
  train_step D SW SA dW dA logs stepW stepA lr momentum weight_decay buffer norm to_none unroll 2 [b; v] s = Ok (s', l) ->
  at_key l ("mutator." ++ k)%string = at_key (logs v (d_w _ _ s) (d_a _ _ s)) k /\
  at_key l ("supernet." ++ k)%string = at_key (logs b (d_w _ _ s) (d_a _ _ s')) k.
Proof.
  intros H Hw E. unfold train_step in E. cbn [length Nat.eqb assert_ bind] in E.
  assert (P : forall s1 lm, d_w _ _ s1 = d_w _ _ s -> sane s1 -> lm = logs v (d_w _ _ s) (d_a _ _ s) ->
    Ok (update_w D SW SA dW dA stepW to_none b s1, dupdate (dupdate [] (add_prefix "mutator" lm)) (add_prefix "supernet" (logs b (d_w _ _ s1) (d_a _ _ s1)))) = Ok (s', l) ->
    at_key l ("mutator." ++ k)%string = at_key (logs v (d_w _ _ s) (d_a _ _ s)) k /\
    at_key l ("supernet." ++ k)%string = at_key (logs b (d_w _ _ s) (d_a _ _ s')) k).
  { intros s1 lm W Sa -> X. apply Ok_inj in X. injection X as X1 X2. subst l.
    destruct (update_w_spec b s1 Sa) as (_ & B2 & _). cbn zeta in B2. rewrite X1 in B2. rewrite B2, <- W.
    change ("mutator." ++ k)%string with ("mutator" ++ "." ++ k)%string. change ("supernet." ++ k)%string with ("supernet" ++ "." ++ k)%string.
    rewrite !at_dupdate by (apply prefix_nodup; apply logs_nodup). split.
    - rewrite (other_prefix "supernet" "mutator") by (intros x X; discriminate X). rewrite at_prefix. cbn [at_key]. destruct (at_key _ k); reflexivity.
    - rewrite at_prefix, (other_prefix "mutator" "supernet") by (intros x X; discriminate X). cbn [at_key]. destruct (at_key _ k); reflexivity. }
  destruct unroll.
  - destruct (unrolled_backward _ _ _ _ _ _ _ _ _ _ _ v b (zero_grad_a SW SA to_none s)) as [[u lu]|e] eqn:Eu; cbn [bind fst snd] in E; [|discriminate].
    destruct (zero_a_spec s H) as (Z1 & Z2 & Z3 & Z4 & Z5 & Z6 & Z7). cbn zeta in *. rewrite <- Z7 in Hw.
    destruct (unrolled_spec _ _ _ _ _ Z1 Hw Z6 Eu) as (U1 & U2 & U3 & U4 & U5). unfold view in U2. injection U2 as V1 V2 V3 V4.
    destruct (step_a_spec _ _ U1 U4) as (A1 & A2 & _). cbn zeta in *.
    apply (P _ _) in E; auto; congruence.
  - cbn [bind fst snd] in E. destruct (update_a_spec v s H) as (A1 & A2 & _). cbn zeta in *. apply (P _ _) in E; auto.
Qed.
End Props.

(** * The full claims *)

(** Gradients of losses, optimizers and a run from a model without gradients. *)
Definition C134_claim : Prop :=
  forall (D SW SA : Type) dW dA logs stepW stepA lr momentum weight_decay buffer norm to_none nw na,
  (forall b w a, length (dW b w a) = nw) -> (forall b w a, length (dA b w a) = na) ->
  forall batches s s', clean SW SA nw na s ->
  train_run D SW SA dW dA logs stepW stepA lr momentum weight_decay buffer norm to_none false batches s = Ok s' ->
  view SW SA s' = first_order D SW SA dW dA stepW stepA batches (view SW SA s).
(** Of the architecture parameters only. *)
Definition C134_arch_claim : Prop :=
  forall (D SW SA : Type) dW dA logs stepW stepA lr momentum weight_decay buffer norm to_none nw na,
  (forall b w a, length (dW b w a) = nw) -> (forall b w a, length (dA b w a) = na) ->
  (* the gradient of the architecture parameters does not depend on the weights *)
  (forall b w w' a, dA b w a = dA b w' a) ->
  forall batches s s', clean SW SA nw na s ->
  train_run D SW SA dW dA logs stepW stepA lr momentum weight_decay buffer norm to_none false batches s = Ok s' ->
  snd (view SW SA s') = snd (first_order D SW SA dW dA stepW stepA batches (view SW SA s)).
Definition C135_claim : Prop :=
  forall (D SW SA : Type) dW dA logs stepW stepA lr momentum weight_decay buffer norm to_none nw na,
  (forall b w a, length (dW b w a) = nw) -> (forall b w a, length (dA b w a) = na) ->
  forall batches s s', clean SW SA nw na s ->
  train_run D SW SA dW dA logs stepW stepA lr momentum weight_decay buffer norm to_none true batches s = Ok s' ->
  view SW SA s' = second_order D SW SA dW dA stepW stepA lr momentum weight_decay buffer norm batches (view SW SA s).

(** One weight and one architecture parameter, added to give the prediction: batch [b] has the loss
    (w + a) b; plain gradient descent with learning rate 1. *)
Definition demo_grad (b : R) (w a : vec) : vec := [b].
Definition demo_opt (s : unit) (p g : vec) : unit * vec := (tt, vsub p g).
Definition demo_logs (b : R) (w a : vec) : subnet := [("loss", "1")].
Notation demo_run := (train_run R unit unit demo_grad demo_grad demo_logs demo_opt demo_opt 1 0 0 (fun _ => [0]) (fun v => fold_right Rplus 0 (map Rabs v)) true).
Definition demo_state : dstate unit unit := {| d_w := [10]; d_a := [10]; d_gw := None; d_ga := None; d_heap := []; d_sw := tt; d_sa := tt |}.
Lemma demo_clean : clean unit unit 1 1 demo_state.
Proof. unfold clean, sane, nothing, grad_w, grad_a. cbn. repeat split; auto; discriminate. Qed.
Ltac reals := cbv -[Rplus Rmult Ropp Rinv IZR Rdiv Rminus Rabs].
Lemma demo_length b w a : length (demo_grad b w a) = 1%nat. Proof. reflexivity. Qed.

(** The weight steps along the sum of the gradients of both losses. *)
Theorem C134_refuted : ~ C134_claim.
Proof.
  intros H. specialize (H R unit unit demo_grad demo_grad demo_logs demo_opt demo_opt 1 0 0 (fun _ => [0]) (fun v => fold_right Rplus 0 (map Rabs v)) true 1%nat 1%nat demo_length demo_length [(1, 2)] demo_state _ demo_clean eq_refl).
  apply (f_equal (fun x => hd 0 (snd (fst (fst x))))) in H. revert H. reals. lra.
Qed.
(** In the second iteration the gradient of the training loss of the first one is added. *)
Theorem C134_arch_refuted : ~ C134_arch_claim.
Proof.
  intros H. specialize (H R unit unit demo_grad demo_grad demo_logs demo_opt demo_opt 1 0 0 (fun _ => [0]) (fun v => fold_right Rplus 0 (map Rabs v)) true 1%nat 1%nat demo_length demo_length (fun _ _ _ _ => eq_refl) [(1, 2); (3, 5)] demo_state _ demo_clean eq_refl).
  apply (f_equal (hd 0)) in H. revert H. reals. lra.
Qed.
Example C135_example : exists s, demo_run true [(1, 2)] demo_state = Ok s /\ d_w _ _ s = [10 - (1 + 2 + 1 + 1) - 1] /\ d_a _ _ s = [10 - (1 + 2 + 1 + 1)].
Proof. eexists. split; [reals; reflexivity|]. reals. split; f_equal; lra. Qed.
Lemma demo_unrolled norm : unrolled_gradient R unit demo_grad demo_grad 1 0 0 (fun _ => [0]) norm 1 2 tt [10] [10] = [2].
Proof. unfold unrolled_gradient. unfold demo_grad. cbv zeta. apply (vscale_vscale_sub _ _ [1] [2]). reflexivity. Qed.
Lemma demo_second norm : snd (second_order R unit unit demo_grad demo_grad demo_opt demo_opt 1 0 0 (fun _ => [0]) norm [(1, 2)] (tt, [10], tt, [10])) = vsub [10] [2].
Proof. unfold second_order, demo_opt. rewrite demo_unrolled. reflexivity. Qed.
(** The architecture parameter steps along four gradients and not along the unrolled one. *)
Theorem C135_refuted : ~ C135_claim.
Proof.
  intros H. destruct C135_example as (s & E & _ & Ea). 
  specialize (H R unit unit demo_grad demo_grad demo_logs demo_opt demo_opt 1 0 0 (fun _ => [0]) (fun v => fold_right Rplus 0 (map Rabs v)) true 1%nat 1%nat demo_length demo_length [(1, 2)] demo_state s demo_clean E).
  apply (f_equal snd) in H. change (view unit unit demo_state) with (tt, [10], tt, [10]) in H. rewrite demo_second in H.
  unfold view in H. cbn [snd] in H. rewrite Ea in H. unfold vsub, vscale in H. cbn [map vadd] in H. injection H as H. lra.
Qed.

(** Examples: the mixed run of two iterations, the first step, the unrolled run. *)
Example C134_example : exists s, demo_run false [(1, 2); (3, 5)] demo_state = Ok s /\ d_w _ _ s = [10 - (2 + 1) - (5 + 3)] /\ d_a _ _ s = [10 - 2 - (1 + 5)].
Proof. eexists. split; [reals; reflexivity|]. reals. split; f_equal; lra. Qed.
Example C134_example_spec : mixed R unit unit demo_grad demo_grad demo_opt demo_opt [(1, 2); (3, 5)] None (tt, [10], tt, [10]) = (tt, [-1], tt, [2]).
Proof. reals. repeat f_equal; lra. Qed.
Example C136_example_restored : exists s l, unrolled_backward R unit unit demo_grad demo_grad demo_logs 1 0 0 (fun _ => [0]) (fun v => fold_right Rplus 0 (map Rabs v)) 2 1 demo_state = Ok (s, l) /\ d_w _ _ s = [10] /\ d_a _ _ s = [10].
Proof. eexists _, _. split; [reals; reflexivity|]. reals. auto. Qed.
Example C136_example_accepts :
  train_step R unit unit demo_grad demo_grad demo_logs demo_opt demo_opt 1 0 0 (fun _ => [0]) (fun v => fold_right Rplus 0 (map Rabs v)) true false 3 [1; 2] demo_state = Raise AssertionError /\
  train_step R unit unit demo_grad demo_grad demo_logs demo_opt demo_opt 1 0 0 (fun _ => [0]) (fun v => fold_right Rplus 0 (map Rabs v)) true false 3 [1; 2; 3] demo_state = Raise ValueError.
Proof. split; reflexivity. Qed.
Example C136_example_logs : exists s, 
  train_step R unit unit demo_grad demo_grad demo_logs demo_opt demo_opt 1 0 0 (fun _ => [0]) (fun v => fold_right Rplus 0 (map Rabs v)) true true 2 [1; 2] demo_state = Ok (s, [("mutator.loss", "1"); ("supernet.loss", "1")]).
Proof. eexists. reals. reflexivity. Qed.

Print Assumptions C134_run_partial.
Print Assumptions C134_first_partial.
Print Assumptions C134_refuted.
Print Assumptions C134_arch_refuted.
Print Assumptions C135_run_partial.
Print Assumptions C135_refuted.
Print Assumptions C136_restored.
Print Assumptions C136_accepts.
Print Assumptions C136_logs.
