(** C152, continued: the conditions are exact for the ShuffleNet and DARTS operations; operations that can be built
    and yet do not return the shape of their choice. *)
From Coq Require Import List ZArith Bool Lia.
From Verif Require Import Prelude OpShapes_Model OpShapes_Props.
Import ListNotations.
Local Open Scope Z_scope.

(** The operations with exact conditions. *)
Definition settled (o : op) (c : args) : Prop :=
  match o with
  | ShuffleBlock _ | ShuffleXception | IdentityOp | DartsDilConv _ | DartsSepConv _ | DartsZero => True
  | DartsPoolBN k => k = 3
  | DartsSkipConnect => a_stride c = 1 \/ a_stride c = 2
  | _ => False
  end.

Lemma assert_ok b (k : outcome unit) : (do _ <- assert_ b; k) = Ok tt -> b = true /\ k = Ok tt.
Proof. destruct b; cbn; [auto | discriminate]. Qed.
Lemma bind_ok {X Y} (o : outcome X) (f : X -> outcome Y) y : bind o f = Ok y -> exists v, o = Ok v /\ f v = Ok y.
Proof. destruct o; cbn; [eauto | discriminate]. Qed.
Lemma bn_ok n x y : bn n x = Ok y -> ch x = n /\ y = x.
Proof. unfold bn. destruct (ch x =? n) eqn:E; intros H; [|discriminate]. apply Ok_inj in H. apply Z.eqb_eq in E. auto. Qed.
Lemma conv_ok i o k s p d x y : conv i o k s p d x = Ok y ->
  ch x = i /\ y = {| ch := o; ht := (ht x + 2 * p - d * (k - 1) - 1) / s + 1; wd := (wd x + 2 * p - d * (k - 1) - 1) / s + 1 |}.
Proof.
  unfold conv. destruct (ch x =? i) eqn:E; cbn [negb orb]; [|discriminate].
  destruct ((ht x + 2 * p <? d * (k - 1) + 1) || (wd x + 2 * p <? d * (k - 1) + 1)); intros H; [discriminate|].
  apply Ok_inj in H. apply Z.eqb_eq in E. auto.
Qed.
Lemma cat_ok x y z : cat x y = Ok z -> ht x = ht y /\ wd x = wd y /\ z = {| ch := ch x + ch y; ht := ht x; wd := wd x |}.
Proof.
  unfold cat. destruct (ht x =? ht y) eqn:A, (wd x =? wd y) eqn:B; cbn; intros H; try discriminate.
  apply Ok_inj in H. apply Z.eqb_eq in A, B. auto.
Qed.
Lemma new_shuffle_inv c : new_shuffle c = Ok tt -> a_stride c = 1 -> a_in c = a_out c / 2 * 2.
Proof. unfold new_shuffle. cbv zeta. intros H E. rewrite E in H. cbn [Z.eqb Pos.eqb] in H. apply assert_ok in H. apply Z.eqb_eq. tauto. Qed.
(** The channels of a shuffle block are twice half of the requested ones. *)
Lemma shuffle_channels k b2 c x y : proper c x -> (a_stride c = 1 -> a_in c = a_out c / 2 * 2) ->
  (forall x y, b2 c x = Ok y -> ch y = a_out c / 2) ->
  shuffle_forward k b2 c x = Ok y -> ch y = a_out c / 2 * 2.
Proof.
  intros (Hi & Ho & Hs & Hc & Hh & Hw) H1 Hb H. unfold shuffle_forward in H. apply bind_ok in H. destruct H as (z & H & Sh).
  assert (y = z) as ->. { unfold shuffle2 in Sh. destruct (ch z mod 2 =? 0); cbn in Sh; [apply Ok_inj in Sh; auto | discriminate]. }
  destruct (1 <? a_stride c) eqn:L.
  - apply bind_ok in H. destruct H as (u & B1 & H). apply bind_ok in H. destruct H as (v & B2 & H). apply cat_ok in H. destruct H as (_ & _ & ->).
    cbn [ch]. rewrite (Hb _ _ B2). unfold branch1 in B1. apply bind_ok in B1. destruct B1 as (t & _ & B1). apply conv_ok in B1. destruct B1 as (_ & ->).
    cbn [ch]. lia.
  - apply Z.ltb_ge in L. rewrite H1 in Hc by lia. unfold chunk2 in H. destruct (ch x <? 2); [discriminate|]. cbn [bind] in H.
    apply bind_ok in H. destruct H as (v & B2 & H). apply cat_ok in H. destruct H as (_ & _ & ->). cbn [ch]. rewrite (Hb _ _ B2), Hc.
    assert ((a_out c / 2 * 2 + 1) / 2 = a_out c / 2) by (clear; Z.div_mod_to_equations; lia). lia.
Qed.
Lemma branch2_channels k c x y : branch2 k c x = Ok y -> ch y = a_out c / 2.
Proof.
  unfold branch2. cbv zeta. intros H. apply bind_ok in H. destruct H as (u & _ & H). apply bind_ok in H. destruct H as (v & _ & H).
  apply conv_ok in H. destruct H as (_ & ->). reflexivity.
Qed.
Lemma branch2x_channels c x y : branch2x c x = Ok y -> ch y = a_out c / 2.
Proof.
  unfold branch2x. cbv zeta. intros H. apply bind_ok in H. destruct H as (u & _ & H). apply bind_ok in H. destruct H as (v & _ & H).
  unfold separable in H. apply bind_ok in H. destruct H as (w & _ & H). apply conv_ok in H. destruct H as (_ & ->). reflexivity.
Qed.
Lemma reduce_inv i o x y : 1 <= ht x -> 1 <= wd x -> factorized_reduce i o x = Ok y -> even o /\ even (ht x) /\ even (wd x).
Proof.
  intros Hh Hw H. unfold factorized_reduce in H. apply bind_ok in H. destruct H as (a & A & H). apply bind_ok in H. destruct H as (b & B & H).
  apply bind_ok in H. destruct H as (d & D & H). apply conv_ok in A. destruct A as (_ & ->).
  assert (G : 1 <= ht (crop x) /\ 1 <= wd (crop x)).
  { unfold conv in B. destruct (negb (ch (crop x) =? i)); [discriminate|]. cbn [orb] in B.
    destruct (ht (crop x) + 2 * 0 <? 1 * (1 - 1) + 1) eqn:E1; [discriminate|]. cbn [orb] in B.
    destruct (wd (crop x) + 2 * 0 <? 1 * (1 - 1) + 1) eqn:E2; [discriminate|]. apply Z.ltb_ge in E1, E2. lia. }
  apply conv_ok in B. destruct B as (_ & ->). apply cat_ok in D. destruct D as (D1 & D2 & ->). apply bn_ok in H. destruct H as (H & _).
  cbn [ch ht wd crop] in *. repeat split.
  - apply half_even. assumption.
  - apply half_even. clear - D1. Z.div_mod_to_equations. lia.
  - apply half_even. clear - D2. Z.div_mod_to_equations. lia.
Qed.

(** An operation of these families that could be built returns the shape of its choice exactly if it fits. *)
Theorem C152_exact : forall o c x, settled o c -> proper c x -> new_op o c = Ok tt ->
  (forward_op o c x = Ok (target c x) <-> fits o c x).
Proof.
  intros o c x T P N. split; [|intros F; apply C152_shape; assumption]. intros F.
  pose proof P as (Hi & Ho & Hs & Hc & Hh & Hw). destruct o; cbn [settled] in T; try contradiction; cbn [new_op forward_op fits] in *.
  - apply assert_ok in N. destruct N as (Hk & N). pose proof (new_shuffle_inv _ N) as H1.
    assert (E : a_out c = a_out c / 2 * 2) by (apply (shuffle_channels _ _ _ _ _ P H1 (branch2_channels k c)) in F; exact F).
    split; [|split].
    + apply orb_prop in Hk. destruct Hk as [Hk | Hk]; [apply orb_prop in Hk; destruct Hk as [Hk | Hk]|]; apply Z.eqb_eq in Hk; auto.
    + exists (a_out c / 2). lia.
    + intros S1. rewrite H1 by assumption. lia.
  - apply bind_ok in N. destruct N as ([] & N & _). pose proof (new_shuffle_inv _ N) as H1.
    assert (E : a_out c = a_out c / 2 * 2) by (apply (shuffle_channels _ _ _ _ _ P H1 (branch2x_channels c)) in F; exact F).
    split; [exists (a_out c / 2); lia|]. intros S1. rewrite H1 by assumption. lia.
  - exact I.
  - split; [assumption|]. subst k. rewrite pool3_ok in F by assumption. cbn [bind] in F. apply bn_ok in F. destruct F as (F & _). cbn [ch] in F. congruence.
  - apply assert_ok in N. destruct N as (Hk & N). apply assert_ok in N. destruct N as (St & _). apply orb_prop in Hk, St. rewrite !Z.eqb_eq in Hk, St.
    split; [assumption|]. split; [assumption|]. unfold dil_forward in F. apply bind_ok in F. destruct F as (u & _ & F). apply bind_ok in F. destruct F as (v & V & F).
    apply conv_ok in V. destruct V as (_ & ->). apply bn_ok in F. destruct F as (F & _). cbn [ch] in F. congruence.
  - apply assert_ok in N. destruct N as (Hk & N). apply assert_ok in N. destruct N as (St & N). apply orb_prop in Hk, St. rewrite !Z.eqb_eq in Hk, St.
    split; [assumption|]. split; [assumption|]. apply bind_ok in N. destruct N as ([] & _ & N). unfold conv_new in N.
    destruct (a_in c <=? 0); [discriminate|]. cbn [orb] in N. destruct (a_in c mod a_in c =? 0); [|discriminate]. cbn [orb negb] in N.
    destruct (a_out c mod a_in c =? 0) eqn:E; [|discriminate]. apply Z.eqb_eq in E. apply Z.mod_divide; lia.
  - unfold skip_forward in F. destruct T as [S1 | S2].
    + rewrite S1 in F. cbn in F. apply Ok_inj in F. left. split; [assumption|]. rewrite <- Hc, F. reflexivity.
    + rewrite S2 in F. cbn [Z.ltb Z.compare Pos.compare Pos.compare_cont] in F. right. split; [assumption|]. eapply reduce_inv; eassumption.
  - destruct (a_stride c =? 1); apply Ok_inj in F; rewrite <- Hc; [rewrite F; reflexivity|]. apply (f_equal ch) in F. exact F.
Qed.

(** Every operation that can be built returns the shape of its choice. *)
Definition C152_claim (o : op) : Prop := forall c x, proper c x -> new_op o c = Ok tt -> forward_op o c x = Ok (target c x).
Definition at_ (i o s : Z) : args := {| a_in := i; a_out := o; a_stride := s |}.
Definition map_ (c h w : Z) : fmap := {| ch := c; ht := h; wd := w |}.
Ltac witness cc xx := intros H; specialize (H cc xx); assert (E : proper cc xx) by (unfold proper; cbn; lia); specialize (H E eq_refl); cbn in H; discriminate.

(** The attentive shortcut pads both sides by the parity of the width. *)
Theorem C152_attentive_refuted : forward_op (MBBlock 3 1 false true) (at_ 4 4 2) (map_ 4 5 4) = Raise RuntimeError
  /\ ~ C152_claim (MBBlock 3 1 false true).
Proof. split; [reflexivity|]. witness (at_ 4 4 2) (map_ 4 5 4). Qed.
(** An even kernel changes the resolution. *)
Theorem C152_kernel_refuted : forward_op (MBBlock 4 1 false false) (at_ 4 4 1) (map_ 4 5 5) = Raise RuntimeError
  /\ ~ C152_claim (MBBlock 4 1 false false).
Proof. split; [reflexivity|]. witness (at_ 4 4 1) (map_ 4 5 5). Qed.
(** ConvBnAct with its default padding: the residual does not fit. *)
Theorem C152_padding_refuted : forward_op (ConvBnAct 3 1 0 true) (at_ 4 4 1) (map_ 4 8 8) = Raise RuntimeError
  /\ ~ C152_claim (ConvBnAct 3 1 0 true).
Proof. split; [reflexivity|]. witness (at_ 4 4 1) (map_ 4 8 8). Qed.
(** The squeeze-and-excitation layer of DepthwiseSeparableConv is built for the output channels but sees the input channels. *)
Theorem C152_excite_refuted : (forall k d noskip pwk c x, a_in c <> a_out c -> forward_op (DepthwiseSeparableConv k d noskip pwk true) c x = Raise RuntimeError)
  /\ ~ C152_claim (DepthwiseSeparableConv 3 1 false 1 true).
Proof.
  split.
  - intros k d noskip pwk c x H. cbn. unfold ds_forward. destruct (conv (a_in c) (a_in c) k (a_stride c) (k / 2) d x) eqn:E.
    + apply conv_ok in E. destruct E as (_ & ->). cbn [bind]. unfold bn. cbn [ch]. apply Z.eqb_neq in H. rewrite H. reflexivity.
    + unfold conv in E. destruct (_ || _ || _) in E; [|discriminate]. injection E as <-. reflexivity.
  - witness (at_ 4 8 1) (map_ 4 8 8).
Qed.
(** The batch norm of DartsDilConv is built for the input channels but sees the output channels. *)
Theorem C152_dilated_refuted : (forall k c x, a_in c <> a_out c -> forward_op (DartsDilConv k) c x = Raise RuntimeError)
  /\ ~ C152_claim (DartsDilConv 3).
Proof.
  split.
  - intros k c x H. cbn. unfold dil_forward. destruct (conv (a_in c) (a_in c) k (a_stride c) (k / 2 * 2) 2 x) as [y|e] eqn:E.
    + cbn [bind]. destruct (conv (a_in c) (a_out c) 1 1 0 1 y) as [z|e] eqn:E2.
      * apply conv_ok in E2. destruct E2 as (_ & ->). cbn [bind]. unfold bn. cbn [ch]. replace (a_out c =? a_in c) with false by (symmetry; apply Z.eqb_neq; congruence). reflexivity.
      * unfold conv in E2. destruct (_ || _ || _) in E2; [|discriminate]. injection E2 as <-. reflexivity.
    + unfold conv in E. destruct (_ || _ || _) in E; [|discriminate]. injection E as <-. reflexivity.
  - witness (at_ 4 8 1) (map_ 4 8 8).
Qed.
(** A skip connection cannot halve an odd resolution. *)
Theorem C152_skip_refuted : forward_op DartsSkipConnect (at_ 4 4 2) (map_ 4 7 7) = Raise RuntimeError /\ ~ C152_claim DartsSkipConnect.
Proof. split; [reflexivity|]. witness (at_ 4 4 2) (map_ 4 7 7). Qed.
(** DartsZero keeps the input channels. *)
Theorem C152_zero_refuted : forward_op DartsZero (at_ 4 8 2) (map_ 4 8 8) = Ok (map_ 4 4 4) /\ ~ C152_claim DartsZero.
Proof. split; [reflexivity|]. witness (at_ 4 8 2) (map_ 4 8 8). Qed.

Example C152_exact_example :
  settled DartsSkipConnect (at_ 4 6 2) /\ proper (at_ 4 6 2) (map_ 4 8 6) /\ new_op DartsSkipConnect (at_ 4 6 2) = Ok tt
  /\ forward_op DartsSkipConnect (at_ 4 6 2) (map_ 4 8 6) = Ok (map_ 6 4 3)
  /\ forward_op DartsSkipConnect (at_ 4 7 2) (map_ 4 8 6) = Raise RuntimeError
  /\ forward_op (ShuffleBlock 3) (at_ 4 7 2) (map_ 4 8 6) = Ok (map_ 6 4 3).
Proof. unfold proper. cbn. repeat split; try lia. Qed.
Print Assumptions C152_exact.
Print Assumptions C152_attentive_refuted.
Print Assumptions C152_excite_refuted.
Print Assumptions C152_dilated_refuted.
