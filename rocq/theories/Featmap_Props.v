(** C239 - how a feature map is fitted to an image, reduced and laid out. *)
From Verif Require Import Prelude Featmap_Model.
From Coq Require Import String Lqa.
Open Scope string_scope.
Open Scope list_scope.
Open Scope Z_scope.

(** ** Specification *)
(** [k] is a nearest integer to n / d. *)
Definition nearest (k n d : Z) : Prop := 2 * Z.abs (k * d - n) <= d.
(** F.interpolate keeps the number of channels; torch.topk returns the asked number of distinct
    positions, largest values first, and leaves out only values that are no larger. *)
Definition interp_ok (interp : fmap -> size -> list plane) : Prop :=
  forall m s, List.length (interp m s) = List.length (f_planes m).
Definition topk_ok (topk : list Q -> nat -> list nat) : Prop :=
  forall l n, (n <= List.length l)%nat ->
    List.length (topk l n) = n /\ NoDup (topk l n) /\ (forall i, In i (topk l n) -> (i < List.length l)%nat) /\
    forall i j, In i (topk l n) -> (j < List.length l)%nat -> ~ In j (topk l n) -> (nth j l 0 <= nth i l 0)%Q.
Definition shape_of (d : drawing) : size := match d with Together _ s _ => s | Panels _ _ _ s _ => s end.
Definition over_of (d : drawing) : option size := match d with Together _ _ o => o | Panels _ _ _ _ o => o end.
(** The size on which everything is drawn. *)
Definition target (m : fmap) (img resize : option size) : size :=
  match resize, img with
  | Some s, _ => s
  | None, Some s => s
  | None, None => (f_h m, f_w m)
  end.
Definition positive (m : fmap) : Prop := (0 < List.length (f_planes m))%nat /\ (0 < f_h m)%nat /\ (0 < f_w m)%nat.
Definition positive_size (s : size) : Prop := (0 < fst s)%nat /\ (0 < snd s)%nat.
(** Any nonempty feature map can be drawn over any nonempty image. *)
Definition C239_claim : Prop :=
  forall interp topk m img k row col, interp_ok interp -> topk_ok topk ->
    positive m -> positive_size img ->
    exists d, modify interp topk 3 m (Some img) (Some "pixel_wise_max") k row col None = Ok d.

(** ** Theorems *)
Lemma round_nearest n d : 0 < d -> nearest (round_ratio n d) n d.
Proof.
  intros D. unfold round_ratio, nearest. pose proof (Z.mod_pos_bound n d D) as B. rewrite Z.mod_eq in B by lia. set (f := n / d) in *.
  replace (n - d * f) with (n - f * d) in B by ring. set (r := n - f * d) in *.
  destruct (2 * r <? d) eqn:A; [replace (f * d - n) with (- r) by (unfold r; ring); lia|].
  destruct (d <? 2 * r) eqn:C; [replace ((f + 1) * d - n) with (d - r) by (unfold r; ring); lia|].
  destruct (Z.even f); [replace (f * d - n) with (- r) by (unfold r; ring); lia|replace ((f + 1) * d - n) with (d - r) by (unfold r; ring); lia].
Qed.

(** The part kept has the full width or the full height, the other side is a nearest integer to the
    one with the image's proportions, and neither side is enlarged. *)
Theorem C239_crop fh fw ih iw :
  0 < fh -> 0 < fw -> 0 < ih -> 0 < iw ->
  exists h w, crop_size fh fw ih iw = Ok (h, w) /\ 0 <= h <= fh /\ 0 <= w <= fw /\
    ((w = fw /\ nearest h (fw * ih) iw /\ ih * fw < fh * iw) \/
     (h = fh /\ nearest w (fh * iw) ih /\ fh * iw <= ih * fw)).
Proof.
  intros A B C D. unfold crop_size. assert (X : (fw =? 0) || (iw =? 0) = false) by (apply orb_false_iff; split; lia). rewrite X.
  destruct (ih * fw <? fh * iw) eqn:E.
  - exists (round_ratio (fw * ih) iw), fw. split; [reflexivity|]. pose proof (round_nearest (fw * ih) iw D) as N. unfold nearest in N.
    assert (0 <= round_ratio (fw * ih) iw <= fh) by (split; nia). split; [assumption|]. split; [lia|]. left. split; [reflexivity|]. split; [exact N|lia].
  - destruct (ih =? 0) eqn:E0; [lia|]. exists fh, (round_ratio (fh * iw) ih). split; [reflexivity|]. pose proof (round_nearest (fh * iw) ih C) as N. unfold nearest in N.
    split; [lia|]. split; [split; nia|]. right. split; [reflexivity|]. split; [exact N|lia].
Qed.

Lemma interpolate_inv interp m s m' : interpolate interp m s = Ok m' ->
  f_h m' = fst s /\ f_w m' = snd s /\ f_planes m' = interp m s /\ positive m /\ positive_size s.
Proof.
  unfold interpolate. destruct (_ || _) eqn:E; [discriminate|]. intros H. apply Ok_inj in H. subst. cbn. repeat rewrite orb_false_iff in E. rewrite !Nat.eqb_neq in E. unfold positive, positive_size. repeat split; lia.
Qed.
Lemma to_image_inv interp m img resize m' : to_image interp m img resize = Ok m' ->
  (resize = None -> forall s, img = Some s -> (f_h m', f_w m') = s) /\ (img = None -> m' = m).
Proof.
  unfold to_image. destruct img as [[ih iw]|]; [|intros H; apply Ok_inj in H; subst; split; [discriminate|reflexivity]].
  intros H. split; [|discriminate]. intros -> s Es. inversion Es; subst. destruct (Nat.eqb ih (f_h m) && Nat.eqb iw (f_w m)) eqn:E.
  - apply Ok_inj in H. subst. apply andb_true_iff in E. rewrite !Nat.eqb_eq in E. destruct E; subst; reflexivity.
  - destruct (crop_size _ _ _ _) as [hw|]; [|discriminate]. cbn [bind] in H. apply interpolate_inv in H. destruct H as (A & B & _). rewrite A, B. reflexivity.
Qed.
(** Whatever is drawn has the asked shape, else the image's, else its own, and an image under it
    has that size too. *)
Theorem C239_size interp topk m img mode k row col resize d :
  modify interp topk 3 m img mode k row col resize = Ok d ->
  shape_of d = target m img resize /\
  over_of d = match img with None => None | Some _ => Some (target m img resize) end.
Proof.
  unfold modify. change (Nat.eqb 3 3) with true. cbn [assert_ bind]. destruct (to_image interp m img resize) as [m1|] eqn:E1; [|discriminate]. cbn [bind].
  destruct (to_shape interp m1 img resize) as [[m2 i2]|] eqn:E2; [|discriminate]. cbn [bind fst snd]. intros H.
  assert (S : shape_of d = (f_h m2, f_w m2) /\ over_of d = i2).
  { destruct mode as [s|].
    - unfold reduce in H. destruct (s =? "select_max")%string; [destruct (Nat.eqb _ 0); [discriminate|]; apply Ok_inj in H; subst; auto|].
      destruct (s =? "squeeze_mean")%string; [apply Ok_inj in H; subst; auto|]. destruct (s =? "pixel_wise_max")%string; [|discriminate]. destruct (Nat.eqb _ 0); [discriminate|]. apply Ok_inj in H. subst. auto.
    - unfold unreduced in H. destruct (k <=? 0); [destruct (Nat.eqb _ 1 || _); [|discriminate]; cbn [assert_ bind] in H; apply Ok_inj in H; subst; auto|].
      destruct (k <=? row * col); [|discriminate]. cbn [assert_ bind] in H. apply Ok_inj in H. subst. auto. }
  destruct S as [-> ->]. apply to_image_inv in E1. destruct E1 as [I1 I2]. unfold to_shape in E2. destruct resize as [s|].
  - destruct (interpolate interp m1 s) as [m'|] eqn:E; [|discriminate]. cbn [bind] in E2. apply Ok_inj in E2. inversion E2; subst. apply interpolate_inv in E. destruct E as (A & B & _). rewrite A, B. destruct s. destruct img; auto.
  - apply Ok_inj in E2. inversion E2; subst. destruct i2 as [s|]; cbn [target].
    + rewrite (I1 eq_refl s eq_refl). auto.
    + rewrite I2 by reflexivity. auto.
Qed.

(** A map of one column under an image ten times as wide as high: nothing is left of it. *)
Definition keep (m : fmap) (s : size) : list plane := f_planes m.
Fixpoint insert_desc (l : list Q) (i : nat) (is : list nat) : list nat :=
  match is with
  | [] => [i]
  | j :: r => if Qle_bool (nth j l 0%Q) (nth i l 0%Q) then i :: is else j :: insert_desc l i r
  end.
Definition sort_desc (l : list Q) : list nat := fold_right (insert_desc l) [] (seq 0 (List.length l)).
Definition best (l : list Q) (n : nat) : list nat := firstn n (sort_desc l).

Lemma insert_in l i is x : In x (insert_desc l i is) <-> x = i \/ In x is.
Proof. induction is as [|j r IH]; cbn [insert_desc]; [cbn; intuition|]. destruct (Qle_bool _ _); cbn [In]; [intuition|]. rewrite IH. intuition. Qed.
Lemma insert_len l i is : List.length (insert_desc l i is) = S (List.length is).
Proof. induction is as [|j r IH]; [reflexivity|]. cbn [insert_desc]. destruct (Qle_bool _ _); cbn [List.length]; [reflexivity|]. rewrite IH. reflexivity. Qed.
Lemma insert_nodup l i is : NoDup is -> ~ In i is -> NoDup (insert_desc l i is).
Proof.
  induction is as [|j r IH]; intros N H; cbn [insert_desc]; [constructor; [intros []|constructor]|]. destruct (Qle_bool _ _); [constructor; assumption|].
  inversion N; subst. constructor; [|apply IH; [assumption|intros X; apply H; right; exact X]]. rewrite insert_in. intros [->|X]; [apply H; left; reflexivity|contradiction].
Qed.
Definition desc (l : list Q) (is : list nat) : Prop :=
  forall p q i j, nth_error is p = Some i -> nth_error is q = Some j -> (p < q)%nat -> (nth j l 0 <= nth i l 0)%Q.
Lemma desc_cons l i is : desc l is -> (forall j, In j is -> (nth j l 0 <= nth i l 0)%Q) -> desc l (i :: is).
Proof.
  intros D H [|p] [|q] a b A B L; try lia.
  - cbn in A. inversion A; subst. apply H. eapply nth_error_In, B.
  - eapply D; [exact A|exact B|lia].
Qed.
Lemma desc_tail l i is : desc l (i :: is) -> desc l is /\ forall j, In j is -> (nth j l 0 <= nth i l 0)%Q.
Proof.
  intros D. split.
  - intros p q a b A B L. apply (D (S p) (S q)); [exact A|exact B|lia].
  - intros j Hj. apply In_nth_error in Hj. destruct Hj as [q Hq]. apply (D O (S q) i j); [reflexivity|exact Hq|lia].
Qed.
Lemma insert_sorted l i is : desc l is -> desc l (insert_desc l i is).
Proof.
  induction is as [|j r IH]; intros D; cbn [insert_desc]; [intros [|p] [|[|q]] a b A B L; cbn in *; try lia; try discriminate; destruct p; discriminate|].
  destruct (desc_tail _ _ _ D) as [D1 D2]. destruct (Qle_bool (nth j l 0%Q) (nth i l 0%Q)) eqn:E.
  - apply Qle_bool_iff in E. apply desc_cons; [exact D|]. intros x [<-|X]; [exact E|]. eapply Qle_trans; [apply D2, X|exact E].
  - apply desc_cons; [apply IH, D1|]. intros x X. apply insert_in in X. destruct X as [->|X]; [|apply D2, X].
    destruct (Qlt_le_dec (nth j l 0%Q) (nth i l 0%Q)) as [Y|Y]; [|exact Y]. apply Qlt_le_weak, Qle_bool_iff in Y. congruence.
Qed.
(** Such a topk exists. *)
Lemma best_ok : topk_ok best.
Proof.
  intros l n L. unfold best, sort_desc.
  assert (A0 : forall js, NoDup js -> let is := fold_right (insert_desc l) [] js in (forall x, In x is <-> In x js) /\ List.length is = List.length js /\ NoDup is /\ desc l is).
  { clear. intros js. cbv zeta. induction js as [|j js IH]; intros SN; cbn [fold_right].
    - split; [tauto|]. split; [reflexivity|]. split; [constructor|]. intros [|p] q a b X; discriminate.
    - inversion SN as [|a b N1 N2]; subst. destruct (IH N2) as (P1 & P2 & P3 & P4). split; [intros x; rewrite insert_in, P1; cbn; intuition|]. split; [rewrite insert_len, P2; reflexivity|].
      split; [apply insert_nodup; [exact P3|rewrite P1; exact N1]|apply insert_sorted, P4]. }
  pose proof (A0 (seq 0 (List.length l)) (seq_NoDup _ _)) as A. cbv zeta in A. rewrite seq_length in A. set (is := fold_right _ _ _) in *.
  clearbody is. destruct A as (A1 & A2 & A3 & A4). split; [rewrite firstn_length; lia|].
  assert (NI : forall x, In x (firstn n is) -> In x is) by (intros x X; rewrite <- (firstn_skipn n is); apply in_or_app; auto).
  split; [rewrite <- (firstn_skipn n is) in A3; clear -A3; revert A3; generalize (skipn n is); induction (firstn n is) as [|a r IH]; intros t N; [constructor|]; cbn in N; inversion N; subst; constructor; [intros X; apply H1, in_or_app; auto|eapply IH; eassumption]|].
  split; [intros i Hi; apply NI, A1, in_seq in Hi; lia|].
  intros i j Hi Hj Nj. assert (J : In j is) by (apply A1, in_seq; lia). apply In_nth_error in Hi. destruct Hi as [p Hp]. apply In_nth_error in J. destruct J as [q Hq].
  assert (P : (p < n)%nat). { destruct (Nat.lt_ge_cases p n); [assumption|]. assert (X : nth_error (firstn n is) p = None) by (apply nth_error_None; rewrite firstn_length; lia). congruence. }
  assert (Qn : (n <= q)%nat). { destruct (Nat.le_gt_cases n q); [assumption|]. exfalso. apply Nj. apply nth_error_In with q. clear -Hq H. revert is q Hq H. induction n as [|n IH]; intros is q Hq H; [lia|]. destruct is as [|a is]; [destruct q; discriminate|]. destruct q; [exact Hq|]. cbn in *. apply IH; [exact Hq|lia]. }
  apply (A4 p q i j); [|exact Hq|lia]. clear -Hp. revert is p Hp. induction n as [|n IH]; intros is p Hp; [destruct p; discriminate|]. destruct is as [|a is]; [destruct p; discriminate|]. destruct p; [exact Hp|]. cbn in *. apply IH, Hp.
Qed.

Theorem C239_draw_refuted : ~ C239_claim.
Proof.
  intros H. destruct (H keep best {| f_planes := [[[1%Q]; [2%Q]]]; f_h := 2; f_w := 1 |} (1%nat, 10%nat) 20 4 5) as [d D]; [intros m s; reflexivity|apply best_ok|unfold positive; cbn; lia|unfold positive_size; cbn; lia|vm_compute in D; discriminate].
Qed.
(** It succeeds exactly if a pixel is left: the nearest integer is not 0. *)
Theorem C239_draw_partial interp topk m ih iw k row col :
  interp_ok interp -> positive m -> positive_size (ih, iw) ->
  ((exists d, modify interp topk 3 m (Some (ih, iw)) (Some "pixel_wise_max") k row col None = Ok d) <->
   (ih = f_h m /\ iw = f_w m) \/
   exists h w, crop_size (Z.of_nat (f_h m)) (Z.of_nat (f_w m)) (Z.of_nat ih) (Z.of_nat iw) = Ok (h, w) /\ 0 < h /\ 0 < w).
Proof.
  intros I (Pc & Ph & Pw) (Qh & Qw). cbn [fst snd] in Qh, Qw. unfold modify. change (Nat.eqb 3 3) with true. cbn [assert_ bind]. unfold to_image.
  destruct (Nat.eqb ih (f_h m) && Nat.eqb iw (f_w m)) eqn:E.
  - apply andb_true_iff in E. rewrite !Nat.eqb_eq in E. split; [intros _; left; exact E|]. intros _. cbn [bind to_shape fst snd]. unfold reduce. change ("pixel_wise_max" =? "select_max")%string with false. change ("pixel_wise_max" =? "squeeze_mean")%string with false. change ("pixel_wise_max" =? "pixel_wise_max")%string with true. cbv iota.
    assert (X : Nat.eqb (List.length (f_planes m)) 0 = false) by (apply Nat.eqb_neq; lia). rewrite X. eauto.
  - assert (NE : ~ (ih = f_h m /\ iw = f_w m)) by (intros [-> ->]; rewrite !Nat.eqb_refl in E; discriminate).
    destruct (C239_crop (Z.of_nat (f_h m)) (Z.of_nat (f_w m)) (Z.of_nat ih) (Z.of_nat iw)) as (h & w & Ec & Bh & Bw & _); [lia|lia|lia|lia|]. rewrite Ec. cbn [bind fst snd].
    assert (Hh : slice_stop (f_h m) h = Z.to_nat h) by (unfold slice_stop; destruct (h <? 0) eqn:Y; lia).
    assert (Hw : slice_stop (f_w m) w = Z.to_nat w) by (unfold slice_stop; destruct (w <? 0) eqn:Y; lia).
    unfold interpolate. cbn [cut f_planes f_h f_w fst snd]. rewrite Hh, Hw, map_length. split.
    + intros [d D]. right. exists h, w. split; [reflexivity|]. destruct (Nat.eqb (Z.to_nat h) 0) eqn:E1; [rewrite orb_true_r in D; cbn in D; discriminate|].
      destruct (Nat.eqb (Z.to_nat w) 0) eqn:E2; [rewrite orb_true_r in D; cbn in D; discriminate|]. apply Nat.eqb_neq in E1, E2. lia.
    + intros [X|(h' & w' & X & Y1 & Y2)]; [contradiction|]. apply Ok_inj in X. inversion X; subst h' w'.
      assert (Z0 : Nat.eqb (List.length (f_planes m)) 0 || Nat.eqb (Z.to_nat h) 0 || Nat.eqb (Z.to_nat w) 0 || Nat.eqb ih 0 || Nat.eqb iw 0 = false) by (rewrite !orb_false_iff, !Nat.eqb_neq; lia).
      match goal with |- context [if ?b then _ else _] => replace b with false by (symmetry; exact Z0) end. cbn [bind to_shape fst snd]. unfold reduce. change ("pixel_wise_max" =? "select_max")%string with false. change ("pixel_wise_max" =? "squeeze_mean")%string with false. change ("pixel_wise_max" =? "pixel_wise_max")%string with true. cbv iota.
      cbn [f_planes f_h f_w]. rewrite I. cbn [cut f_planes]. rewrite map_length. assert (X1 : Nat.eqb (List.length (f_planes m)) 0 = false) by (apply Nat.eqb_neq; lia).
      match goal with |- context [if ?b then _ else _] => replace b with false by (symmetry; exact X1) end. eauto.
Qed.

Lemma max_ge r : forall x, (forall y, In y (x :: r) -> (y <= fold_left (fun a b => if Qle_bool a b then b else a) r x)%Q) /\ In (fold_left (fun a b => if Qle_bool a b then b else a) r x) (x :: r).
Proof.
  induction r as [|z r IH]; intros x; cbn [fold_left]; [split; [intros y [<-|[]]; apply Qle_refl|left; reflexivity]|].
  destruct (Qle_bool x z) eqn:E.
  - destruct (IH z) as [A B]. split; [|right; exact B]. intros y [<-|Y]; [|apply A, Y]. apply Qle_bool_iff in E. eapply Qle_trans; [exact E|apply A; left; reflexivity].
  - destruct (IH x) as [A B]. split; [|destruct B as [B|B]; [left; exact B|right; right; exact B]]. intros y [<-|[<-|Y]]; [apply A; left; reflexivity| |apply A; right; exact Y].
    eapply Qle_trans; [|apply A; left; reflexivity]. destruct (Qlt_le_dec x z) as [W|W]; [apply Qlt_le_weak, Qle_bool_iff in W; congruence|exact W].
Qed.
Lemma over_nth f m i j : (i < f_h m)%nat -> (j < f_w m)%nat -> nth j (nth i (over_channels f m) []) 0%Q = f (at_pos m i j).
Proof.
  intros Hi Hj. unfold over_channels. rewrite nth_indep with (d' := map (fun j => f (at_pos m 0 j)) (seq 0 (f_w m))) by (rewrite map_length, seq_length; exact Hi).
  rewrite (map_nth (fun i => map (fun j => f (at_pos m i j)) (seq 0 (f_w m)))), seq_nth by exact Hi.
  rewrite nth_indep with (d' := f (at_pos m (0 + i) 0)) by (rewrite map_length, seq_length; exact Hj). rewrite (map_nth (fun j => f (at_pos m (0 + i) j))), seq_nth by exact Hj. reflexivity.
Qed.
Lemma nth_total i (l : list plane) : (i < List.length l)%nat -> nth i (map total l) 0%Q = total (nth i l []).
Proof. intros H. rewrite nth_indep with (d' := total []) by (rewrite map_length; exact H). apply map_nth. Qed.
(** One plane is drawn: at every pixel the largest value over the channels, or their mean, or the
    channel with the largest sum. *)
Theorem C239_reduced interp topk m mode k row col d :
  topk_ok topk -> positive m -> modify interp topk 3 m None (Some mode) k row col None = Ok d ->
  exists p, d = Together [p] (f_h m, f_w m) None /\
    ((mode = "pixel_wise_max" /\ forall i j, (i < f_h m)%nat -> (j < f_w m)%nat ->
        let v := nth j (nth i p []) 0%Q in
        In v (at_pos m i j) /\ forall c, In c (f_planes m) -> (nth j (nth i c []) 0 <= v)%Q) \/
     (mode = "squeeze_mean" /\ forall i j, (i < f_h m)%nat -> (j < f_w m)%nat ->
        (nth j (nth i p []) 0 * inject_Z (Z.of_nat (List.length (f_planes m))) == fold_right Qplus 0 (at_pos m i j))%Q) \/
     (mode = "select_max" /\ In p (f_planes m) /\ forall c, In c (f_planes m) -> (total c <= total p)%Q)).
Proof.
  intros T (Pc & Ph & Pw) H. unfold modify in H. change (Nat.eqb 3 3) with true in H. cbn [assert_ bind to_image to_shape fst snd] in H. unfold reduce in H.
  assert (X : Nat.eqb (List.length (f_planes m)) 0 = false) by (apply Nat.eqb_neq; lia). rewrite X in H.
  destruct (mode =? "select_max")%string eqn:E1; [|destruct (mode =? "squeeze_mean")%string eqn:E2; [|destruct (mode =? "pixel_wise_max")%string eqn:E3; [|discriminate]]]; apply Ok_inj in H; subst d.
  - apply String.eqb_eq in E1. destruct (T (map total (f_planes m)) 1%nat) as (L & _ & V & B); [rewrite map_length; lia|]. destruct (topk _ 1%nat) as [|i [|? ?]] eqn:Et; try discriminate L. rewrite map_length in *.
    exists (nth i (f_planes m) []). split; [reflexivity|]. right. right. split; [exact E1|]. assert (Li : (i < List.length (f_planes m))%nat) by (apply V; left; reflexivity). split; [apply nth_In, Li|].
    intros c Hc. apply In_nth with (d := []) in Hc. destruct Hc as (j & Lj & <-). destruct (Nat.eq_dec j i) as [->|Ne]; [apply Qle_refl|].
    specialize (B i j (or_introl eq_refl) Lj). rewrite !nth_total in B by assumption. apply B. intros [Q|[]]. congruence.
  - apply String.eqb_eq in E2. exists (over_channels mean m). split; [reflexivity|]. right. left. split; [exact E2|]. intros i j Hi Hj. rewrite over_nth by assumption. unfold mean, qsum.
    assert (Ln : List.length (at_pos m i j) = List.length (f_planes m)) by (unfold at_pos; apply map_length). rewrite Ln. field. intros Q. assert (inject_Z 0 < inject_Z (Z.of_nat (List.length (f_planes m))))%Q by (rewrite <- Zlt_Qlt; lia). change (inject_Z 0) with 0%Q in H. rewrite Q in H. apply (Qlt_irrefl 0). exact H.
  - apply String.eqb_eq in E3. exists (over_channels maximum m). split; [reflexivity|]. left. split; [exact E3|]. intros i j Hi Hj. cbv zeta. rewrite over_nth by assumption. unfold maximum.
    destruct (at_pos m i j) as [|x r] eqn:Ea; [exfalso; assert (Ln : List.length (at_pos m i j) = List.length (f_planes m)) by (unfold at_pos; apply map_length); rewrite Ea in Ln; cbn in Ln; lia|].
    destruct (max_ge r x) as [A B]. split; [exact B|]. intros c Hc. apply A. rewrite <- Ea. unfold at_pos. apply (in_map (fun p => nth j (nth i p []) 0%Q)) in Hc. exact Hc.
Qed.

(** Without a reduction: all channels together if there are 1 or 3 of them and topk is not
    positive; otherwise as many panels as asked for and available, they fit on the grid, each is
    the channel it is labelled with, and no channel left out has a larger sum. *)
Theorem C239_panels interp topk m k row col d :
  topk_ok topk -> modify interp topk 3 m None None k row col None = Ok d ->
  (k <= 0 /\ d = Together (f_planes m) (f_h m, f_w m) None /\ (List.length (f_planes m) = 1 \/ List.length (f_planes m) = 3)%nat) \/
  (0 < k /\ exists ps, d = Panels row col ps (f_h m, f_w m) None /\
     Z.of_nat (List.length ps) = Z.min (Z.of_nat (List.length (f_planes m))) k /\ Z.of_nat (List.length ps) <= row * col /\
     NoDup (map fst ps) /\ (forall i p, In (i, p) ps -> nth_error (f_planes m) i = Some p) /\
     forall i p j c, In (i, p) ps -> nth_error (f_planes m) j = Some c -> ~ In j (map fst ps) -> (total c <= total p)%Q).
Proof.
  intros T H. unfold modify in H. change (Nat.eqb 3 3) with true in H. cbn [assert_ bind to_image to_shape fst snd] in H. unfold unreduced in H.
  destruct (k <=? 0) eqn:Ek.
  - left. destruct (Nat.eqb (List.length (f_planes m)) 1 || Nat.eqb (List.length (f_planes m)) 3) eqn:E; [|discriminate]. cbn [assert_ bind] in H. apply Ok_inj in H. subst d. split; [lia|]. split; [reflexivity|]. apply orb_true_iff in E. rewrite !Nat.eqb_eq in E. exact E.
  - right. split; [lia|]. destruct (k <=? row * col) eqn:Er; [|discriminate]. cbn [assert_ bind] in H. apply Ok_inj in H. subst d. set (n := Nat.min _ _).
    destruct (T (map total (f_planes m)) n) as (L & N & V & B); [rewrite map_length; subst n; lia|]. rewrite map_length in *. set (is := topk _ n) in *. clearbody is.
    exists (combine is (pick m is)). split; [reflexivity|].
    assert (Lc : List.length (combine is (pick m is)) = n) by (rewrite combine_length; unfold pick; rewrite map_length; lia). rewrite Lc.
    assert (Fst : map fst (combine is (pick m is)) = is) by (unfold pick; clear; induction is as [|i is IH]; [reflexivity|]; cbn; f_equal; exact IH).
    assert (In2 : forall i p, In (i, p) (combine is (pick m is)) -> In i is /\ p = nth i (f_planes m) []).
    { unfold pick. clear. induction is as [|a is IH]; intros i p; cbn; [intros []|]. intros [X|X]; [inversion X; subst; auto|]. destruct (IH i p X). auto. }
    split; [subst n; lia|]. split; [subst n; lia|]. split; [rewrite Fst; exact N|]. split.
    + intros i p X. destruct (In2 i p X) as [I ->]. apply nth_error_nth'. apply V, I.
    + intros i p j c X Hj Nj. destruct (In2 i p X) as [I ->]. rewrite Fst in Nj. assert (Lj : (j < List.length (f_planes m))%nat) by (apply nth_error_Some; congruence).
      specialize (B i j I Lj Nj). rewrite !nth_total in B by (try assumption; apply V, I). apply nth_error_nth with (d := []) in Hj. rewrite Hj in B. exact B.
Qed.
(** What is refused, for a nonempty map without image. *)
Theorem C239_refused interp topk m mode k row col ndim :
  positive m ->
  (modify interp topk ndim m None mode k row col None = Raise AssertionError <->
   ndim <> 3%nat \/
   match mode with
   | Some s => ~ In s ["squeeze_mean"; "select_max"; "pixel_wise_max"]
   | None => (k <= 0 /\ List.length (f_planes m) <> 1%nat /\ List.length (f_planes m) <> 3%nat) \/ (0 < k /\ row * col < k)
   end).
Proof.
  intros (Pc & Ph & Pw). unfold modify. destruct (Nat.eqb ndim 3) eqn:E; [apply Nat.eqb_eq in E; subst|apply Nat.eqb_neq in E; cbn; intuition].
  cbn [assert_ bind to_image to_shape fst snd]. assert (X : Nat.eqb (List.length (f_planes m)) 0 = false) by (apply Nat.eqb_neq; lia).
  assert (Y : forall Q : Prop, (3 <> 3)%nat \/ Q <-> Q) by (intros Q; intuition). rewrite Y. destruct mode as [s|].
  - unfold reduce. rewrite X. destruct (s =? "select_max")%string eqn:E1; [apply String.eqb_eq in E1; subst; split; [discriminate|cbn; intuition]|].
    destruct (s =? "squeeze_mean")%string eqn:E2; [apply String.eqb_eq in E2; subst; split; [discriminate|cbn; intuition]|].
    destruct (s =? "pixel_wise_max")%string eqn:E3; [apply String.eqb_eq in E3; subst; split; [discriminate|cbn; intuition]|].
    apply String.eqb_neq in E1, E2, E3. split; [intros _ [<-|[<-|[<-|[]]]]; congruence|reflexivity].
  - unfold unreduced. destruct (k <=? 0) eqn:Ek.
    + destruct (Nat.eqb (List.length (f_planes m)) 1) eqn:A1; [apply Nat.eqb_eq in A1; cbn; split; [discriminate|lia]|]. destruct (Nat.eqb (List.length (f_planes m)) 3) eqn:A2; [apply Nat.eqb_eq in A2; cbn; split; [discriminate|lia]|].
      apply Nat.eqb_neq in A1, A2. cbn. split; [intros _; left; split; [lia|auto]|reflexivity].
    + destruct (k <=? row * col) eqn:Er; cbn; [split; [discriminate|lia]|split; [intros _; lia|reflexivity]].
Qed.

(** Three channels of two pixels. *)
Definition ex_map : fmap := {| f_planes := [[[1; 4]]; [[3; 3]]; [[0; 1]]]%Q; f_h := 1; f_w := 2 |}.
Example C239_example :
  topk_ok best /\ interp_ok keep /\ positive ex_map /\
  modify keep best 3 ex_map None (Some "pixel_wise_max") 20 4 5 None = Ok (Together [[[3; 4]]]%Q (1%nat, 2%nat) None) /\
  modify keep best 3 ex_map None (Some "select_max") 20 4 5 None = Ok (Together [[[3; 3]]]%Q (1%nat, 2%nat) None) /\
  modify keep best 3 ex_map None None 2 4 5 None = Ok (Panels 4 5 [(1%nat, [[3; 3]]%Q); (0%nat, [[1; 4]]%Q)] (1%nat, 2%nat) None) /\
  modify keep best 3 ex_map None None 21 4 5 None = Raise AssertionError /\
  crop_size 7 5 100 200 = Ok (2, 5) /\ crop_size 5 7 200 100 = Ok (5, 2).
Proof. split; [apply best_ok|]. split; [intros m s; reflexivity|]. split; [unfold positive; cbn; lia|]. repeat split; vm_compute; reflexivity. Qed.
Print Assumptions C239_crop.
Print Assumptions C239_size.
Print Assumptions C239_draw_refuted.
Print Assumptions C239_draw_partial.
Print Assumptions C239_reduced.
Print Assumptions C239_panels.
Print Assumptions C239_refused.
