(** Properties of Expand_Model.v. *)
From Verif Require Import Prelude Expand_Model.

(** ** Widths *)

(** Widening repeatedly: the unit after a list of [expand_to] calls. *)
Definition expand_tos (u : eunit) (ns : list Z) : outcome eunit :=
  fold_left (fun o n => do u <- o; expand_to u n) ns (Ok u).

(** Full claim: after any successful calls the unit is as wide as last requested. *)
Definition C44_width_claim : Prop :=
  forall k ns n u, expand_tos (new_unit k) (ns ++ [n]) = Ok u -> Z.of_nat (length (e_mask u)) = n.

Theorem C44_width_refuted : ~ C44_width_claim.
Proof. intro H. specialize (H 4%nat [8] 10 _ eq_refl). discriminate H. Qed.

Lemma expand_tos_app : forall ns n u, expand_tos u (ns ++ [n]) = (do v <- expand_tos u ns; expand_to v n).
Proof. intros. unfold expand_tos. rewrite fold_left_app. reflexivity. Qed.

Definition width (u : eunit) : Z := Z.of_nat (length (e_mask u)).

Lemma expand_to_ok : forall u n, e_num u <= n ->
  expand_to u n = Ok {| e_num := e_num u; e_mask := e_mask u ++ repeat false (Z.to_nat (n - e_num u)) |}.
Proof.
  intros u n H. unfold expand_to, expand.
  destruct (Z.ltb_spec (n - e_num u) 0); [lia|reflexivity].
Qed.

(** The first call gives the requested width, keeping the old channels and adding masked ones;
    a narrower request raises. *)
Theorem C44_width_partial : forall k n,
  (Z.of_nat k <= n -> exists u, expand_to (new_unit k) n = Ok u /\ width u = n /\
     e_num u = Z.of_nat k /\
     (forall i, (i < k)%nat -> nth_error (e_mask u) i = Some true) /\
     (forall i, (k <= i < Z.to_nat n)%nat -> nth_error (e_mask u) i = Some false)) /\
  (n < Z.of_nat k -> expand_to (new_unit k) n = Raise RuntimeError).
Proof.
  intros k n; split; intro H.
  - rewrite expand_to_ok by exact H. eexists; split; [reflexivity|].
    unfold width; cbn [e_mask e_num new_unit]. rewrite app_length, !repeat_length.
    split; [lia|]. split; [reflexivity|]. split; intros i Hi.
    + rewrite nth_error_app1 by (rewrite repeat_length; lia). apply nth_error_repeat; lia.
    + rewrite nth_error_app2 by (rewrite repeat_length; lia). rewrite repeat_length.
      apply nth_error_repeat; lia.
  - unfold expand_to, expand. cbn [e_num new_unit].
    destruct (Z.ltb_spec (n - Z.of_nat k) 0); [reflexivity|lia].
Qed.
Example C44_width_ex :
  expand_to (new_unit 2) 5 = Ok {| e_num := 2; e_mask := [true; true; false; false; false] |} /\
  expand_to (new_unit 2) 1 = Raise RuntimeError.
Proof. split; reflexivity. Qed.

(** In general every call adds its excess over the original width. *)
Theorem C44_width_history : forall k ns, Forall (fun n => Z.of_nat k <= n) ns ->
  exists u, expand_tos (new_unit k) ns = Ok u /\ e_num u = Z.of_nat k /\
    width u = Z.of_nat k + fold_right Z.add 0 (map (fun n => n - Z.of_nat k) ns).
Proof.
  intros k ns. induction ns as [|n ns IH] using rev_ind; intro F.
  - eexists; split; [reflexivity|]. split; [reflexivity|].
    unfold width; cbn [e_mask new_unit map fold_right]. rewrite repeat_length. lia.
  - apply Forall_app in F as [F1 F2]. apply Forall_inv in F2.
    destruct (IH F1) as (u & E & N & W). rewrite expand_tos_app, E. cbn [bind].
    rewrite expand_to_ok by lia. eexists; split; [reflexivity|]. split; [exact N|].
    unfold width in *. cbn [e_mask]. rewrite app_length, repeat_length, map_app.
    assert (G : forall a b, fold_right Z.add 0 (a ++ [b]) = fold_right Z.add 0 a + b).
    { induction a as [|y a IHa]; intro b; cbn [app fold_right]; [lia|rewrite IHa; lia]. }
    cbn [map]. rewrite G. lia.
Qed.
Example C44_width_history_ex :
  exists u, expand_tos (new_unit 4) [8; 10] = Ok u /\ width u = 14.
Proof. eexists; split; reflexivity. Qed.

(** ** Divisibility *)
Theorem C44_divisible : forall k d, 0 < d ->
  exists u, make_divisible (new_unit k) (Z.of_nat k) d = Ok u /\
    (d | width u) /\ Z.of_nat k <= width u /\
    (forall m, (d | m) -> Z.of_nat k <= m -> width u <= m).
Proof.
  intros k d Hd. unfold make_divisible.
  destruct (Z.eqb_spec d 0) as [|_]; [lia|].
  set (n := Z.of_nat k).
  pose proof (Z.div_mod n d ltac:(lia)) as E.
  pose proof (Z.mod_pos_bound n d Hd) as B.
  destruct (Z.eqb_spec (n mod d) 0) as [Z0|NZ].
  - eexists; split; [reflexivity|]. unfold width; cbn [e_mask new_unit]. rewrite repeat_length. fold n.
    split; [apply Z.mod_divide; lia|]. split; [lia|]. intros; lia.
  - assert (Hn : n <= (n / d + 1) * d) by nia.
    cbn [e_num new_unit]. fold n. rewrite Z.max_l by exact Hn.
    rewrite expand_to_ok by (cbn [e_num new_unit]; exact Hn).
    eexists; split; [reflexivity|]. unfold width; cbn [e_mask e_num new_unit].
    rewrite app_length, !repeat_length. fold n.
    assert (W : Z.of_nat (k + Z.to_nat ((n / d + 1) * d - n)) = (n / d + 1) * d) by lia.
    rewrite W. split; [exists (n / d + 1); reflexivity|]. split; [exact Hn|].
    intros m [q Hq] Hm. subst m. assert (n / d < q) by nia. nia.
Qed.
Example C44_divisible_ex :
  exists u, make_divisible (new_unit 13) 13 8 = Ok u /\ width u = 16.
Proof. eexists; split; reflexivity. Qed.

(** ** Operations *)

(** Position of a selected channel among the selected ones. *)
Fixpoint rank (mask : list bool) (i : nat) : nat :=
  match mask, i with
  | b :: m, S j => ((if b then 1 else 0) + rank m j)%nat
  | _, _ => O
  end.
Fixpoint sel (mask : list bool) : nat :=
  match mask with [] => O | b :: m => ((if b then 1 else 0) + sel m)%nat end.

Lemma scatter_spec : forall {V} (mask : list bool) (dst src : list V),
  length dst = length mask -> (sel mask <= length src)%nat ->
  exists r, masked_scatter mask dst src = Ok r /\ length r = length mask /\
    forall i, nth_error r i = match nth_error mask i with
                              | Some true => nth_error src (rank mask i)
                              | _ => nth_error dst i
                              end.
Proof.
  induction mask as [|b m IH]; intros dst src L Hs; destruct dst as [|x dst]; try discriminate.
  - exists []. split; [reflexivity|]. split; [reflexivity|]. intro i. destruct i; reflexivity.
  - cbn [length] in L. injection L as L. cbn [sel] in Hs. destruct b.
    + destruct src as [|y src]; [cbn in Hs; lia|]. cbn [length] in Hs.
      destruct (IH dst src L ltac:(lia)) as (r & E & Lr & P).
      cbn [masked_scatter]. rewrite E. eexists; split; [reflexivity|].
      split; [cbn; lia|]. intros [|i]; [reflexivity|].
      cbn [nth_error rank]. rewrite (P i). reflexivity.
    + destruct (IH dst src L ltac:(lia)) as (r & E & Lr & P).
      cbn [masked_scatter]. rewrite E. eexists; split; [reflexivity|].
      split; [cbn; lia|]. intros [|i]; [reflexivity|].
      cbn [nth_error rank]. rewrite (P i). reflexivity.
Qed.

(** Rows: scattering one row at a time. *)
Lemma sel_app : forall a b, sel (a ++ b) = (sel a + sel b)%nat.
Proof. induction a as [|x a IH]; intro b; cbn [app sel]; [reflexivity|rewrite IH; lia]. Qed.
Lemma scatter_app : forall {V} (m1 m2 : list bool) (d1 d2 s1 s2 : list V),
  length d1 = length m1 -> length s1 = sel m1 ->
  masked_scatter (m1 ++ m2) (d1 ++ d2) (s1 ++ s2) =
  (do a <- masked_scatter m1 d1 s1; do b <- masked_scatter m2 d2 s2; Ok (a ++ b)).
Proof.
  induction m1 as [|b m1 IH]; intros m2 d1 d2 s1 s2 Ld Ls; destruct d1 as [|x d1]; try discriminate.
  - destruct s1; [|discriminate]. cbn [app masked_scatter bind].
    destruct (masked_scatter m2 d2 s2); reflexivity.
  - cbn [length] in Ld. injection Ld as Ld. cbn [sel] in Ls. destruct b; cbn [app masked_scatter].
    + destruct s1 as [|y s1]; [discriminate|]. cbn [length] in Ls. cbn [app].
      rewrite IH by (try exact Ld; lia).
      destruct (masked_scatter m1 d1 s1); cbn [bind]; [|reflexivity].
      destruct (masked_scatter m2 d2 s2); reflexivity.
    + rewrite IH by (try exact Ld; exact Ls).
      destruct (masked_scatter m1 d1 s1); cbn [bind]; [|reflexivity].
      destruct (masked_scatter m2 d2 s2); reflexivity.
Qed.
Lemma scatter_none : forall {V} (m : list bool) (d s : list V),
  length d = length m -> Forall (eq false) m -> masked_scatter m d s = Ok d.
Proof.
  induction m as [|b m IH]; intros d s L F; destruct d; try discriminate; [reflexivity|].
  inversion F as [|? ? E F']; subst. cbn [masked_scatter]. rewrite IH; [reflexivity| |exact F'].
  cbn in L; lia.
Qed.
Lemma sel_none : forall m, Forall (eq false) m -> sel m = O.
Proof. induction 1 as [|b m E F IH]; [reflexivity|]. subst. exact IH. Qed.
Lemma map_true : forall m, map (fun i => true && i) m = m.
Proof. induction m as [|b m IH]; [reflexivity|]. cbn [map]. rewrite IH. reflexivity. Qed.
Lemma map_false : forall m, Forall (eq false) (map (fun i => false && i) m).
Proof. induction m; constructor; auto. Qed.

(** The entry of a matrix. *)
Definition entry {V} (w : list (list V)) (o i : nat) : option V :=
  match nth_error w o with Some r => nth_error r i | None => None end.
Definition shaped {V} (rows cols : nat) (w : list (list V)) : Prop :=
  length w = rows /\ Forall (fun r => length r = cols) w.

Lemma expand_matrix_rows : forall {V} (im om : list bool) (base old : list (list V)),
  shaped (length om) (length im) base -> shaped (sel om) (sel im) old ->
  exists w, masked_scatter (flat_map (fun o => map (fun i => o && i) im) om) (concat base) (concat old) = Ok (concat w)
    /\ shaped (length om) (length im) w /\
    forall o, match nth_error om o with
      | Some true => exists r s, nth_error w o = Some r /\ nth_error old (rank om o) = Some s /\
           exists d, nth_error base o = Some d /\ masked_scatter im d s = Ok r
      | _ => nth_error w o = nth_error base o
      end.
Proof.
  intros V im. induction om as [|b om IH]; intros base old [Lb Fb] [Lo Fo].
  - destruct base; [|discriminate]. destruct old; [|discriminate].
    exists []. split; [reflexivity|]. split; [split; [reflexivity|constructor]|]. intros [|o]; reflexivity.
  - destruct base as [|d base]; [discriminate|]. cbn [length] in Lb. injection Lb as Lb.
    inversion Fb as [|? ? Ld Fb']; subst. cbn [flat_map concat]. cbn [sel] in Lo.
    destruct b.
    + destruct old as [|s old]; [discriminate|]. cbn [length] in Lo. injection Lo as Lo.
      inversion Fo as [|? ? Ls Fo']; subst.
      destruct (IH base old (conj Lb Fb') (conj Lo Fo')) as (w & E & [Lw Fw] & P).
      cbn [concat]. rewrite map_true. rewrite scatter_app by assumption. rewrite E.
      destruct (scatter_spec im d s Ld ltac:(lia)) as (r & Er & Lr & Pr). rewrite Er. cbn [bind].
      exists (r :: w). split; [reflexivity|].
      split; [split; [cbn; lia|constructor; [exact Lr|exact Fw]]|].
      intros [|o]; cbn [nth_error rank].
      * exists r, s. split; [reflexivity|]. split; [reflexivity|]. exists d. split; [reflexivity|exact Er].
      * exact (P o).
    + destruct (IH base old (conj Lb Fb') (conj Lo Fo)) as (w & E & [Lw Fw] & P).
      change (concat old) with ([] ++ concat old).
      rewrite scatter_app; [|rewrite map_length; exact Ld|cbn; symmetry; apply sel_none, map_false].
      rewrite scatter_none by (try apply map_false; rewrite map_length; exact Ld).
      rewrite E. cbn [bind].
      exists (d :: w). split; [reflexivity|].
      split; [split; [cbn; lia|constructor; [exact Ld|exact Fw]]|].
      intros [|o]; cbn [nth_error rank]; [reflexivity|exact (P o)].
Qed.
Lemma chunk_concat : forall {V} n rows (w : list (list V)), shaped rows n w -> chunk n rows (concat w) = w.
Proof.
  intros V n. induction rows as [|r IH]; intros w [L F]; destruct w as [|x w]; try discriminate; [reflexivity|].
  cbn [length] in L. injection L as L. inversion F as [|? ? Lx F']; subst.
  cbn [chunk concat]. rewrite firstn_app, Nat.sub_diag, firstn_O, app_nil_r, firstn_all.
  rewrite skipn_app, skipn_all, Nat.sub_diag. cbn [skipn app]. f_equal. apply IH. split; [reflexivity|exact F'].
Qed.

(** Old weights land at the crossings of the old channels, in order; all others keep the new
    module's values. *)
Theorem C44_matrix : forall {V} (om im : list bool) (base old : list (list V)),
  shaped (length om) (length im) base -> shaped (sel om) (sel im) old ->
  exists w, expand_matrix om im base old = Ok w /\ shaped (length om) (length im) w /\
    forall o i, entry w o i =
      match nth_error om o, nth_error im i with
      | Some true, Some true => entry old (rank om o) (rank im i)
      | _, _ => entry base o i
      end.
Proof.
  intros V om im base old Hb Ho. destruct (expand_matrix_rows im om base old Hb Ho) as (w & E & S' & P).
  unfold expand_matrix. rewrite E. cbn [bind]. rewrite (chunk_concat _ _ w S').
  exists w. split; [reflexivity|]. split; [exact S'|]. intros o i. specialize (P o).
  unfold entry. destruct (nth_error om o) as [[|]|] eqn:Eo; [|rewrite P; reflexivity|rewrite P; reflexivity].
  destruct P as (r & s & Er & Es & d & Ed & Esc). rewrite Er, Es, Ed.
  destruct Hb as [_ Fb]. destruct Ho as [_ Fo]. rewrite Forall_forall in Fb, Fo.
  destruct (scatter_spec im d s) as (r' & Er' & _ & Pr).
  { apply Fb, nth_error_In with (1 := Ed). } { rewrite (Fo s); [lia|]. apply nth_error_In with (1 := Es). }
  assert (r' = r) by (apply Ok_inj; rewrite <- Er', <- Esc; reflexivity). subst r'. rewrite Pr.
  destruct (nth_error im i) as [[|]|]; reflexivity.
Qed.
Example C44_matrix_ex :
  expand_matrix [true; false; true] [true; false] [[90;91];[92;93];[94;95]] [[1];[2]]
  = Ok [[1;91];[92;93];[2;95]].
Proof. reflexivity. Qed.

Theorem C44_vector : forall {V} (om : list bool) (base old : list V),
  length base = length om -> length old = sel om ->
  exists v, expand_vector om base old = Ok v /\ length v = length om /\
    forall o, nth_error v o = match nth_error om o with
                              | Some true => nth_error old (rank om o)
                              | _ => nth_error base o
                              end.
Proof. intros V om base old Lb Lo. apply scatter_spec; [exact Lb|lia]. Qed.
Example C44_vector_ex : expand_vector [true; false; true] [90; 91; 92] [1; 2] = Ok [1; 91; 2].
Proof. reflexivity. Qed.

Lemma nth_combine : forall {X Y} (a : list X) (b : list Y) n x y,
  nth_error a n = Some x -> nth_error b n = Some y -> nth_error (combine a b) n = Some (x, y).
Proof.
  induction a as [|u a IH]; intros b n x y Ha Hb; [destruct n; discriminate|].
  destruct b as [|v b]; [destruct n; discriminate|]. destruct n as [|n]; cbn in *; [congruence|eapply IH; eassumption].
Qed.
Lemma nth_some : forall {X} (l : list X) n, (n < length l)%nat -> exists x, nth_error l n = Some x.
Proof.
  intros X l n H. destruct (nth_error l n) eqn:E; [eexists; reflexivity|].
  apply nth_error_None in E; lia.
Qed.
Lemma rank_lt : forall m i, nth_error m i = Some true -> (rank m i < sel m)%nat.
Proof.
  induction m as [|b m IH]; intros [|i] H; try discriminate; cbn in *.
  - injection H as ->. lia.
  - specialize (IH i H). lia.
Qed.

(** ** Function preservation *)

(** What a convolution computes: [P] is the type of feature planes (or numbers), [act k p] the
    contribution of one input plane through one kernel, [cst b] the plane of a bias. *)
Section Layer.
Context {V B P : Type} (add : P -> P -> P) (z : P) (act : V -> P -> P) (cst : B -> P) (vz : V) (bz : B).
Hypothesis add_z_l : forall p, add z p = p.
Hypothesis add_z_r : forall p, add p z = p.
Hypothesis act_z : forall p, act vz p = z.
Hypothesis cst_z : cst bz = z.

Fixpoint dot (r : list V) (xs : list P) : P :=
  match r, xs with k :: r, x :: xs => add (act k x) (dot r xs) | _, _ => z end.
Definition layer (op : wop V B) (xs : list P) : list P :=
  match w_bias op with
  | None => map (fun r => dot r xs) (w_weight op)
  | Some b => map (fun rb => add (dot (fst rb) xs) (cst (snd rb))) (combine (w_weight op) b)
  end.

(** A wide input agrees with a narrow one on the selected channels. *)
Definition agrees (mask : list bool) (wide narrow : list P) : Prop :=
  length wide = length mask /\ length narrow = sel mask /\
  forall i, nth_error mask i = Some true -> nth_error wide i = nth_error narrow (rank mask i).

Lemma agrees_cons : forall b m x wide narrow,
  agrees (b :: m) (x :: wide) narrow ->
  if b then exists n, narrow = x :: n /\ agrees m wide n else agrees m wide narrow.
Proof.
  intros b m x wide narrow (L & N & A). cbn in L; injection L as L. cbn [sel] in N. destruct b.
  - destruct narrow as [|y narrow]; [discriminate|]. cbn in N; injection N as N.
    exists narrow. split.
    + specialize (A O eq_refl). cbn in A. injection A as A. subst; reflexivity.
    + split; [exact L|]. split; [exact N|]. intros i Hi. exact (A (S i) Hi).
  - split; [exact L|]. split; [exact N|]. intros i Hi. exact (A (S i) Hi).
Qed.
Lemma dot_zero : forall n xs, dot (repeat vz n) xs = z.
Proof.
  induction n as [|n IH]; intros [|x xs]; try reflexivity.
  cbn [repeat dot]. rewrite act_z, IH. apply add_z_l.
Qed.
Lemma dot_scatter : forall im r s wide narrow,
  masked_scatter im (repeat vz (length im)) s = Ok r -> length s = sel im -> agrees im wide narrow ->
  dot r wide = dot s narrow.
Proof.
  induction im as [|b im IH]; intros r s wide narrow E Ls A.
  - destruct s; [|discriminate]. cbn in E. apply Ok_inj in E. subst. reflexivity.
  - destruct wide as [|x wide]; [destruct A as [A _]; discriminate|].
    pose proof (agrees_cons _ _ _ _ _ A) as A'. cbn [length repeat masked_scatter] in E. cbn [sel] in Ls.
    destruct b.
    + destruct s as [|y s]; [discriminate|]. cbn in Ls. injection Ls as Ls.
      destruct A' as (n & -> & A').
      destruct (masked_scatter im (repeat vz (length im)) s) as [r'|] eqn:E'; [|discriminate].
      cbn [bind] in E. apply Ok_inj in E. subst r. cbn [dot]. f_equal. eapply IH; eassumption.
    + destruct (masked_scatter im (repeat vz (length im)) s) as [r'|] eqn:E'; [|discriminate].
      cbn [bind] in E. apply Ok_inj in E. subst r. cbn [dot]. rewrite act_z, add_z_l.
      eapply IH; eassumption.
Qed.

(** On every wide input that agrees with a narrow one, the expanded operation agrees with the
    original and is zero on the new channels, whatever the new input channels carry. *)
Theorem C44_preserves : forall om im old wide narrow,
  shaped (sel om) (sel im) (w_weight old) ->
  (forall b, w_bias old = Some b -> length b = sel om) ->
  agrees im wide narrow ->
  exists op, expand_op om im (zero_op vz bz (length om) (length im)
                               (match w_bias old with Some _ => true | None => false end)) old = Ok op /\
    agrees om (layer op wide) (layer old narrow) /\
    forall o, nth_error om o = Some false -> nth_error (layer op wide) o = Some z.
Proof.
  intros om im old wide narrow Ho Hb A. unfold expand_op.
  assert (Sb : shaped (length om) (length im) (repeat (repeat vz (length im)) (length om))).
  { split; [apply repeat_length|]. apply Forall_forall. intros r Hr. apply repeat_spec in Hr.
    subst. apply repeat_length. }
  unfold zero_op; cbn [w_weight w_bias].
  destruct (expand_matrix_rows im om _ (w_weight old) Sb Ho) as (w & E & Sw & Pw).
  unfold expand_matrix. rewrite E. cbn [bind]. rewrite (chunk_concat _ _ w Sw).
  assert (D : forall o, nth_error om o = Some true ->
     exists r s, nth_error w o = Some r /\ nth_error (w_weight old) (rank om o) = Some s /\ dot r wide = dot s narrow).
  { intros o Eo. specialize (Pw o). rewrite Eo in Pw. destruct Pw as (r & s & Er & Es & d & Ed & Esc).
    exists r, s. split; [exact Er|]. split; [exact Es|].
    assert (d = repeat vz (length im)) by (apply repeat_spec with (n := length om); apply nth_error_In with (1 := Ed)).
    subst d. apply dot_scatter with (im := im); [exact Esc| |exact A].
    destruct Ho as [_ Fo]. rewrite Forall_forall in Fo. apply Fo, nth_error_In with (1 := Es). }
  assert (N : forall o, nth_error om o = Some false -> exists r, nth_error w o = Some r /\ dot r wide = z).
  { intros o Eo. specialize (Pw o). rewrite Eo in Pw.
    assert (Lo : (o < length om)%nat) by (apply nth_error_Some; rewrite Eo; discriminate).
    exists (repeat vz (length im)). split; [rewrite Pw; apply nth_error_repeat; exact Lo|]. apply dot_zero. }
  destruct Sw as [Lw _]. destruct Ho as [Lo _].
  destruct (w_bias old) as [ob|] eqn:Eb; cbn [bind].
  - specialize (Hb ob eq_refl).
    destruct (scatter_spec om (repeat bz (length om)) ob (repeat_length _ _) ltac:(lia)) as (nb & En & Ln & Pn).
    unfold expand_vector. rewrite En. cbn [bind]. eexists; split; [reflexivity|].
    unfold layer; cbn [w_bias w_weight]. rewrite Eb.
    assert (C : forall {X Y} (f : X * Y -> P) (a : list X) (b : list Y) n x y,
       nth_error a n = Some x -> nth_error b n = Some y -> nth_error (map f (combine a b)) n = Some (f (x, y))).
    { intros X Y f. induction a as [|u a IH]; intros b n x y Ha Hb'; [destruct n; discriminate|].
      destruct b as [|v b]; [destruct n; discriminate|]. destruct n as [|n]; cbn in *.
      - congruence. - eapply IH; eassumption. }
    split; [split; [|split]|].
    + rewrite map_length, combine_length. lia.
    + rewrite map_length, combine_length. lia.
    + intros o Eo. destruct (D o Eo) as (r & s & Er & Es & Ed).
      specialize (Pn o). rewrite Eo in Pn.
      assert (Lr : (o < length om)%nat) by (apply nth_error_Some; rewrite Eo; discriminate).
      destruct (nth_error nb o) as [b|] eqn:Enb; [|apply nth_error_None in Enb; lia].
      symmetry in Pn. rewrite (C _ _ _ _ _ _ _ _ Er Enb), (C _ _ _ _ _ _ _ _ Es Pn).
      cbn [fst snd]. rewrite Ed. reflexivity.
    + intros o Eo. destruct (N o Eo) as (r & Er & Ed).
      specialize (Pn o). rewrite Eo in Pn.
      assert (Lr : (o < length om)%nat) by (apply nth_error_Some; rewrite Eo; discriminate).
      rewrite nth_error_repeat in Pn by exact Lr.
      rewrite (C _ _ _ _ _ _ _ _ Er Pn). cbn [fst snd]. rewrite Ed, cst_z, add_z_l. reflexivity.
  - eexists; split; [reflexivity|]. unfold layer; cbn [w_bias w_weight]. rewrite Eb.
    split; [split; [|split]|].
    + rewrite map_length. lia.
    + rewrite map_length. lia.
    + intros o Eo. destruct (D o Eo) as (r & s & Er & Es & Ed).
      rewrite (map_nth_error _ _ _ Er), (map_nth_error _ _ _ Es), Ed. reflexivity.
    + intros o Eo. destruct (N o Eo) as (r & Er & Ed). rewrite (map_nth_error _ _ _ Er), Ed. reflexivity.
Qed.

(** A network: layers, each with the mask of its output, followed by an activation. *)
Context (f : P -> P).
Fixpoint net (ops : list (wop V B)) (xs : list P) : list P :=
  match ops with [] => xs | op :: r => net r (map f (layer op xs)) end.
Fixpoint expand_net (im : list bool) (ops : list (list bool * wop V B)) : outcome (list (wop V B)) :=
  match ops with
  | [] => Ok []
  | (om, op) :: r =>
      do e <- expand_op om im (zero_op vz bz (length om) (length im)
                                (match w_bias op with Some _ => true | None => false end)) op;
      do es <- expand_net om r;
      Ok (e :: es)
  end.
Fixpoint fits (im : list bool) (ops : list (list bool * wop V B)) : Prop :=
  match ops with
  | [] => True
  | (om, op) :: r => shaped (sel om) (sel im) (w_weight op) /\
                     (forall b, w_bias op = Some b -> length b = sel om) /\ fits om r
  end.
Lemma agrees_map : forall m a b, agrees m a b -> agrees m (map f a) (map f b).
Proof.
  intros m a b (L & N & A). split; [rewrite map_length; exact L|]. split; [rewrite map_length; exact N|].
  intros i Hi. specialize (A i Hi). pose proof (rank_lt _ _ Hi) as R.
  destruct (nth_some b (rank m i) ltac:(lia)) as [x Ex]. rewrite Ex in A.
  rewrite (map_nth_error _ _ _ A), (map_nth_error _ _ _ Ex). reflexivity.
Qed.
(** The expanded network computes the original outputs on the original channels, whatever the
    activation does to the zero planes of the new ones. *)
Theorem C44_network : forall ops im wide narrow, fits im ops -> agrees im wide narrow ->
  exists es, expand_net im ops = Ok es /\
    agrees (last (im :: map fst ops) []) (net es wide) (net (map snd ops) narrow).
Proof.
  induction ops as [|[om op] r IH]; intros im wide narrow F A.
  - exists []. split; [reflexivity|exact A].
  - destruct F as (F1 & F2 & F3).
    destruct (C44_preserves om im op wide narrow F1 F2 A) as (e & Ee & Ae & _).
    destruct (IH om _ _ F3 (agrees_map _ _ _ Ae)) as (es & Es & Aes).
    exists (e :: es). cbn [expand_net]. rewrite Ee. cbn [bind]. rewrite Es. cbn [bind].
    split; [reflexivity|]. exact Aes.
Qed.

(** Depthwise: channel [c] of the output is [act k_c x_c + b_c]. *)
Definition dw_layer (op : list V * option (list B)) (xs : list P) : list P :=
  match snd op with
  | None => map (fun kx => act (fst kx) (snd kx)) (combine (fst op) xs)
  | Some b => map (fun kxb => add (act (fst (fst kxb)) (snd (fst kxb))) (cst (snd kxb))) (combine (combine (fst op) xs) b)
  end.
Theorem C44_preserves_dw : forall om c (old : list V * option (list B)) wide narrow,
  length (fst old) = sel om ->
  (forall b, snd old = Some b -> length b = sel om) ->
  agrees om wide narrow ->
  exists op, expand_dw c c om (repeat vz (length om),
      match snd old with Some _ => Some (repeat bz (length om)) | None => None end) old = Ok op /\
    agrees om (dw_layer op wide) (dw_layer old narrow) /\
    forall o, nth_error om o = Some false -> nth_error (dw_layer op wide) o = Some z.
Proof.
  intros om c [ow ob] wide narrow Lw Hb A. cbn [fst snd] in *. unfold expand_dw. rewrite Nat.eqb_refl.
  cbn [assert_ bind fst snd]. pose proof A as (La & Na & Aa).
  destruct (scatter_spec om (repeat vz (length om)) ow (repeat_length _ _) ltac:(lia)) as (nw & Ew & Lnw & Pw).
  unfold expand_vector. rewrite Ew. cbn [bind].
  assert (Inb : forall o b, nth_error om o = Some b -> (o < length om)%nat).
  { intros o b H. apply nth_error_Some. rewrite H. discriminate. }
  assert (KT : forall o, nth_error om o = Some true -> exists k x, nth_error nw o = Some k /\
      nth_error ow (rank om o) = Some k /\ nth_error wide o = Some x /\ nth_error narrow (rank om o) = Some x).
  { intros o Eo. pose proof (rank_lt _ _ Eo) as R. pose proof (Inb _ _ Eo) as L.
    destruct (nth_some ow (rank om o) ltac:(lia)) as [k Ek].
    destruct (nth_some narrow (rank om o) ltac:(lia)) as [x Ex].
    exists k, x. specialize (Pw o). rewrite Eo in Pw. specialize (Aa o Eo).
    repeat split; congruence. }
  assert (KF : forall o, nth_error om o = Some false -> exists x, nth_error nw o = Some vz /\ nth_error wide o = Some x).
  { intros o Eo. pose proof (Inb _ _ Eo) as L. destruct (nth_some wide o ltac:(lia)) as [x Ex].
    exists x. specialize (Pw o). rewrite Eo, nth_error_repeat in Pw by exact L. split; assumption. }
  destruct ob as [ob|].
  - specialize (Hb ob eq_refl).
    destruct (scatter_spec om (repeat bz (length om)) ob (repeat_length _ _) ltac:(lia)) as (nb & Eb & Lnb & Pb).
    rewrite Eb. cbn [bind]. eexists; split; [reflexivity|]. unfold dw_layer; cbn [fst snd].
    split; [split; [|split]|].
    + rewrite map_length, !combine_length. lia.
    + rewrite map_length, !combine_length. lia.
    + intros o Eo. destruct (KT o Eo) as (k & x & K1 & K2 & X1 & X2). pose proof (rank_lt _ _ Eo) as R.
      destruct (nth_some ob (rank om o) ltac:(lia)) as [b Ebo].
      specialize (Pb o). rewrite Eo, Ebo in Pb.
      rewrite (map_nth_error _ _ _ (nth_combine _ _ _ _ _ (nth_combine _ _ _ _ _ K1 X1) Pb)).
      rewrite (map_nth_error _ _ _ (nth_combine _ _ _ _ _ (nth_combine _ _ _ _ _ K2 X2) Ebo)). reflexivity.
    + intros o Eo. destruct (KF o Eo) as (x & K & X). pose proof (Inb _ _ Eo) as L.
      specialize (Pb o). rewrite Eo, nth_error_repeat in Pb by exact L.
      rewrite (map_nth_error _ _ _ (nth_combine _ _ _ _ _ (nth_combine _ _ _ _ _ K X) Pb)).
      cbn [fst snd]. rewrite act_z, cst_z, add_z_l. reflexivity.
  - cbn [bind]. eexists; split; [reflexivity|]. unfold dw_layer; cbn [fst snd].
    split; [split; [|split]|].
    + rewrite map_length, !combine_length. lia.
    + rewrite map_length, !combine_length. lia.
    + intros o Eo. destruct (KT o Eo) as (k & x & K1 & K2 & X1 & X2).
      rewrite (map_nth_error _ _ _ (nth_combine _ _ _ _ _ K1 X1)), (map_nth_error _ _ _ (nth_combine _ _ _ _ _ K2 X2)).
      reflexivity.
    + intros o Eo. destruct (KF o Eo) as (x & K & X).
      rewrite (map_nth_error _ _ _ (nth_combine _ _ _ _ _ K X)). cbn [fst snd]. rewrite act_z. reflexivity.
Qed.
End Layer.
(** A 2-to-2 linear layer widened to 3 outputs and 3 inputs; the new input carries 100. *)
Example C44_preserves_ex :
  let old := {| w_weight := [[1; 2]; [3; 4]]; w_bias := Some [10; 20] |} in
  exists op, expand_op [true; false; true] [true; true; false] (zero_op 0 0 3 3 true) old = Ok op /\
    layer Z.add 0 Z.mul (fun b => b) op [5; 6; 100] = [27; 0; 59] /\
    layer Z.add 0 Z.mul (fun b => b) old [5; 6] = [27; 59] /\
    agrees [true; true; false] [5; 6; 100] [5; 6].
Proof.
  eexists. split; [reflexivity|]. split; [reflexivity|]. split; [reflexivity|].
  split; [reflexivity|]. split; [reflexivity|]. intros [|[|[|i]]] H; try reflexivity; try discriminate.
  destruct i; discriminate.
Qed.
(** Two layers with activation [x + 1]; the hidden layer grows from 1 to 3 channels. *)
Example C44_network_ex :
  let ops := [([true; false; false], {| w_weight := [[2; 3]]; w_bias := None |});
              ([true], {| w_weight := [[7]]; w_bias := Some [1] |})] in
  fits [true; true] ops /\
  exists es, expand_net 0 0 [true; true] ops = Ok es /\
    net Z.add 0 Z.mul (fun b => b) (fun x => x + 1) es [5; 6] = [205] /\
    net Z.add 0 Z.mul (fun b => b) (fun x => x + 1) (map snd ops) [5; 6] = [205].
Proof.
  split.
  - cbn. repeat split; try (repeat constructor); try (intros b H; discriminate H).
    intros b H; injection H as <-; reflexivity.
  - eexists. split; [reflexivity|]. split; reflexivity.
Qed.
Example C44_preserves_dw_ex :
  exists op, expand_dw 2 2 [true; false; true] (repeat 0 3, Some (repeat 0 3)) ([2; 3], Some [10; 20]) = Ok op /\
    dw_layer Z.add Z.mul (fun b => b) op [5; 100; 6] = [20; 0; 38] /\
    dw_layer Z.add Z.mul (fun b => b) ([2; 3], Some [10; 20]) [5; 6] = [20; 38].
Proof. eexists. split; [reflexivity|]. split; reflexivity. Qed.

(** ** Batch norm *)

(** Full claim: every batch norm can be expanded. *)
Definition C44_bn_claim : Prop :=
  forall (c : nat) (om : list bool) (base old : bnop Z),
    (bn_affine base = None <-> bn_affine old = None) -> (bn_stats base = None <-> bn_stats old = None) ->
    (forall w b, bn_affine base = Some (w, b) -> length w = length om /\ length b = length om) ->
    (forall w b, bn_affine old = Some (w, b) -> length w = sel om /\ length b = sel om) ->
    (forall w b, bn_stats base = Some (w, b) -> length w = length om /\ length b = length om) ->
    (forall w b, bn_stats old = Some (w, b) -> length w = sel om /\ length b = sel om) ->
    exists op, expand_bn c c om base old = Ok op.
(** One without affine parameters cannot. *)
Theorem C44_bn_refuted : ~ C44_bn_claim.
Proof.
  intro H. destruct (H 1%nat [true] {| bn_affine := None; bn_stats := None |} {| bn_affine := None; bn_stats := None |})
    as [op E]; try (split; reflexivity); try (intros ? ? E; discriminate E). discriminate E.
Qed.

(** In evaluation mode channel [c] becomes [(x - mean) * istd var * w + b]. *)
Section Bn.
Context {R P : Type} (norm : P -> R -> R -> P) (scale : P -> R -> R -> P) (z : P) (r0 r1 : R).
Hypothesis scale_z : forall p, scale p r0 r0 = z.
Definition bn_layer (w b m v : list R) (xs : list P) : list P :=
  map (fun t => scale (norm (fst (fst (fst (fst t)))) (snd (fst t)) (snd t)) (snd (fst (fst (fst t)))) (snd (fst (fst t))))
      (combine (combine (combine (combine xs w) b) m) v).

Theorem C44_preserves_bn_partial : forall c om w b m v wide narrow,
  length w = sel om -> length b = sel om -> length m = sel om -> length v = sel om ->
  agrees om wide narrow ->
  exists w' b' m' v',
    expand_bn c c om
      {| bn_affine := Some (repeat r0 (length om), repeat r0 (length om));
         bn_stats := Some (repeat r0 (length om), repeat r1 (length om)) |}
      {| bn_affine := Some (w, b); bn_stats := Some (m, v) |}
    = Ok {| bn_affine := Some (w', b'); bn_stats := Some (m', v') |} /\
    agrees om (bn_layer w' b' m' v' wide) (bn_layer w b m v narrow) /\
    forall o, nth_error om o = Some false -> nth_error (bn_layer w' b' m' v' wide) o = Some z.
Proof.
  intros c om w b m v wide narrow Lw Lb Lm Lv A. unfold expand_bn. rewrite Nat.eqb_refl.
  cbn [assert_ bind bn_stats bn_affine]. unfold expand_vector.
  destruct (scatter_spec om (repeat r0 (length om)) w (repeat_length _ _) ltac:(lia)) as (w' & Ew & Lw' & Pw).
  destruct (scatter_spec om (repeat r0 (length om)) b (repeat_length _ _) ltac:(lia)) as (b' & Eb & Lb' & Pb).
  destruct (scatter_spec om (repeat r0 (length om)) m (repeat_length _ _) ltac:(lia)) as (m' & Em & Lm' & Pm).
  destruct (scatter_spec om (repeat r1 (length om)) v (repeat_length _ _) ltac:(lia)) as (v' & Ev & Lv' & Pv).
  rewrite Ew, Eb, Em, Ev. cbn [bind]. exists w', b', m', v'. split; [reflexivity|].
  destruct A as (La & Na & Aa). unfold bn_layer.
  assert (Inb : forall o x, nth_error om o = Some x -> (o < length om)%nat).
  { intros o x H. apply nth_error_Some. rewrite H. discriminate. }
  split; [split; [|split]|].
  - rewrite map_length, !combine_length. lia.
  - rewrite map_length, !combine_length. lia.
  - intros o Eo. pose proof (rank_lt _ _ Eo) as Rk.
    specialize (Pw o); specialize (Pb o); specialize (Pm o); specialize (Pv o); specialize (Aa o Eo).
    rewrite Eo in Pw, Pb, Pm, Pv.
    destruct (nth_some w (rank om o) ltac:(lia)) as [kw Kw]. destruct (nth_some b (rank om o) ltac:(lia)) as [kb Kb].
    destruct (nth_some m (rank om o) ltac:(lia)) as [km Km]. destruct (nth_some v (rank om o) ltac:(lia)) as [kv Kv].
    destruct (nth_some narrow (rank om o) ltac:(lia)) as [x Kx].
    rewrite Kw in Pw. rewrite Kb in Pb. rewrite Km in Pm. rewrite Kv in Pv. rewrite Kx in Aa.
    rewrite (map_nth_error _ _ _ (nth_combine _ _ _ _ _ (nth_combine _ _ _ _ _ (nth_combine _ _ _ _ _ (nth_combine _ _ _ _ _ Aa Pw) Pb) Pm) Pv)).
    rewrite (map_nth_error _ _ _ (nth_combine _ _ _ _ _ (nth_combine _ _ _ _ _ (nth_combine _ _ _ _ _ (nth_combine _ _ _ _ _ Kx Kw) Kb) Km) Kv)).
    reflexivity.
  - intros o Eo. pose proof (Inb _ _ Eo) as L.
    specialize (Pw o); specialize (Pb o); specialize (Pm o); specialize (Pv o).
    rewrite Eo, nth_error_repeat in Pw, Pb, Pm, Pv by exact L.
    destruct (nth_some wide o ltac:(lia)) as [x Kx].
    rewrite (map_nth_error _ _ _ (nth_combine _ _ _ _ _ (nth_combine _ _ _ _ _ (nth_combine _ _ _ _ _ (nth_combine _ _ _ _ _ Kx Pw) Pb) Pm) Pv)).
    cbn [fst snd]. rewrite scale_z. reflexivity.
Qed.
End Bn.
Example C44_preserves_bn_ex :
  expand_bn 2 2 [true; false; true]
    {| bn_affine := Some (repeat 0 3, repeat 0 3); bn_stats := Some (repeat 0 3, repeat 1 3) |}
    {| bn_affine := Some ([2; 3], [4; 5]); bn_stats := Some ([6; 7], [8; 9]) |}
  = Ok {| bn_affine := Some ([2; 0; 3], [4; 0; 5]); bn_stats := Some ([6; 0; 7], [8; 1; 9]) |}.
Proof. reflexivity. Qed.

Print Assumptions C44_width_refuted.
Print Assumptions C44_width_partial.
Print Assumptions C44_width_history.
Print Assumptions C44_divisible.
Print Assumptions C44_matrix.
Print Assumptions C44_vector.
Print Assumptions C44_preserves.
Print Assumptions C44_network.
Print Assumptions C44_preserves_dw.
Print Assumptions C44_bn_refuted.
Print Assumptions C44_preserves_bn_partial.

(** Weights with fewer entries than the mask selects are an error. *)
Theorem C44_short : forall {V} (om : list bool) (base old : list V),
  length base = length om -> (length old < length (filter (fun b => b) om))%nat -> expand_vector om base old = Raise RuntimeError.
Proof.
  intros V om. unfold expand_vector. induction om as [| o om IH]; intros [| d ds] old L S; try discriminate; [cbn in S; lia |].
  injection L as L. cbn [filter] in S. destruct o; cbn [masked_scatter].
  - destruct old as [| x old]; [reflexivity |]. cbn [length] in S. rewrite (IH ds old L ltac:(lia)). reflexivity.
  - rewrite (IH ds old L S). reflexivity.
Qed.
Example C44_short_ex : expand_vector [true; false; true] [0; 0; 0] [5] = Raise RuntimeError.
Proof. reflexivity. Qed.
Print Assumptions C44_short.
