(** C35, C36, C37. *)
From Verif Require Import Prelude Dynamic_Model Dynamic_Lemmas.
Open Scope Z_scope.

Arguments w_in {A}. Arguments w_k {A}. Arguments w_rows {A}.
Arguments d_in {A}. Arguments d_out {A}. Arguments d_groups {A}. Arguments d_geom {A}. Arguments d_weight {A}. Arguments d_bias {A}.
Arguments d_in_mut {A}. Arguments d_out_mut {A}.
Arguments s_weight {A}. Arguments s_bias {A}. Arguments s_groups {A}. Arguments s_geom {A}.
Arguments s_in {A}. Arguments s_out {A}.
Arguments l_in {A}. Arguments l_weight {A}. Arguments l_bias {A}. Arguments l_in_mut {A}. Arguments l_out_mut {A}.

(** The laws of arithmetic that are used. *)
Record laws (A : Type) (zero one : A) (add mul : A -> A -> A) : Prop := {
  add_0_l : forall x, add zero x = x; add_0_r : forall x, add x zero = x;
  mul_0_l : forall x, mul zero x = zero; mul_0_r : forall x, mul x zero = zero; mul_1_l : forall x, mul one x = x }.
Lemma Z_laws : laws Z 0 1 Z.add Z.mul.
Proof. split; intros; lia. Qed.

(** A convolution layer with consistent shapes, and masks of the right sizes. *)
Record wf {A} (c : dconv A) : Prop := {
  wf_groups : (0 < d_groups c)%nat;
  wf_out : exists n, (0 < n)%nat /\ d_out c = (d_groups c * n)%nat;
  wf_in : d_in c = (d_groups c * w_in (d_weight c))%nat;
  wf_rows : length (w_rows (d_weight c)) = d_out c;
  wf_row : Forall (fun r => length r = w_in (d_weight c)) (w_rows (d_weight c));
  wf_bias : forall b, d_bias c = Some b -> length b = d_out c;
  wf_im : forall m, d_in_mut c = Some m -> length m = d_in c;
  wf_om : forall m, d_out_mut c = Some m -> length m = d_out c }.
Definition in_mask {A} (c : dconv A) : list bool := match d_in_mut c with Some m => m | None => repeat true (d_in c) end.
Definition out_mask {A} (c : dconv A) : list bool := match d_out_mut c with Some m => m | None => repeat true (d_out c) end.
Definition zero_plane {A} (zero : A) (h w : Z) : image A := repeat (repeat zero (Z.to_nat w)) (Z.to_nat h).
(** What C35 promises: the output of the full layer on the input with zero planes for the
    inactive channels, restricted to the active output channels. *)
Definition masked_dense {A} (zero : A) add mul (c : dconv A) (h w : Z) (x : list (image A)) : outcome (list (image A)) :=
  do y <- conv2d A zero add mul (d_geom c) (d_groups c) (d_weight c) (d_bias c) h w (scatter (zero_plane zero h w) (in_mask c) x);
  Ok (sel (out_mask c) y).
Definition active {A} (c : dconv A) (x : list (image A)) : Prop :=
  length x = count_true (in_mask c) /\ (0 < count_true (in_mask c))%nat /\ (0 < count_true (out_mask c))%nat.

Definition C35_claim : Prop :=
  forall A zero one add mul, laws A zero one add mul ->
    forall (c : dconv A) h w x, wf c -> active c x -> dynamic_forward A zero add mul c h w x = masked_dense zero add mul c h w x.

Section C35.
  Variables (A : Type) (zero one : A) (add mul : A -> A -> A).
  Hypothesis L : laws A zero one add mul.
  Notation corr := (corr A zero add mul).
  Notation out_channel := (out_channel A zero add mul).
  Notation conv2d := (conv2d A zero add mul).
  Notation sum := (sum A zero add).

  Lemma sum_zeros {T} (f : T -> A) l : (forall x, In x l -> f x = zero) -> sum (map f l) = zero.
  Proof. induction l as [|x l IH]; intros H; cbn; [reflexivity|]. rewrite H by (left; reflexivity). rewrite (add_0_l _ _ _ _ _ L). apply IH. intros; apply H; right; assumption. Qed.
  Lemma nth_repeat_any {T} (x : T) n i d : nth i (repeat x n) d = x \/ nth i (repeat x n) d = d.
  Proof. revert i. induction n as [|n IH]; intros [|i]; cbn; auto. Qed.
  Lemma pixel_zero h w r c : pixel A zero (zero_plane zero h w) r c = zero.
  Proof.
    unfold pixel, zero_plane. destruct (_ || _); [reflexivity|]. destruct (nth_repeat_any (repeat zero (Z.to_nat w)) (Z.to_nat h) (Z.to_nat r) []) as [->| ->].
    - destruct (nth_repeat_any zero (Z.to_nat w) (Z.to_nat c) zero); assumption.
    - destruct (Z.to_nat c); reflexivity.
  Qed.
  Lemma corr_zero g k h w u v : corr g k (zero_plane zero h w) u v = zero.
  Proof. unfold Dynamic_Model.corr. apply sum_zeros. intros [p r] _. apply sum_zeros. intros [q a] _. cbn [snd]. rewrite pixel_zero. apply (mul_0_r _ _ _ _ _ L). Qed.
  (** Dropping inactive channels, whose planes are zero, does not change an output channel. *)
  Lemma out_drop g k h w m r P b : length r = length m -> blank_off (zero_plane zero h w) m P ->
    out_channel g k h w (sel m r, b) (sel m P) = out_channel g k h w (r, b) P.
  Proof.
    intros Hr B. unfold Dynamic_Model.out_channel. apply map_ext. intros u. apply map_ext. intros v. cbn [fst snd]. f_equal.
    revert r Hr. induction B as [|x p m P Hx B IH]; intros [|a r] Hr; cbn [length] in Hr; try discriminate; [reflexivity|]. cbn [sel combine map Dynamic_Model.sum fold_right fst snd].
    destruct x; cbn [combine map fold_right fst snd].
    - f_equal. apply IH. lia.
    - rewrite (Hx eq_refl), corr_zero, (add_0_l _ _ _ _ _ L). apply IH. lia.
  Qed.

  (** ** conv2d on explicit groups *)
  Definition too_small (g : geom) (k h w : Z) : bool := (h + 2 * g_pad g <? g_dil g * (k - 1) + 1) || (w + 2 * g_pad g <? g_dil g * (k - 1) + 1).
  Definition bias_ok (b : option (list A)) (n : nat) : Prop := forall b', b = Some b' -> length b' = n.
  Lemma with_bias_fst b (rows : list (list (kernel A))) : bias_ok b (length rows) -> map fst (with_bias A b rows) = rows.
  Proof.
    destruct b as [b|]; cbn [with_bias]; intros H.
    - apply map_fst_combine. rewrite map_length. symmetry. apply H. reflexivity.
    - rewrite map_map. apply map_id.
  Qed.
  Lemma with_bias_snd b (rows : list (list (kernel A))) : bias_ok b (length rows) ->
    map snd (with_bias A b rows) = match b with Some b' => map Some b' | None => repeat None (length rows) end.
  Proof.
    destruct b as [b|]; cbn [with_bias]; intros H.
    - apply map_snd_combine. rewrite map_length. symmetry. apply H. reflexivity.
    - rewrite map_map. induction rows as [|r rows IH]; cbn; [reflexivity|]. f_equal. apply IH. intros b' E. discriminate.
  Qed.
  Lemma with_bias_length b (rows : list (list (kernel A))) : bias_ok b (length rows) -> length (with_bias A b rows) = length rows.
  Proof. intros H. rewrite <- (with_bias_fst b rows H) at 2. rewrite map_length. reflexivity. Qed.
  (** One entry of [Gs] per group: rows with bias, planes. *)
  Lemma conv2d_groups g W bias h w (Gs : list (list (list (kernel A) * option A) * list (image A))) n :
    (0 < length Gs)%nat -> (0 < n)%nat ->
    with_bias A bias (w_rows W) = concat (map fst Gs) -> bias_ok bias (length (w_rows W)) ->
    Forall (fun G => length (fst G) = n /\ length (snd G) = w_in W) Gs ->
    conv2d g (length Gs) W bias h w (concat (map snd Gs)) =
    if too_small g (w_k W) h w then Raise RuntimeError
    else Ok (concat (map (fun G => map (fun rb => out_channel g (w_k W) h w rb (snd G)) (fst G)) Gs)).
  Proof.
    intros HG Hn E B F. unfold Dynamic_Model.conv2d.
    assert (F1 : Forall (fun l => length l = n) (map fst Gs)) by (apply Forall_map; eapply Forall_impl; [|exact F]; intros a [H _]; exact H).
    assert (F2 : Forall (fun l => length l = w_in W) (map snd Gs)) by (apply Forall_map; eapply Forall_impl; [|exact F]; intros a [_ H]; exact H).
    assert (R : length (w_rows W) = (length Gs * n)%nat).
    { rewrite <- (with_bias_length bias _ B), E, (concat_length_const n _ F1), map_length. reflexivity. }
    rewrite R. destruct (Nat.eqb_spec (length Gs) 0); [lia|]. destruct (Nat.ltb_spec (length Gs * n) (length Gs)); [nia|].
    rewrite (Nat.mul_comm (length Gs) n), Nat.mod_mul, Nat.div_mul by lia. rewrite (concat_length_const _ _ F2), map_length. cbn [Nat.eqb negb orb].
    rewrite (Nat.mul_comm (length Gs)), Nat.eqb_refl. cbn [negb orb].
    replace (match bias with Some b => negb (length b =? n * length Gs)%nat | None => false end) with false.
    2: { destruct bias as [b|]; [|reflexivity]. rewrite (B b eq_refl), R, (Nat.mul_comm n), Nat.eqb_refl. reflexivity. }
    cbn [orb]. unfold too_small. destruct (_ || _); [reflexivity|]. do 3 f_equal. rewrite E.
    rewrite <- (map_length fst Gs) at 1. rewrite chunks_concat by exact F1. rewrite <- (map_length snd Gs). rewrite chunks_concat by exact F2.
    clear. induction Gs as [|[a b] Gs IH]; cbn; [reflexivity|]. rewrite IH. reflexivity.
  Qed.

  (** ** groups = 1 and group-wise convolutions *)
  (** A group: output mask, input mask, rows with bias, full-width planes. *)
  Definition group := (list bool * list bool * (list (list (kernel A) * option A)) * list (image A))%type.
  Definition g_om (t : group) := fst (fst (fst t)).
  Definition g_im (t : group) := snd (fst (fst t)).
  Definition g_rb (t : group) := snd (fst t).
  Definition g_x (t : group) := snd t.
  Definition good (h w : Z) (n c on ic : nat) (t : group) : Prop :=
    length (g_om t) = n /\ length (g_rb t) = n /\ length (g_im t) = c /\ length (g_x t) = c /\ count_true (g_om t) = on /\ count_true (g_im t) = ic /\
    Forall (fun rb => length (fst rb) = c) (g_rb t) /\ blank_off (zero_plane zero h w) (g_im t) (g_x t).
  Lemma grouped g h w k (Ts : list group) n c on ic : Forall (good h w n c on ic) Ts ->
    sel (concat (map g_om Ts)) (concat (map (fun t => map (fun rb => out_channel g k h w rb (g_x t)) (g_rb t)) Ts)) =
    concat (map (fun t => map (fun rb => out_channel g k h w rb (sel (g_im t) (g_x t))) (map (fun rb => (sel (g_im t) (fst rb), snd rb)) (sel (g_om t) (g_rb t)))) Ts).
  Proof.
    intros F. rewrite sel_concat. 2: { eapply Forall_impl; [|exact F]. intros t (H1 & H2 & _). rewrite map_length. congruence. }
    f_equal. apply map_ext_in. intros t I. rewrite Forall_forall in F. destruct (F t I) as (H1 & H2 & H3 & H4 & _ & _ & H7 & H8).
    rewrite sel_map, map_map. apply map_ext_in. intros [r b] J. cbn [fst snd]. symmetry. apply out_drop; [|exact H8].
    apply sel_In in J. rewrite Forall_forall in H7. specialize (H7 _ J). cbn in H7. congruence.
  Qed.
  (** The dense and the pruned convolution over the same groups. *)
  Lemma grouped_conv g h w (Ts : list group) n c on ic (W W' : weight A) bias bias' :
    Forall (good h w n c on ic) Ts -> (0 < length Ts)%nat -> (0 < n)%nat -> (0 < on)%nat -> w_in W = c -> w_in W' = ic -> w_k W' = w_k W ->
    with_bias A bias (w_rows W) = concat (map g_rb Ts) -> bias_ok bias (length (w_rows W)) ->
    with_bias A bias' (w_rows W') = concat (map (fun t => map (fun rb => (sel (g_im t) (fst rb), snd rb)) (sel (g_om t) (g_rb t))) Ts) -> bias_ok bias' (length (w_rows W')) ->
    conv2d g (length Ts) W' bias' h w (sel (concat (map g_im Ts)) (concat (map g_x Ts))) =
    do y <- conv2d g (length Ts) W bias h w (concat (map g_x Ts)); Ok (sel (concat (map g_om Ts)) y).
  Proof.
    intros F HT Hn Hon Ec Eic Ek E1 B1 E2 B2.
    pose proof (conv2d_groups g W bias h w (map (fun t => (g_rb t, g_x t)) Ts) n) as C1.
    rewrite map_length, !map_map in C1. cbn [fst snd] in C1. specialize (C1 HT Hn E1 B1).
    assert (C1' : conv2d g (length Ts) W bias h w (concat (map g_x Ts)) = if too_small g (w_k W) h w then Raise RuntimeError
      else Ok (concat (map (fun t => map (fun rb => out_channel g (w_k W) h w rb (g_x t)) (g_rb t)) Ts))).
    { apply C1. apply Forall_map. eapply Forall_impl; [|exact F]. intros t (H1 & H2 & H3 & H4 & _). cbn [fst snd]. subst. auto. }
    rewrite C1'. clear C1 C1'.
    pose proof (conv2d_groups g W' bias' h w (map (fun t => (map (fun rb => (sel (g_im t) (fst rb), snd rb)) (sel (g_om t) (g_rb t)), sel (g_im t) (g_x t))) Ts) on) as C2.
    rewrite map_length, !map_map in C2. cbn [fst snd] in C2.
    rewrite sel_concat by (eapply Forall_impl; [|exact F]; intros t (H1 & H2 & H3 & H4 & _); congruence).
    rewrite C2; auto; clear C2.
    2: { apply Forall_map. eapply Forall_impl; [|exact F]. intros t (H1 & H2 & H3 & H4 & H5 & H6 & _). cbn [fst snd]. rewrite map_length, !sel_length by congruence. subst. auto. }
    rewrite Ek. destruct (too_small _ _ _ _); [reflexivity|]. cbn [bind]. rewrite (grouped g h w (w_k W) Ts n c on ic F). reflexivity.
  Qed.
  (** Masks, rows and planes of a layer, cut into groups. *)
  Lemma make_groups (G n c : nat) (om im : list bool) (rb : list (list (kernel A) * option A)) (x : list (image A)) h w on ic :
    length om = (G * n)%nat -> length rb = (G * n)%nat -> length im = (G * c)%nat -> length x = (G * c)%nat ->
    Forall (fun r => length (fst r) = c) rb -> blank_off (zero_plane zero h w) im x ->
    Forall (fun m => count_true m = on) (chunks G n om) -> Forall (fun m => count_true m = ic) (chunks G c im) ->
    exists Ts, length Ts = G /\ Forall (good h w n c on ic) Ts /\ map g_om Ts = chunks G n om /\ map g_im Ts = chunks G c im /\
      concat (map g_om Ts) = om /\ concat (map g_im Ts) = im /\ concat (map g_rb Ts) = rb /\ concat (map g_x Ts) = x.
  Proof.
    revert om rb im x. induction G as [|G IH]; intros om rb im x H1 H2 H3 H4 F B C1 C2.
    - exists []. destruct om, rb, im, x; cbn in *; try lia. repeat split; constructor.
    - cbn [chunks] in *. apply Forall_cons_iff in C1 as [C1 C1']. apply Forall_cons_iff in C2 as [C2 C2'].
      rewrite <- (firstn_skipn c im), <- (firstn_skipn c x) in B. apply forall2_split in B as [B1 B2]; [|rewrite !firstn_length_le by nia; reflexivity].
      rewrite <- (firstn_skipn n rb) in F. apply Forall_app in F as [F1 F2].
      destruct (IH (skipn n om) (skipn n rb) (skipn c im) (skipn c x)) as (Ts & E0 & E1 & E2 & E3 & E4 & E5 & E6 & E7); auto; try (rewrite skipn_length; nia).
      exists ((firstn n om, firstn c im, firstn n rb, firstn c x) :: Ts). split; [cbn [length]; lia|]. split; [constructor; [|exact E1]|].
      + unfold good, g_om, g_im, g_rb, g_x. cbn [fst snd]. rewrite !firstn_length_le by nia. repeat split; auto.
      + cbn [map concat g_om g_im g_rb g_x fst snd]. rewrite E4, E5, E6, E7, E2, E3, !firstn_skipn. repeat split.
  Qed.
  (** The rows selected group by group carry the selected bias. *)
  Lemma selected_bias h w n c on ic (Ts : list group) bias rows rows' :
    Forall (good h w n c on ic) Ts -> concat (map g_rb Ts) = with_bias A bias rows -> bias_ok bias (length rows) ->
    rows' = concat (map (fun t => map (sel (g_im t)) (sel (g_om t) (map fst (g_rb t)))) Ts) ->
    let bias' := option_map (sel (concat (map g_om Ts))) bias in
    with_bias A bias' rows' = concat (map (fun t => map (fun rb => (sel (g_im t) (fst rb), snd rb)) (sel (g_om t) (g_rb t))) Ts) /\ bias_ok bias' (length rows').
  Proof.
    intros F E B -> bias'.
    assert (Lo : length (concat (map g_om Ts)) = length (concat (map g_rb Ts))).
    { clear - F. induction F as [|t Ts (H1 & H2 & _) F IH]; cbn [map concat]; [reflexivity|]. rewrite !app_length, IH. congruence. }
    assert (Lr : length (concat (map g_om Ts)) = length rows) by (rewrite Lo, E; apply with_bias_length; exact B).
    assert (S : concat (map (fun t => sel (g_om t) (g_rb t)) Ts) = sel (concat (map g_om Ts)) (concat (map g_rb Ts))).
    { symmetry. apply sel_concat. eapply Forall_impl; [|exact F]. intros t (H1 & H2 & _). congruence. }
    assert (R : length (concat (map (fun t => map (sel (g_im t)) (sel (g_om t) (map fst (g_rb t)))) Ts)) = count_true (concat (map g_om Ts))).
    { rewrite <- (sel_length _ _ Lo), <- S. clear. induction Ts as [|t Ts IH]; cbn [map concat]; [reflexivity|]. rewrite !app_length, IH, map_length, sel_map, map_length. reflexivity. }
    assert (B' : bias_ok bias' (length (concat (map (fun t => map (sel (g_im t)) (sel (g_om t) (map fst (g_rb t)))) Ts)))).
    { rewrite R. intros b' Eb. unfold bias' in Eb. destruct bias as [b|]; [|discriminate Eb]. cbn [option_map] in Eb. injection Eb as <-. apply sel_length. rewrite Lr. symmetry. apply B. reflexivity. }
    split; [|exact B']. apply pair_ext.
    - rewrite with_bias_fst by exact B'. rewrite concat_map, map_map. f_equal. apply map_ext. intros t. rewrite map_map. cbn [fst]. rewrite sel_map, map_map. reflexivity.
    - rewrite with_bias_snd by exact B'. rewrite concat_map, map_map.
      replace (map (fun t => map snd (map (fun rb => (sel (g_im t) (fst rb), snd rb)) (sel (g_om t) (g_rb t)))) Ts) with (map (fun t => map snd (sel (g_om t) (g_rb t))) Ts)
        by (apply map_ext; intros t; rewrite map_map; reflexivity).
      rewrite <- (map_map (fun t => sel (g_om t) (g_rb t)) (map snd)), <- concat_map, S, E, <- sel_map, with_bias_snd by exact B.
      rewrite R. unfold bias'. destruct bias as [b|]; cbn [option_map]; [symmetry; apply sel_map|].
      rewrite <- Lr. clear. induction (concat (map g_om Ts)) as [|x m IH]; [reflexivity|]. rewrite count_cons. cbn [length repeat sel]. destruct x; cbn [Nat.add repeat]; [f_equal|]; exact IH.
  Qed.

  Variables (c : dconv A) (h w : Z) (x : list (image A)).
  Hypothesis HW : wf c.
  Hypothesis HA : active c x.
  Notation W := (d_weight c).
  Notation im := (in_mask c).
  Notation om := (out_mask c).
  Notation full := (scatter (zero_plane zero h w) (in_mask c) x).

  Lemma im_length : length im = d_in c.
  Proof. unfold in_mask. destruct (d_in_mut c) as [m|] eqn:E; [apply (wf_im c HW m E)|apply repeat_length]. Qed.
  Lemma om_length : length om = d_out c.
  Proof. unfold out_mask. destruct (d_out_mut c) as [m|] eqn:E; [apply (wf_om c HW m E)|apply repeat_length]. Qed.
  Lemma bias_ok_c : bias_ok (d_bias c) (length (w_rows W)).
  Proof. intros b E. rewrite (wf_rows c HW). exact (wf_bias c HW b E). Qed.
  Lemma bias_index_ok : bias_index A om (d_bias c) = Ok (option_map (sel om) (d_bias c)).
  Proof. unfold bias_index. destruct (d_bias c) as [b|] eqn:E; [|reflexivity]. unfold mask_index. rewrite om_length, (wf_bias c HW b E), Nat.eqb_refl. reflexivity. Qed.
  Lemma mask_index_rows : mask_index om (w_rows W) = Ok (sel om (w_rows W)).
  Proof. unfold mask_index. rewrite om_length, (wf_rows c HW), Nat.eqb_refl. reflexivity. Qed.
  Lemma rows_true rows : (forall r, In r rows -> In r (w_rows W)) -> map (sel (repeat true (w_in W))) rows = rows.
  Proof. intros H. rewrite <- (map_id rows) at 2. apply map_ext_in. intros r I. apply sel_true. pose proof (wf_row c HW) as F. rewrite Forall_forall in F. apply F. apply H. exact I. Qed.

  Lemma weight_eta (V : weight A) : {| w_in := w_in V; w_k := w_k V; w_rows := w_rows V |} = V.
  Proof. destruct V; reflexivity. Qed.
  Lemma dense_params : d_groups c = 1%nat ->
    dynamic_params A c W = Ok ({| w_in := count_true im; w_k := w_k W; w_rows := map (sel im) (sel om (w_rows W)) |}, option_map (sel om) (d_bias c)).
  Proof.
    intros G1. pose proof (wf_in c HW) as Hin. rewrite G1, Nat.mul_1_l in Hin.
    assert (K : forall (im0 om0 : list bool), im0 = im -> om0 = om ->
      (do W' <- (if (d_groups c =? 1)%nat then
                  do rows <- mask_index om0 (w_rows W);
                  if (length im0 =? w_in W)%nat
                  then Ok {| w_in := count_true im0; w_k := w_k W; w_rows := map (sel im0) rows |}
                  else Raise IndexError
                else Raise RuntimeError);
      do bias <- bias_index A om0 (d_bias c); Ok (W', bias)) =
      Ok ({| w_in := count_true im; w_k := w_k W; w_rows := map (sel im) (sel om (w_rows W)) |}, option_map (sel om) (d_bias c))).
    { intros im0 om0 -> ->. rewrite G1. cbn [Nat.eqb]. rewrite mask_index_rows. cbn [bind]. rewrite im_length, Hin, Nat.eqb_refl. cbn [bind]. rewrite bias_index_ok. reflexivity. }
    unfold dynamic_params. rewrite G1 in *. cbn [Nat.eqb] in *. unfold in_mask, out_mask in *. rewrite Hin, <- (wf_rows c HW) in *.
    destruct (d_in_mut c) as [m|] eqn:EI; destruct (d_out_mut c) as [m'|] eqn:EO; try (apply K; reflexivity).
    rewrite count_repeat, sel_true by reflexivity. rewrite rows_true by auto. rewrite weight_eta. f_equal. f_equal.
    destruct (d_bias c) as [b|] eqn:Eb; [|reflexivity]. cbn [option_map]. rewrite sel_true; [reflexivity|]. rewrite (wf_bias c HW b Eb), <- (wf_rows c HW). reflexivity.
  Qed.

  (** Even group masks: the same number of active inputs (outputs) in every group. *)
  Definition even_masks (n on ic : nat) : Prop :=
    d_out c = (d_groups c * n)%nat /\ Forall (fun m => count_true m = on) (chunks (d_groups c) n om) /\ Forall (fun m => count_true m = ic) (chunks (d_groups c) (w_in W) im).
  Lemma count_chunks G n on (m : list bool) : length m = (G * n)%nat -> Forall (fun k => count_true k = on) (chunks G n m) -> count_true m = (G * on)%nat.
  Proof.
    intros H F. destruct (chunks_spec G n m H) as [E _]. rewrite <- E at 1. rewrite <- (chunks_length G n m) at 2. clear E H.
    induction F as [|k l Hk F IH]; cbn [concat length]; [reflexivity|]. rewrite count_app, Hk, IH. lia.
  Qed.
  (** From parameters selected group by group to the result. *)
  Lemma from_params n on ic W' : even_masks n on ic -> (0 < n)%nat ->
    dynamic_params A c W = Ok (W', option_map (sel om) (d_bias c)) -> w_in W' = ic -> w_k W' = w_k W ->
    (forall Ts, map g_om Ts = chunks (d_groups c) n om -> map g_im Ts = chunks (d_groups c) (w_in W) im -> concat (map (map fst) (map g_rb Ts)) = w_rows W ->
      Forall (good h w n (w_in W) on ic) Ts -> w_rows W' = concat (map (fun t => map (sel (g_im t)) (sel (g_om t) (map fst (g_rb t)))) Ts)) ->
    (if depthwise A c then length x else d_groups c) = d_groups c ->
    dynamic_forward A zero add mul c h w x = masked_dense zero add mul c h w x.
  Proof.
    intros (En & E1 & E2) Hn P Ei Ek R Gr. destruct HA as (A1 & A2 & A3).
    destruct (make_groups (d_groups c) n (w_in W) om im (with_bias A (d_bias c) (w_rows W)) full h w on ic) as (Ts & T0 & T1 & T2 & T3 & T4 & T5 & T6 & T7); auto.
    - rewrite om_length. exact En.
    - rewrite with_bias_length by exact bias_ok_c. rewrite (wf_rows c HW). exact En.
    - rewrite im_length. apply (wf_in c HW).
    - rewrite scatter_length, im_length. apply (wf_in c HW).
    - apply Forall_forall. intros rb I. pose proof (wf_row c HW) as F. rewrite Forall_forall in F. apply F. rewrite <- (with_bias_fst (d_bias c) (w_rows W) bias_ok_c). apply in_map. exact I.
    - apply scatter_blank.
    - unfold dynamic_forward, masked_dense. rewrite Gr, P. cbn [bind].
      destruct (selected_bias h w n (w_in W) on ic Ts (d_bias c) (w_rows W) (w_rows W') T1 T6 bias_ok_c) as [S1 S2].
      { apply R; auto. rewrite <- concat_map, T6. apply with_bias_fst. exact bias_ok_c. }
      pose proof (grouped_conv (d_geom c) h w Ts n (w_in W) on ic W W' (d_bias c) (option_map (sel (concat (map g_om Ts))) (d_bias c)) T1) as GC.
      rewrite T0, T4, T5, T7 in GC. rewrite T4 in S1, S2. rewrite sel_scatter in GC by exact A1. apply GC; auto.
      + apply (wf_groups c HW).
      + rewrite (count_chunks (d_groups c) n on) in A3; [nia|rewrite om_length; exact En|exact E1].
      + exact bias_ok_c.
  Qed.

  Theorem dense_case : d_groups c = 1%nat -> dynamic_forward A zero add mul c h w x = masked_dense zero add mul c h w x.
  Proof.
    intros G1. destruct HA as (A1 & A2 & A3). destruct (wf_out c HW) as (n & Hn & En). pose proof (wf_in c HW) as Hin. rewrite G1, Nat.mul_1_l in En, Hin.
    apply (from_params n (count_true om) (count_true im) _) with (3 := dense_params G1); auto.
    - unfold even_masks. rewrite G1. cbn [chunks]. rewrite !firstn_all2 by (rewrite ?om_length, ?im_length; lia). repeat split; [lia|repeat constructor|repeat constructor].
    - intros Ts T1 T2 T3 _. cbn [w_rows]. rewrite G1 in T1, T2. cbn [chunks] in T1, T2. rewrite !firstn_all2 in T1, T2 by (rewrite ?om_length, ?im_length; lia).
      destruct Ts as [|t [|]]; try discriminate T1. cbn [map concat] in *. injection T1 as ->. injection T2 as ->. rewrite app_nil_r in *. rewrite T3. reflexivity.
    - unfold depthwise. rewrite G1. destruct (Nat.eqb_spec 1 (d_in c)) as [E|]; [|reflexivity]. destruct (Nat.eqb_spec (d_in c) (d_out c)); [|reflexivity]. cbn [andb].
      pose proof (count_le im). rewrite im_length in *. lia.
  Qed.

  Lemma concat_concat_map {T U} (f : T -> list (list U)) l : concat (map (fun t => concat (f t)) l) = concat (concat (map f l)).
  Proof. induction l as [|t l IH]; cbn [map concat]; [reflexivity|]. rewrite IH, concat_app. reflexivity. Qed.
  Lemma forallb_first n (ms : list (list bool)) : Forall (fun m => count_true m = n) ms -> (0 < length ms)%nat ->
    (match ms with m :: _ => count_true m | [] => O end) = n /\ forallb (fun m => count_true m =? n)%nat ms = true.
  Proof.
    intros F H. split; [destruct F; [cbn in H; lia|assumption]|]. apply forallb_forall. intros m I. rewrite Forall_forall in F. rewrite (F m I). apply Nat.eqb_refl.
  Qed.
  Definition outer (oms ims : list (list bool)) : list bool :=
    concat (map (fun oi => concat (map (fun o : bool => map (fun i => o && i) (snd oi)) (fst oi))) (combine oms ims)).
  Lemma outer_length G n k om0 im0 : length om0 = (G * n)%nat -> length im0 = (G * k)%nat -> length (outer (chunks G n om0) (chunks G k im0)) = (G * n * k)%nat.
  Proof.
    unfold outer. revert om0 im0. induction G as [|G IH]; intros om0 im0 H1 H2; cbn [chunks combine map concat fst snd]; [reflexivity|].
    rewrite app_length, IH by (rewrite skipn_length; nia). rewrite (concat_length_const k).
    - rewrite map_length, firstn_length_le by nia. lia.
    - apply Forall_map. apply Forall_forall. intros o _. rewrite map_length, firstn_length_le by nia. reflexivity.
  Qed.
  Lemma group_rows n on ic Ts : even_masks n on ic -> map g_om Ts = chunks (d_groups c) n om -> map g_im Ts = chunks (d_groups c) (w_in W) im ->
    concat (map (map fst) (map g_rb Ts)) = w_rows W -> Forall (good h w n (w_in W) on ic) Ts ->
    chunks (d_groups c * on) ic (sel (outer (chunks (d_groups c) n om) (chunks (d_groups c) (w_in W) im)) (concat (w_rows W))) =
    concat (map (fun t => map (sel (g_im t)) (sel (g_om t) (map fst (g_rb t)))) Ts).
  Proof.
    intros _ T1 T2 T3 F. rewrite <- T1, <- T2, <- T3.
    assert (LT : length Ts = d_groups c) by (rewrite <- (map_length g_om Ts), T1; apply chunks_length).
    replace (outer (map g_om Ts) (map g_im Ts)) with (concat (map (fun t => concat (map (fun o : bool => map (fun i => o && i) (g_im t)) (g_om t))) Ts)).
    2: { unfold outer. f_equal. clear. induction Ts as [|t Ts IH]; cbn [map combine fst snd]; [reflexivity|]. f_equal. exact IH. }
    rewrite map_map, <- concat_concat_map, sel_concat.
    - replace (map (fun t => sel (concat (map (fun o : bool => map (fun i => o && i) (g_im t)) (g_om t))) (concat (map fst (g_rb t)))) Ts)
        with (map (fun t => concat (map (sel (g_im t)) (sel (g_om t) (map fst (g_rb t))))) Ts).
      2: { apply map_ext_in. intros t I. rewrite Forall_forall in F. destruct (F t I) as (H1 & H2 & H3 & H4 & H5 & H6 & H7 & _). symmetry. apply sel_outer; [rewrite map_length; congruence|].
           apply Forall_map. eapply Forall_impl; [|exact H7]. intros rb Hrb. cbn beta in *. congruence. }
      rewrite concat_concat_map. replace (d_groups c * on)%nat with (length (concat (map (fun t => map (sel (g_im t)) (sel (g_om t) (map fst (g_rb t)))) Ts))).
      + apply chunks_concat. apply Forall_concat. apply Forall_map. eapply Forall_impl; [|exact F]. intros t (H1 & H2 & H3 & H4 & H5 & H6 & H7 & _).
        apply Forall_map. apply Forall_forall. intros r I. apply sel_In in I. apply in_map_iff in I as (rb & <- & I). rewrite Forall_forall in H7. rewrite sel_length; [exact H6|]. rewrite (H7 rb I). exact H3.
      + rewrite (concat_length_const on), map_length, LT; [reflexivity|]. apply Forall_map. eapply Forall_impl; [|exact F]. intros t (H1 & H2 & H3 & H4 & H5 & _).
        rewrite map_length, sel_length; [exact H5|]. rewrite map_length. congruence.
    - eapply Forall_impl; [|exact F]. intros t (H1 & H2 & H3 & H4 & H5 & H6 & H7 & _). rewrite (concat_length_const (w_in W)), (concat_length_const (w_in W)).
      + rewrite !map_length. congruence.
      + apply Forall_map. exact H7.
      + apply Forall_map. apply Forall_forall. intros o _. rewrite map_length. exact H3.
  Qed.
  Theorem group_case n on ic : d_groups c <> 1%nat -> depthwise A c = false -> even_masks n on ic -> d_in_mut c <> None \/ d_out_mut c = None -> (0 < n)%nat ->
    dynamic_forward A zero add mul c h w x = masked_dense zero add mul c h w x.
  Proof.
    intros G1 D E HM Hn. pose proof (wf_groups c HW) as HG. pose proof (wf_in c HW) as Hin. pose proof E as (En & E1 & E2).
    destruct (d_in_mut c) as [m|] eqn:EI.
    - apply (from_params n on ic {| w_in := ic; w_k := w_k W;
        w_rows := chunks (d_groups c * on) ic (sel (outer (chunks (d_groups c) n om) (chunks (d_groups c) (w_in W) im)) (concat (w_rows W))) |}); auto.
      + unfold dynamic_params. rewrite EI. destruct (Nat.eqb_spec (d_groups c) 1); [lia|]. rewrite D.
        replace (match d_out_mut c with Some m0 => m0 | None => repeat true (length (w_rows W)) end) with om by (unfold out_mask; rewrite (wf_rows c HW); reflexivity).
        replace m with im by (unfold in_mask; rewrite EI; reflexivity).
        unfold reshape_groups. rewrite im_length, om_length, Hin, En. 
        assert (MM : forall a, ((d_groups c * a) mod d_groups c)%nat = O) by (intros a; rewrite Nat.mul_comm; apply Nat.mod_mul; lia).
        assert (MD : forall a, ((d_groups c * a) / d_groups c)%nat = a) by (intros a; rewrite Nat.mul_comm; apply Nat.div_mul; lia).
        rewrite !MM, !MD. cbn [Nat.eqb bind].
        destruct (forallb_first ic _ E2) as [-> ->]; [rewrite chunks_length; lia|]. cbn [assert_ bind].
        destruct (forallb_first on _ E1) as [-> ->]; [rewrite chunks_length; lia|]. cbn [assert_ bind].
        fold (outer (chunks (d_groups c) n om) (chunks (d_groups c) (w_in W) im)). unfold mask_index at 1.
        rewrite outer_length by (rewrite ?om_length, ?im_length; assumption). rewrite (concat_length_const (w_in W) _ (wf_row c HW)), (wf_rows c HW), En, Nat.eqb_refl. cbn [bind].
        rewrite bias_index_ok. cbn [bind]. reflexivity.
      + intros Ts T1 T2 T3 F. cbn [w_rows]. apply (group_rows n on ic); assumption.
      + rewrite D. reflexivity.
    - destruct HM as [HM|EO]; [congruence|].
      assert (TI : im = repeat true (d_in c)) by (unfold in_mask; rewrite EI; reflexivity). assert (TO : om = repeat true (d_out c)) by (unfold out_mask; rewrite EO; reflexivity).
      assert (All : forall G n0 m0, m0 = repeat true (G * n0)%nat -> chunks G n0 m0 = repeat (repeat true n0) G).
      { clear. intros G n0. induction G as [|G IH]; intros m0 ->; cbn [chunks repeat Nat.mul]; [reflexivity|]. rewrite repeat_app, firstn_app, skipn_app, repeat_length, Nat.sub_diag.
        rewrite firstn_all2, skipn_all2 by (rewrite repeat_length; lia). cbn [firstn skipn app]. rewrite app_nil_r, IH by reflexivity. reflexivity. }
      assert (A1 := All (d_groups c) (w_in W) im). rewrite TI, Hin in A1 at 1. specialize (A1 eq_refl).
      assert (A2 := All (d_groups c) n om). rewrite TO, En in A2 at 1. specialize (A2 eq_refl).
      assert (Ei : ic = w_in W). { rewrite A1 in E2. destruct (d_groups c); [lia|]. cbn [repeat] in E2. apply Forall_cons_iff in E2 as [E2 _]. rewrite count_repeat in E2. congruence. }
      apply (from_params n on ic W); auto.
      + unfold dynamic_params. rewrite EI, EO. f_equal. f_equal. destruct (d_bias c) as [b|] eqn:Eb; [|reflexivity]. cbn [option_map]. rewrite TO, sel_true; [reflexivity|]. apply (wf_bias c HW b Eb).
      + intros Ts T1 T2 T3 F. rewrite <- T3. f_equal. rewrite map_map. apply map_ext_in. intros t I. rewrite Forall_forall in F. destruct (F t I) as (H1 & H2 & H3 & H4 & H5 & H6 & H7 & _).
        assert (J1 : g_om t = repeat true n). { assert (J : In (g_om t) (map g_om Ts)) by (apply in_map; exact I). rewrite T1, A2 in J. apply repeat_spec in J. exact J. }
        assert (J2 : g_im t = repeat true (w_in W)). { assert (J : In (g_im t) (map g_im Ts)) by (apply in_map; exact I). rewrite T2, A1 in J. apply repeat_spec in J. exact J. }
        rewrite J1, J2, sel_true by (rewrite map_length; exact H2). rewrite <- (map_id (map fst (g_rb t))) at 1. apply map_ext_in. intros r Ir. symmetry. apply sel_true.
        apply in_map_iff in Ir as (rb & <- & Ir). rewrite Forall_forall in H7. apply H7. exact Ir.
      + rewrite D. reflexivity.
  Qed.

  (** ** Depth-wise convolutions *)
  Lemma depthwise_conv g (V : weight A) bias (X : list (image A)) : w_in V = 1%nat -> length X = length (w_rows V) -> (0 < length X)%nat -> bias_ok bias (length (w_rows V)) ->
    conv2d g (length X) V bias h w X =
    if too_small g (w_k V) h w then Raise RuntimeError
    else Ok (map (fun rp => out_channel g (w_k V) h w (fst rp) [snd rp]) (combine (with_bias A bias (w_rows V)) X)).
  Proof.
    intros H1 H2 H3 B. pose proof (with_bias_length bias _ B) as HL.
    pose proof (conv2d_groups g V bias h w (map (fun rp => ([fst rp], [snd rp])) (combine (with_bias A bias (w_rows V)) X)) 1) as C.
    rewrite map_length, combine_length, HL, <- H2, Nat.min_id, !map_map in C. cbn [fst snd] in C.
    assert (E : forall T U (l : list (T * U)), concat (map (fun rp => [fst rp]) l) = map fst l /\ concat (map (fun rp => [snd rp]) l) = map snd l).
    { clear. induction l as [|a l [I1 I2]]; cbn; [auto|]. rewrite I1, I2. auto. }
    rewrite (proj1 (E _ _ _)), (proj2 (E _ _ _)), map_fst_combine, map_snd_combine in C by lia.
    rewrite C; auto; [|rewrite H2; exact B|apply Forall_map; apply Forall_forall; intros rp _; cbn; lia].
    destruct (too_small _ _ _ _); [reflexivity|]. f_equal. clear. induction (combine _ X) as [|a l IH]; cbn [map concat app fst snd]; [reflexivity|f_equal; exact IH].
  Qed.
  Theorem depthwise_case : d_groups c <> 1%nat -> depthwise A c = true -> im = om -> dynamic_forward A zero add mul c h w x = masked_dense zero add mul c h w x.
  Proof.
    intros G1 D E. destruct HA as (A1 & A2 & A3). unfold depthwise in D. apply andb_true_iff in D as [D1 D2]. apply Nat.eqb_eq in D1, D2.
    pose proof (wf_in c HW) as Hin. pose proof (wf_groups c HW) as HG. assert (Wi : w_in W = 1%nat) by nia.
    assert (P : dynamic_params A c W = Ok ({| w_in := w_in W; w_k := w_k W; w_rows := sel om (w_rows W) |}, option_map (sel om) (d_bias c))).
    { assert (K : forall om0 : list bool, om0 = om ->
        (do W' <- (do rows <- mask_index om0 (w_rows W); Ok {| w_in := w_in W; w_k := w_k W; w_rows := rows |}); do bias <- bias_index A om0 (d_bias c); Ok (W', bias)) =
        Ok ({| w_in := w_in W; w_k := w_k W; w_rows := sel om (w_rows W) |}, option_map (sel om) (d_bias c))).
      { intros om0 ->. rewrite mask_index_rows. cbn [bind]. rewrite bias_index_ok. reflexivity. }
      unfold dynamic_params. destruct (Nat.eqb_spec (d_groups c) 1); [lia|]. unfold depthwise. rewrite D1, D2, !Nat.eqb_refl. cbn [andb].
      destruct (d_in_mut c) as [m|] eqn:EI; destruct (d_out_mut c) as [m'|] eqn:EO; try (apply K; unfold out_mask; rewrite EO, ?(wf_rows c HW); reflexivity).
      assert (TO : om = repeat true (d_out c)) by (unfold out_mask; rewrite EO; reflexivity). rewrite TO, sel_true by apply (wf_rows c HW). rewrite weight_eta. f_equal. f_equal.
      destruct (d_bias c) as [b|] eqn:Eb; [|reflexivity]. cbn [option_map]. rewrite sel_true; [reflexivity|]. apply (wf_bias c HW b Eb). }
    unfold dynamic_forward, masked_dense. rewrite P. unfold depthwise. rewrite D1, D2, !Nat.eqb_refl. cbn [andb bind].
    assert (Ls : length (sel om (w_rows W)) = count_true om) by (apply sel_length; rewrite om_length, (wf_rows c HW); reflexivity).
    assert (B' : bias_ok (option_map (sel om) (d_bias c)) (length (sel om (w_rows W)))).
    { rewrite Ls. intros b' Eb. destruct (d_bias c) as [b|] eqn:E'; [|discriminate Eb]. injection Eb as <-. apply sel_length. rewrite om_length. symmetry. apply (wf_bias c HW b E'). }
    rewrite depthwise_conv; [|exact Wi|cbn [w_rows]; rewrite Ls, A1, E; reflexivity|lia|exact B'].
    assert (Lf : length full = d_out c) by (rewrite scatter_length, im_length; exact D2).
    pose proof (depthwise_conv (d_geom c) W (d_bias c) full Wi) as F. rewrite Lf, (wf_rows c HW) in F. specialize (F eq_refl ltac:(lia)).
    specialize (F (wf_bias c HW)). rewrite F. cbn [w_k w_rows]. destruct (too_small _ _ _ _); [reflexivity|]. cbn [bind]. f_equal.
    rewrite sel_map. f_equal. rewrite sel_combine.
    - rewrite <- E at 4. rewrite sel_scatter by exact A1. f_equal. apply pair_ext.
      + rewrite with_bias_fst by exact B'. rewrite <- sel_map, with_bias_fst by exact bias_ok_c. reflexivity.
      + rewrite with_bias_snd by exact B'. rewrite <- sel_map, with_bias_snd by exact bias_ok_c. destruct (d_bias c) as [b|]; cbn [option_map]; [symmetry; apply sel_map|].
        rewrite Ls, (wf_rows c HW), <- om_length. clear. induction om as [|y m IH]; [reflexivity|]. rewrite count_cons. cbn [length repeat sel]. destruct y; cbn [Nat.add repeat]; [f_equal|]; exact IH.
    - rewrite with_bias_length by exact bias_ok_c. rewrite om_length, (wf_rows c HW). reflexivity.
    - rewrite om_length. symmetry. exact Lf.
  Qed.
End C35.

(** * C35: theorems *)
(** The layers for which the promise is kept. *)
Definition supported {A} (c : dconv A) : Prop :=
  d_groups c = 1%nat \/ (depthwise A c = true /\ in_mask c = out_mask c) \/
  (depthwise A c = false /\ (exists n on ic, even_masks A c n on ic) /\ (d_in_mut c <> None \/ d_out_mut c = None)).
Theorem C35_conv_partial :
  forall A zero one add mul, laws A zero one add mul ->
    forall (c : dconv A) h w x, wf c -> active c x -> supported c ->
      dynamic_forward A zero add mul c h w x = masked_dense zero add mul c h w x.
Proof.
  intros A zero one add mul L c h w x HW HA HS. destruct (Nat.eq_dec (d_groups c) 1) as [G|G]; [eapply dense_case; eassumption|].
  destruct HS as [HS|[[D E]|[D [(n & on & ic & E) M]]]]; [congruence|eapply depthwise_case; eassumption|].
  eapply group_case; try eassumption. destruct E as [En _]. destruct (wf_out c HW) as (n' & Hn & En'). pose proof (wf_groups c HW). nia.
Qed.
Print Assumptions C35_conv_partial.

Definition k1 (z : Z) : kernel Z := [[z]].
Definition g1 : geom := {| g_stride := 1; g_pad := 0; g_dil := 1 |}.
(** A depth-wise convolution with two channels. *)
Definition dw2 (im om : list bool) : dconv Z :=
  {| d_in := 2; d_out := 2; d_groups := 2; d_geom := g1; d_weight := {| w_in := 1; w_k := 1; w_rows := [[k1 3]; [k1 7]] |}; d_bias := None;
     d_in_mut := Some im; d_out_mut := Some om |}.
Lemma wf_dw2 im om : length im = 2%nat -> length om = 2%nat -> wf (dw2 im om).
Proof. intros. split; cbn; auto; try (intros; congruence). exists 1%nat. lia. Qed.
(** Input channel 0 and output channel 1 active: the code convolves channel 0 with the filter
    of channel 1. *)
Theorem C35_depthwise_refuted : ~ C35_claim.
Proof.
  intro H. specialize (H Z 0 1 Z.add Z.mul Z_laws (dw2 [true; false] [false; true]) 1 1 [[[5]]]).
  assert (E : dynamic_forward Z 0 Z.add Z.mul (dw2 [true; false] [false; true]) 1 1 [[[5]]] = masked_dense 0 Z.add Z.mul (dw2 [true; false] [false; true]) 1 1 [[[5]]]).
  { apply H; [apply wf_dw2; reflexivity|]. unfold active. cbn. lia. }
  vm_compute in E. discriminate.
Qed.
Print Assumptions C35_depthwise_refuted.

(** A group convolution whose output mutable alone is registered cannot be evaluated. *)
Theorem C35_group_without_input_mutable :
  forall A zero add mul (c : dconv A) h w x m, wf c -> (1 < d_groups c)%nat -> (0 < d_in c)%nat -> depthwise A c = false ->
    d_in_mut c = None -> d_out_mut c = Some m -> exists e, dynamic_forward A zero add mul c h w x = Raise e.
Proof.
  intros A zero add mul c h w x m HW HG Hi D EI EO. unfold dynamic_forward. rewrite D. unfold dynamic_params. rewrite EI, EO, D.
  destruct (Nat.eqb_spec (d_groups c) 1); [lia|]. pose proof (wf_in c HW) as Hin. destruct (wf_out c HW) as (n' & Hn & Hout).
  unfold reshape_groups. rewrite repeat_length, (wf_om c HW m EO).
  destruct (Nat.eqb_spec (w_in (d_weight c) mod d_groups c) 0) as [Hm|]; [|cbn [bind]; eauto]. cbn [bind].
  destruct (forallb _ (chunks _ _ (repeat true _))); cbn [assert_ bind]; eauto.
  rewrite Hout. replace (d_groups c * n')%nat with (n' * d_groups c)%nat by lia. rewrite Nat.mod_mul, Nat.div_mul by lia. cbn [Nat.eqb bind].
  destruct (forallb _ (chunks _ _ m)); cbn [assert_ bind]; eauto.
  match goal with |- context [mask_index ?k ?l] => assert (K : length k <> length l) end.
  { rewrite (concat_length_const _ _ (wf_row c HW)), (wf_rows c HW). pose proof (outer_length (d_groups c) n' (w_in (d_weight c) / d_groups c) m (repeat true (w_in (d_weight c)))) as O.
    unfold outer in O. rewrite O.
    - rewrite Hout. apply Nat.div_exact in Hm; [|lia]. intro E. remember (w_in (d_weight c) / d_groups c)%nat as q. assert (0 < q)%nat by nia. rewrite Hm in E. assert (0 < d_groups c * n' * q)%nat by nia. nia.
    - rewrite (wf_om c HW m EO). exact Hout.
    - rewrite repeat_length. apply Nat.div_exact; [lia|exact Hm]. }
  unfold mask_index at 1. destruct (Nat.eqb_spec (length (concat (map (fun oi => concat (map (fun o : bool => map (fun i => o && i) (snd oi)) (fst oi)))
    (combine (chunks (d_groups c) n' m) (chunks (d_groups c) (w_in (d_weight c) / d_groups c) (repeat true (w_in (d_weight c)))))))) (length (concat (w_rows (d_weight c))))); [contradiction|].
  cbn [bind]. eauto.
Qed.
Print Assumptions C35_group_without_input_mutable.

(** Group masks with different numbers of active channels are rejected. *)
Lemma uneven_assert (ms : list (list bool)) a b : In a ms -> In b ms -> count_true a <> count_true b ->
  forallb (fun m => count_true m =? match ms with k :: _ => count_true k | [] => O end)%nat ms = false.
Proof.
  intros Ia Ib N. destruct (forallb _ ms) eqn:E; [|reflexivity]. rewrite forallb_forall in E. pose proof (E a Ia) as Ea. pose proof (E b Ib) as Eb. apply Nat.eqb_eq in Ea, Eb. congruence.
Qed.
Theorem C35_group_uneven :
  forall A zero add mul (c : dconv A) h w x m a b, wf c -> (1 < d_groups c)%nat -> depthwise A c = false -> d_in_mut c = Some m ->
    In a (chunks (d_groups c) (w_in (d_weight c)) m) -> In b (chunks (d_groups c) (w_in (d_weight c)) m) -> count_true a <> count_true b ->
    dynamic_forward A zero add mul c h w x = Raise AssertionError.
Proof.
  intros A zero add mul c h w x m a b HW HG D EI Ia Ib N. unfold dynamic_forward. rewrite D. unfold dynamic_params. rewrite EI, D.
  destruct (Nat.eqb_spec (d_groups c) 1); [lia|]. unfold reshape_groups at 1. rewrite (wf_im c HW m EI), (wf_in c HW).
  replace (d_groups c * w_in (d_weight c))%nat with (w_in (d_weight c) * d_groups c)%nat by lia. rewrite Nat.mod_mul, Nat.div_mul by lia. cbn [Nat.eqb bind].
  rewrite (uneven_assert _ a b Ia Ib N). reflexivity.
Qed.
Print Assumptions C35_group_uneven.

(** A group convolution with two groups of two input and two output channels; one channel of
    each group is active. *)
Definition gc (im om : option (list bool)) : dconv Z :=
  {| d_in := 4; d_out := 4; d_groups := 2; d_geom := {| g_stride := 2; g_pad := 1; g_dil := 1 |};
     d_weight := {| w_in := 2; w_k := 2; w_rows := map (fun o => map (fun i => [[o; i]; [o * i; 1]]) [2; 3]) [1; 5; 7; 9] |};
     d_bias := Some [10; 20; 30; 40]; d_in_mut := im; d_out_mut := om |}.
Lemma wf_gc im om : (forall m, im = Some m -> length m = 4%nat) -> (forall m, om = Some m -> length m = 4%nat) -> wf (gc im om).
Proof. intros. split; cbn; auto; try lia. - exists 2%nat. split; lia. - intros b E. injection E as <-. reflexivity. Qed.
Example C35_example :
  let c := gc (Some [true; false; false; true]) (Some [false; true; true; false]) in
  let x := [[[1; 2]; [3; 4]]; [[5; 6]; [7; 8]]] in
  wf c /\ active c x /\ supported c /\ dynamic_forward Z 0 Z.add Z.mul c 2 2 x = Ok [[[21; 40]; [26; 40]]; [[35; 156]; [51; 86]]].
Proof.
  cbv zeta. split; [apply wf_gc; intros m E; injection E as <-; reflexivity|]. split; [unfold active; cbn; lia|]. split; [|vm_compute; reflexivity].
  right. right. split; [reflexivity|]. split; [|left; discriminate]. exists 2%nat, 1%nat, 1%nat. unfold even_masks. cbn. repeat split; repeat constructor.
Qed.
Example C35_group_examples :
  (exists e, dynamic_forward Z 0 Z.add Z.mul (gc None (Some [true; true; true; true])) 2 2 (repeat [[1; 2]; [3; 4]] 4) = Raise e) /\
  dynamic_forward Z 0 Z.add Z.mul (gc (Some [true; false; false; false]) None) 2 2 [[[1; 2]; [3; 4]]] = Raise AssertionError.
Proof. split; [eexists|]; vm_compute; reflexivity. Qed.

(** ** Linear layers *)
Record lin_wf {A} (l : dlinear A) : Prop := {
  lw_row : Forall (fun r => length r = l_in l) (l_weight l);
  lw_bias : forall b, l_bias l = Some b -> length b = length (l_weight l);
  lw_im : forall m, l_in_mut l = Some m -> length m = l_in l;
  lw_om : forall m, l_out_mut l = Some m -> length m = length (l_weight l) }.
Definition lin_im {A} (l : dlinear A) := match l_in_mut l with Some m => m | None => repeat true (l_in l) end.
Definition lin_om {A} (l : dlinear A) := match l_out_mut l with Some m => m | None => repeat true (length (l_weight l)) end.
Lemma dot_drop {A zero one add mul} (L : laws A zero one add mul) m r x : length r = length m -> blank_off zero m x ->
  dot A zero add mul (sel m r) (sel m x) = dot A zero add mul r x.
Proof.
  intros Hr B. revert r Hr. unfold dot. induction B as [|b p m x Hb B IH]; intros [|a r] Hr; cbn [length] in Hr; try discriminate; [reflexivity|].
  destruct b; cbn [sel combine map sum fold_right fst snd].
  - f_equal. apply IH. lia.
  - rewrite (Hb eq_refl), (mul_0_r _ _ _ _ _ L), (add_0_l _ _ _ _ _ L). apply IH. lia.
Qed.
Lemma linear_params_ok {A} (l : dlinear A) : lin_wf l ->
  linear_params A l = Ok (count_true (lin_im l), map (sel (lin_im l)) (sel (lin_om l) (l_weight l)), option_map (sel (lin_om l)) (l_bias l)).
Proof.
  intros H. assert (Li : length (lin_im l) = l_in l) by (unfold lin_im; destruct (l_in_mut l) eqn:E; [apply (lw_im l H _ E)|apply repeat_length]).
  assert (Lo : length (lin_om l) = length (l_weight l)) by (unfold lin_om; destruct (l_out_mut l) eqn:E; [apply (lw_om l H _ E)|apply repeat_length]).
  assert (K : forall im om, im = lin_im l -> om = lin_om l ->
    (do rows <- mask_index om (l_weight l); if (length im =? l_in l)%nat then do bias <- bias_index A om (l_bias l); Ok (count_true im, map (sel im) rows, bias) else Raise IndexError) =
    Ok (count_true (lin_im l), map (sel (lin_im l)) (sel (lin_om l) (l_weight l)), option_map (sel (lin_om l)) (l_bias l))).
  { intros im om -> ->. unfold mask_index, bias_index. rewrite Lo, Li, !Nat.eqb_refl. cbn [bind]. destruct (l_bias l) as [b|] eqn:Eb; [|reflexivity].
    unfold mask_index. rewrite Lo, (lw_bias l H b Eb), Nat.eqb_refl. reflexivity. }
  unfold linear_params. unfold lin_im, lin_om in *. destruct (l_in_mut l) as [m|]; destruct (l_out_mut l) as [m'|]; try (apply K; reflexivity).
  rewrite count_repeat, sel_true by reflexivity. f_equal. f_equal; [f_equal|].
  - rewrite <- (map_id (l_weight l)) at 1. apply map_ext_in. intros r I. symmetry. apply sel_true. pose proof (lw_row l H) as F. rewrite Forall_forall in F. auto.
  - destruct (l_bias l) as [b|] eqn:Eb; [|reflexivity]. cbn [option_map]. rewrite sel_true; [reflexivity|apply (lw_bias l H b Eb)].
Qed.
Theorem C35_linear :
  forall A zero one add mul, laws A zero one add mul ->
    forall (l : dlinear A) x, lin_wf l -> length x = count_true (lin_im l) ->
      dynamic_linear A zero add mul l x =
      do y <- linear A zero add mul (l_in l) (l_weight l) (l_bias l) (scatter zero (lin_im l) x); Ok (sel (lin_om l) y).
Proof.
  intros A zero one add mul L l x H Hx.
  assert (Li : length (lin_im l) = l_in l) by (unfold lin_im; destruct (l_in_mut l) eqn:E; [apply (lw_im l H _ E)|apply repeat_length]).
  assert (Lo : length (lin_om l) = length (l_weight l)) by (unfold lin_om; destruct (l_out_mut l) eqn:E; [apply (lw_om l H _ E)|apply repeat_length]).
  unfold dynamic_linear. rewrite linear_params_ok by exact H. cbn [bind fst snd]. unfold linear. rewrite Hx, Nat.eqb_refl, scatter_length, Li, Nat.eqb_refl. cbn [negb orb].
  assert (D : forall r, In r (l_weight l) -> dot A zero add mul (sel (lin_im l) r) x = dot A zero add mul r (scatter zero (lin_im l) x)).
  { intros r I. rewrite <- (sel_scatter zero (lin_im l) x Hx) at 1. apply (dot_drop L); [|apply scatter_blank]. pose proof (lw_row l H) as F. rewrite Forall_forall in F. rewrite (F r I). auto. }
  destruct (l_bias l) as [b|] eqn:Eb; cbn [option_map].
  - pose proof (lw_bias l H b Eb) as Hb. rewrite map_length, !sel_length by congruence. rewrite Hb, !Nat.eqb_refl. cbn [negb bind]. f_equal.
    rewrite sel_map, sel_combine by congruence. clear - D. assert (D' : forall r, In r (sel (lin_om l) (l_weight l)) -> dot A zero add mul (sel (lin_im l) r) x = dot A zero add mul r (scatter zero (lin_im l) x)).
    { intros r I. apply D. apply sel_In in I. exact I. }
    revert D'. generalize (sel (lin_om l) b). induction (sel (lin_om l) (l_weight l)) as [|r rows IH]; intros [|y bs] D'; cbn [map combine]; try reflexivity.
    cbn [fst snd]. rewrite (D' r (or_introl eq_refl)). f_equal. apply IH. intros. apply D'. right. assumption.
  - cbn [bind]. f_equal. rewrite sel_map, map_map. apply map_ext_in. intros r I. apply D. apply sel_In in I. exact I.
Qed.
Print Assumptions C35_linear.
Definition lin_example : dlinear Z :=
  {| l_in := 3; l_weight := [[1; 2; 3]; [4; 5; 6]; [7; 8; 9]]; l_bias := Some [100; 200; 300]; l_in_mut := Some [true; false; true]; l_out_mut := Some [false; true; true] |}.
Example C35_linear_example : lin_wf lin_example /\ dynamic_linear Z 0 Z.add Z.mul lin_example [1; 10] = Ok [264; 397].
Proof.
  split; [|reflexivity]. split; cbn; [repeat constructor| | |]; intros ? E; injection E as <-; reflexivity.
Qed.

(** * C36: kernel-size choices *)
(** The window for an odd choice is centred, has the chosen size and lies inside the kernel. *)
Theorem C36_window :
  forall s t, 0 <= t <= s -> Z.odd s = true -> Z.odd t = true ->
    exists a b, get_current_kernel_pos s t = Ok (a, b) /\ 0 <= a /\ b <= s /\ b - a = t /\ a - 0 = s - b.
Proof.
  intros s t H Hs Ht. unfold get_current_kernel_pos. rewrite (proj2 (Z.geb_le s t)) by lia. cbn [assert_ bind].
  do 2 eexists. split; [reflexivity|]. rewrite !Z.shiftr_div_pow2 by lia. change (2 ^ 1) with 2.
  apply Zodd_bool_iff in Hs, Ht. apply Zodd_ex in Hs, Ht. destruct Hs as [p ->], Ht as [q ->].
  replace (2 * p + 1) with (1 + p * 2) by lia. replace (2 * q + 1) with (1 + q * 2) by lia. rewrite !Z.div_add by lia. change (1 / 2) with 0. lia.
Qed.
Print Assumptions C36_window.
Example C36_window_example : get_current_kernel_pos 7 3 = Ok (2, 5).
Proof. reflexivity. Qed.

(** An even choice is rejected. *)
Theorem C36_even_rejected :
  forall A (W : weight A) cur, Z.odd cur = false -> bignas_kernel A W cur = Raise AssertionError.
Proof.
  intros A W cur H. unfold bignas_kernel, get_same_padding. replace (Z.land cur 1) with (cur mod 2) by (symmetry; apply (Z.land_ones cur 1); lia).
  rewrite Zmod_odd, H. reflexivity.
Qed.
Print Assumptions C36_even_rejected.
Example C36_even_example : bignas_kernel Z {| w_in := 1; w_k := 5; w_rows := [] |} 4 = Raise AssertionError.
Proof. reflexivity. Qed.
Lemma same_padding_ok cur : Z.odd cur = true -> get_same_padding cur = Ok (cur / 2).
Proof.
  intros H. unfold get_same_padding. replace (Z.land cur 1) with (cur mod 2) by (symmetry; apply (Z.land_ones cur 1); lia). rewrite Zmod_odd, H. cbn [Z.eqb Pos.eqb assert_ bind].
  rewrite Z.shiftr_div_pow2 by lia. reflexivity.
Qed.

(** The padding keeps the size of the image (stride 1, dilation 1) ... *)
Definition C36_same_size_claim : Prop :=
  forall cur dil n, Z.odd cur = true -> 0 < cur -> 0 < dil -> 0 < n ->
    exists p, get_same_padding cur = Ok p /\ out_size {| g_stride := 1; g_pad := p; g_dil := dil |} cur n = n.
(** ... but not with another dilation. *)
Theorem C36_same_size_refuted : ~ C36_same_size_claim.
Proof. intro H. destruct (H 3 2 8 eq_refl eq_refl eq_refl eq_refl) as (p & E & F). vm_compute in E. apply Ok_inj in E. subst p. vm_compute in F. discriminate. Qed.
Theorem C36_same_size_partial :
  forall cur dil n, Z.odd cur = true ->
    exists p, get_same_padding cur = Ok p /\ out_size {| g_stride := 1; g_pad := p; g_dil := dil |} cur n = n - (dil - 1) * (cur - 1).
Proof.
  intros cur dil n H. exists (cur / 2). split; [apply same_padding_ok, H|]. unfold out_size. cbn [g_stride g_pad g_dil]. rewrite Z.div_1_r.
  apply Zodd_bool_iff in H. apply Zodd_ex in H. destruct H as [q ->]. replace ((2 * q + 1) / 2) with q by (replace (2 * q + 1) with (1 + q * 2) by lia; rewrite Z.div_add by lia; reflexivity). ring.
Qed.
Print Assumptions C36_same_size_refuted.
Print Assumptions C36_same_size_partial.

(** The kernel with everything outside rows and columns a..b-1 replaced by zero. *)
Definition inside (a b i : Z) : bool := (a <=? i) && (i <? b).
Definition centre_only {A} (zero : A) (a b : Z) (k : kernel A) : kernel A :=
  map (fun pr => map (fun qw => if inside a b (fst pr) && inside a b (fst qw) then snd qw else zero) (enum (snd pr))) (enum k).
Definition square {A} (n : Z) (k : kernel A) : Prop := length k = Z.to_nat n /\ Forall (fun r => length r = Z.to_nat n) k.
Definition square_weight {A} (W : weight A) : Prop := Forall (Forall (square (w_k W))) (w_rows W).

Section C36.
  Variables (A : Type) (zero one : A) (add mul : A -> A -> A).
  Hypothesis L : laws A zero one add mul.
  Notation sum := (sum A zero add).

  Fixpoint enum_from {T} (o : Z) (l : list T) : list (Z * T) := match l with [] => [] | x :: l' => (o, x) :: enum_from (o + 1) l' end.
  Lemma enum_enum_from {T} (l : list T) : enum l = enum_from 0 l.
  Proof.
    unfold enum. change 0 with (Z.of_nat 0). generalize 0%nat. induction l as [|x l IH]; intros n; cbn [length seq map combine enum_from]; [reflexivity|].
    rewrite IH. do 2 f_equal. lia.
  Qed.
  Lemma enum_from_app {T} (l1 l2 : list T) o : enum_from o (l1 ++ l2) = enum_from o l1 ++ enum_from (o + Z.of_nat (length l1)) l2.
  Proof. revert o. induction l1 as [|x l1 IH]; intros o; cbn [app enum_from length]; [rewrite Z.add_0_r; reflexivity|]. rewrite IH. do 3 f_equal. lia. Qed.
  Lemma enum_from_In {T} (l : list T) o i x : In (i, x) (enum_from o l) -> o <= i < o + Z.of_nat (length l).
  Proof. revert o. induction l as [|y l IH]; intros o; cbn [enum_from length]; intros [].
    - injection H. lia.
    - apply IH in H. lia. Qed.
  Lemma enum_from_shift {T B} (F : Z * T -> B) l o a : map F (enum_from (o + a) l) = map (fun ix => F (fst ix + a, snd ix)) (enum_from o l).
  Proof. revert o. induction l as [|x l IH]; intros o; cbn [enum_from map fst snd]; [reflexivity|]. f_equal. rewrite <- IH. do 2 f_equal. lia. Qed.
  Lemma enum_map {T B} (H : Z * T -> B) l : enum (map H (enum l)) = map (fun ix => (fst ix, H ix)) (enum l).
  Proof. rewrite !enum_enum_from. generalize 0. induction l as [|x l IH]; intros o; cbn [enum_from map fst snd]; [reflexivity|]. f_equal. apply IH. Qed.
  Lemma sum_skip l1 l2 : (forall x, In x l1 -> x = zero) -> sum (l1 ++ l2) = sum l2.
  Proof. induction l1 as [|x l1 IH]; intros H; cbn; [reflexivity|]. rewrite (H x (or_introl eq_refl)), (add_0_l _ _ _ _ _ L). apply IH. intros; apply H; right; assumption. Qed.
  Lemma sum_skip_r l1 l2 : (forall x, In x l2 -> x = zero) -> sum (l1 ++ l2) = sum l1.
  Proof.
    intros H. induction l1 as [|x l1 IH]; [|cbn; f_equal; exact IH]. cbn [app]. rewrite <- (app_nil_r l2). rewrite sum_skip by exact H. reflexivity.
  Qed.
  (** A sum whose terms vanish outside a..b-1. *)
  Lemma window_sum {T} (F : Z * T -> A) l a b : 0 <= a -> a <= b -> b <= Z.of_nat (length l) ->
    (forall i x, inside a b i = false -> F (i, x) = zero) ->
    sum (map F (enum l)) = sum (map (fun ix => F (fst ix + a, snd ix)) (enum (slice a b l))).
  Proof.
    intros Ha Hab Hb HF. rewrite !enum_enum_from. rewrite <- (firstn_skipn (Z.to_nat a) l) at 1.
    rewrite enum_from_app, map_app, sum_skip.
    - unfold slice. rewrite <- (firstn_skipn (Z.to_nat (b - a)) (skipn (Z.to_nat a) l)) at 1. rewrite enum_from_app, map_app, sum_skip_r.
      + rewrite firstn_length_le by lia. rewrite Z2Nat.id by lia. rewrite enum_from_shift. reflexivity.
      + intros x I. apply in_map_iff in I. destruct I as ((i & y) & <- & I). apply enum_from_In in I. apply HF.
        rewrite firstn_length_le in I by lia. rewrite firstn_length_le in I by (rewrite skipn_length; lia). unfold inside. lia.
    - intros x I. apply in_map_iff in I. destruct I as ((i & y) & <- & I). apply enum_from_In in I. apply HF. rewrite firstn_length_le in I by lia. unfold inside. lia.
  Qed.
  Lemma window_sum' {T} (F G : Z * T -> A) l a b : 0 <= a -> a <= b -> b <= Z.of_nat (length l) ->
    (forall i x, inside a b i = false -> F (i, x) = zero) ->
    (forall i x, In x l -> 0 <= i < b - a -> G (i, x) = F (i + a, x)) ->
    sum (map F (enum l)) = sum (map G (enum (slice a b l))).
  Proof.
    intros Ha Hab Hb HF HG. rewrite (window_sum F l a b) by assumption. f_equal. apply map_ext_in. intros [i x] I. cbn [fst snd]. symmetry. apply HG.
    - rewrite enum_enum_from in I. assert (In x (slice a b l)).
      { revert I. generalize 0. induction (slice a b l) as [|y r IH]; intros o I; [destruct I|]. destruct I as [E|I]; [injection E as _ <-; left; reflexivity|right; eauto]. }
      unfold slice in H. rewrite <- (firstn_skipn (Z.to_nat a) l). apply in_or_app. right. rewrite <- (firstn_skipn (Z.to_nat (b - a)) (skipn (Z.to_nat a) l)). apply in_or_app. left. exact H.
    - rewrite enum_enum_from in I. apply enum_from_In in I. unfold slice in I. rewrite firstn_length_le in I by (rewrite skipn_length; lia). lia.
  Qed.
  Lemma corr_crop st p n k img a b u v : square n k -> 0 <= n -> 0 <= a -> a <= b -> b <= n ->
    corr A zero add mul {| g_stride := st; g_pad := p; g_dil := 1 |} (crop A a b k) img u v =
    corr A zero add mul {| g_stride := st; g_pad := p + a; g_dil := 1 |} (centre_only zero a b k) img u v.
  Proof.
    intros [Hk Hr] Hn Ha Hab Hb. unfold corr, crop, centre_only. cbn [g_stride g_pad g_dil]. rewrite enum_map, map_map. cbn [fst snd].
    replace (enum (map (slice a b) (slice a b k))) with (map (fun ix => (fst ix, slice a b (snd ix))) (enum (slice a b k))).
    2:{ rewrite !enum_enum_from. generalize 0. induction (slice a b k) as [|x l IH]; intros o; cbn [enum_from map fst snd]; [reflexivity|]. f_equal. apply IH. }
    rewrite map_map. cbn [fst snd]. symmetry. apply window_sum'; [lia|lia|lia| |].
    - intros i r Hi. cbn [fst snd]. rewrite enum_map, map_map. cbn [fst snd]. rewrite Hi. cbn [andb]. apply (sum_zeros A zero one add mul L). intros. apply (mul_0_l _ _ _ _ _ L).
    - intros i r I Hi. cbn [fst snd]. rewrite enum_map, map_map. cbn [fst snd]. rewrite Forall_forall in Hr. symmetry. apply window_sum'; [lia|lia|rewrite (Hr r I); lia| |].
      + intros j x Hj. cbn [fst snd]. rewrite Hj, andb_false_r. apply (mul_0_l _ _ _ _ _ L).
      + intros j x Ij Hj. cbn [fst snd]. assert (inside a b (i + a) = true) as -> by (unfold inside; lia). assert (inside a b (j + a) = true) as -> by (unfold inside; lia). cbn [andb]. do 2 f_equal; lia.
  Qed.
End C36.

(** A smaller kernel choice computes what the full kernel computes when everything outside its
    centred window is zero and the image is padded for the full kernel. *)
Theorem C36_centre :
  forall A zero one add mul, laws A zero one add mul ->
    forall (W : weight A) cur st groups bias h w x W' p,
      square_weight W -> Z.odd (w_k W) = true -> 0 < w_k W -> 0 <= cur -> cur <= w_k W -> bignas_kernel A W cur = Ok (W', p) ->
      exists a b P, get_same_padding (w_k W) = Ok P /\ b - a = cur /\ a - 0 = w_k W - b /\ w_k W' = cur /\
        conv2d A zero add mul {| g_stride := st; g_pad := p; g_dil := 1 |} groups W' bias h w x =
        conv2d A zero add mul {| g_stride := st; g_pad := P; g_dil := 1 |} groups
          {| w_in := w_in W; w_k := w_k W; w_rows := map (map (centre_only zero a b)) (w_rows W) |} bias h w x.
Proof.
  intros A zero one add mul L W cur st groups bias h w x W' p HS Hodd Hpos H0 Hcur E.
  assert (Oc : Z.odd cur = true). { destruct (Z.odd cur) eqn:Eo; [reflexivity|]. rewrite C36_even_rejected in E by exact Eo. discriminate. }
  destruct (C36_window (w_k W) cur) as (a & b & Ew & Ha & Hb & Hba & Hsym); [lia|assumption|assumption|].
  exists a, b, (w_k W / 2). split; [apply same_padding_ok, Hodd|]. split; [exact Hba|]. split; [exact Hsym|].
  assert (KD : w_k W / 2 = cur / 2 + a).
  { clear E Ew. apply Zodd_bool_iff in Hodd, Oc. apply Zodd_ex in Hodd, Oc. destruct Hodd as [n Hn], Oc as [m Hm]. rewrite Hn, Hm in *.
    replace (2 * n + 1) with (1 + n * 2) by lia. replace (2 * m + 1) with (1 + m * 2) by lia. rewrite !Z.div_add by lia. change (1 / 2) with 0. lia. }
  assert (EW : W' = crop_weight A a b W /\ p = cur / 2).
  { unfold bignas_kernel in E. rewrite same_padding_ok in E by exact Oc. cbn [bind] in E. destruct (Z.eqb_spec cur (w_k W)) as [Eq|N].
    - apply Ok_inj in E. injection E as <- <-. split; [|reflexivity]. unfold crop_weight. destruct W as [wi wk rows]. cbn [w_in w_k w_rows] in *. f_equal; [lia|].
      assert (a = 0) by lia. assert (b = wk) by lia. subst a b. rewrite <- (map_id rows) at 1. apply map_ext_in. intros r I. rewrite <- (map_id r) at 1. apply map_ext_in. intros k Ik.
      unfold square_weight in HS. cbn in HS. rewrite Forall_forall in HS. specialize (HS r I). rewrite Forall_forall in HS. destruct (HS k Ik) as [Hk Hr].
      unfold crop, slice. rewrite Z.sub_0_r. cbn [Z.to_nat skipn]. rewrite firstn_all2 by lia. rewrite <- (map_id k) at 1. apply map_ext_in. intros y Iy. rewrite Forall_forall in Hr. rewrite firstn_all2; [reflexivity|]. rewrite (Hr y Iy). lia.
    - rewrite Ew in E. cbn [bind] in E. apply Ok_inj in E. injection E as <- <-. split; reflexivity. }
  destruct EW as [-> ->]. split; [cbn; lia|]. unfold conv2d. cbn [crop_weight w_in w_k w_rows g_pad g_dil]. rewrite !map_length. rewrite KD.
  replace (h + 2 * (cur / 2 + a) <? 1 * (w_k W - 1) + 1) with (h + 2 * (cur / 2) <? 1 * (b - a - 1) + 1) by (destruct (Z.ltb_spec (h + 2 * (cur / 2)) (1 * (b - a - 1) + 1)); symmetry; [apply Z.ltb_lt|apply Z.ltb_ge]; lia).
  replace (w + 2 * (cur / 2 + a) <? 1 * (w_k W - 1) + 1) with (w + 2 * (cur / 2) <? 1 * (b - a - 1) + 1) by (destruct (Z.ltb_spec (w + 2 * (cur / 2)) (1 * (b - a - 1) + 1)); symmetry; [apply Z.ltb_lt|apply Z.ltb_ge]; lia).
  destruct (_ || _); [reflexivity|]. f_equal. f_equal.
  assert (OC : forall r o P, In r (w_rows W) -> out_channel A zero add mul {| g_stride := st; g_pad := cur / 2; g_dil := 1 |} (b - a) h w (map (crop A a b) r, o) P =
    out_channel A zero add mul {| g_stride := st; g_pad := cur / 2 + a; g_dil := 1 |} (w_k W) h w (map (centre_only zero a b) r, o) P).
  { intros r o P I. unfold out_channel. cbn [fst snd].
    assert (SZ : forall n, out_size {| g_stride := st; g_pad := cur / 2; g_dil := 1 |} (b - a) n = out_size {| g_stride := st; g_pad := cur / 2 + a; g_dil := 1 |} (w_k W) n).
    { intros n. unfold out_size. cbn [g_stride g_pad g_dil]. do 2 f_equal. lia. }
    rewrite !SZ. apply map_ext. intros u. apply map_ext. intros v. f_equal. f_equal. unfold square_weight in HS. rewrite Forall_forall in HS. specialize (HS r I). clear - L HS Ha Hb Hba Hcur H0 Hpos.
    revert P. induction HS as [|k r Hk HS IH]; intros [|P Ps]; cbn [map combine fst snd]; try reflexivity. f_equal; [|apply IH].
    apply (corr_crop A zero one add mul L st (cur / 2) (w_k W)); try assumption; lia. }
  assert (WB : forall f : list (kernel A) -> list (kernel A), with_bias A bias (map f (w_rows W)) = map (fun rb => (f (fst rb), snd rb)) (with_bias A bias (w_rows W))).
  { intros f. unfold with_bias. destruct bias as [bs|]; [|rewrite !map_map; reflexivity]. generalize (map Some bs). generalize (w_rows W). clear. intros l. induction l as [|y l IH]; intros [|o os]; cbn; try reflexivity. f_equal. apply IH. }
  rewrite !WB. rewrite !chunks_map.
  assert (IW : forall rb, In rb (with_bias A bias (w_rows W)) -> In (fst rb) (w_rows W)).
  { intros [r o]. unfold with_bias. destruct bias as [bs|]; [apply in_combine_l|]. intros I. apply in_map_iff in I. destruct I as (y & E' & I). injection E' as -> _. exact I. }
  generalize (length (w_rows W) / groups)%nat (w_in W). revert IW. clear - OC. generalize (with_bias A bias (w_rows W)). intros rb IW c n. revert rb IW x.
  induction groups as [|g IH]; intros rb IW x; cbn [chunks map combine]; [reflexivity|]. f_equal.
  - cbn [fst snd]. rewrite !map_map. apply map_ext_in. intros [r o] I. cbn [fst snd]. apply OC. apply (IW (r, o)). rewrite <- (firstn_skipn c rb). apply in_or_app. left. exact I.
  - apply IH. intros y I. apply IW. rewrite <- (firstn_skipn c rb). apply in_or_app. right. exact I.
Qed.
Print Assumptions C36_centre.
Example C36_centre_example :
  let W := {| w_in := 1; w_k := 3; w_rows := [[[[1; 2; 3]; [4; 5; 6]; [7; 8; 9]]]] |} in
  square_weight W /\ bignas_kernel Z W 1 = Ok ({| w_in := 1; w_k := 1; w_rows := [[[[5]]]] |}, 0) /\
  conv2d Z 0 Z.add Z.mul {| g_stride := 2; g_pad := 1; g_dil := 1 |} 1 {| w_in := 1; w_k := 3; w_rows := [[centre_only 0 1 2 [[1; 2; 3]; [4; 5; 6]; [7; 8; 9]]]] |} None 3 3 [[[1; 2; 3]; [4; 5; 6]; [7; 8; 9]]] =
  Ok [[[5; 15]; [35; 45]]].
Proof. cbv zeta. split; [repeat constructor|]. split; vm_compute; reflexivity. Qed.

(** The identity matrix. *)
Definition eye {A} (zero one : A) (n : nat) : list (list A) := map (fun i => map (fun j => if (i =? j)%nat then one else zero) (seq 0 n)) (seq 0 n).
Inductive descending : list Z -> Prop :=
  | desc_one : forall k, 0 < k -> Z.odd k = true -> descending [k]
  | desc_cons : forall k k' r, k' < k -> Z.odd k = true -> descending (k' :: r) -> descending (k :: k' :: r).
Lemma desc_pos ks k : descending ks -> In k ks -> 0 < k /\ Z.odd k = true.
Proof.
  intros H. revert k. induction H as [k0 H0 Ho|k0 k' r Hlt Ho H IH]; intros k [E|I]; subst; [auto|destruct I| |auto].
  destruct (IH k' (or_introl eq_refl)). split; [lia|assumption].
Qed.
Lemma desc_head k r x : descending (k :: r) -> In x r -> x < k.
Proof.
  revert k. induction r as [|y r IH]; intros k H I; [destruct I|]. inversion H; subst. destruct I as [->|I]; [assumption|]. pose proof (IH y H5 I). lia.
Qed.
Section OFA.
  Variables (A : Type) (zero one : A) (add mul : A -> A -> A).
  Hypothesis L : laws A zero one add mul.
  Lemma eye_row i o flat : (i < o + length flat)%nat ->
    sum A zero add (map (fun ab => mul (fst ab) (snd ab)) (combine (map (fun j => if (i =? j)%nat then one else zero) (seq o (length flat))) flat)) =
    if (i <? o)%nat then zero else nth (i - o) flat zero.
  Proof.
    revert o. induction flat as [|x flat IH]; intros o H; cbn [length seq map combine].
    - cbn [length] in H. destruct (Nat.ltb_spec i o); [reflexivity|lia].
    - unfold sum. cbn [fold_right fst snd]. specialize (IH (S o)). unfold sum in IH. rewrite IH by (cbn [length] in H; lia).
      destruct (Nat.eqb_spec i o) as [->|N].
      + rewrite (mul_1_l _ _ _ _ _ L). destruct (Nat.ltb_spec o (S o)); [|lia]. rewrite (add_0_r _ _ _ _ _ L). destruct (Nat.ltb_spec o o); [lia|]. rewrite Nat.sub_diag. reflexivity.
      + rewrite (mul_0_l _ _ _ _ _ L), (add_0_l _ _ _ _ _ L). destruct (Nat.ltb_spec i (S o)), (Nat.ltb_spec i o); try lia; [reflexivity|]. replace (i - o)%nat with (S (i - S o))%nat by lia. reflexivity.
  Qed.
  Lemma map_nth_seq (flat : list A) : map (fun i => nth i flat zero) (seq 0 (length flat)) = flat.
  Proof.
    apply (nth_ext _ _ zero zero); [rewrite map_length, seq_length; reflexivity|]. intros n Hn. rewrite map_length, seq_length in Hn.
    rewrite (nth_indep _ zero (nth 0 flat zero)) by (rewrite map_length, seq_length; exact Hn). rewrite (map_nth (fun i => nth i flat zero) _ 0%nat). rewrite seq_nth by exact Hn. reflexivity.
  Qed.
  Lemma apply_eye t (k : kernel A) : length k = t -> Forall (fun r => length r = t) k -> apply_matrix A zero add mul (eye zero one (t * t)) t k = k.
  Proof.
    intros Hk Hr. unfold apply_matrix, eye. assert (LF : length (concat k) = (t * t)%nat) by (rewrite (concat_length_const t); [rewrite Hk; reflexivity|exact Hr]).
    rewrite map_map. rewrite <- LF. rewrite (map_ext_in _ (fun i => nth i (concat k) zero)).
    - rewrite map_nth_seq. rewrite <- Hk at 1. apply chunks_concat. exact Hr.
    - intros i I. apply in_seq in I. rewrite eye_row by lia. rewrite Nat.sub_0_r. reflexivity.
  Qed.
  Lemma skipn_skipn {T} (l : list T) m n : skipn m (skipn n l) = skipn (m + n) l.
  Proof. revert l. induction n as [|n IH]; intros l; [rewrite Nat.add_0_r; reflexivity|]. rewrite Nat.add_succ_r. destruct l; [destruct m; reflexivity|]. cbn [skipn]. apply IH. Qed.
  Lemma slice_slice {T} (l : list T) a b c d : 0 <= a -> 0 <= c -> c <= d -> d <= b - a -> slice c d (slice a b l) = slice (a + c) (a + d) l.
  Proof.
    intros. unfold slice. rewrite skipn_firstn_comm, firstn_firstn, skipn_skipn. f_equal; [lia|]. f_equal. lia.
  Qed.
  Lemma map_slice {T U} (f : T -> U) (l : list T) a b : map f (slice a b l) = slice a b (map f l).
  Proof. unfold slice. rewrite <- firstn_map, <- skipn_map. reflexivity. Qed.
  Lemma crop_crop (k : kernel A) a b c d : 0 <= a -> 0 <= c -> c <= d -> d <= b - a -> crop A c d (crop A a b k) = crop A (a + c) (a + d) k.
  Proof.
    intros. unfold crop. rewrite <- (map_slice (slice a b)), map_map, slice_slice by assumption. apply map_ext. intros r. apply slice_slice; assumption.
  Qed.
  Lemma slice_In {T} (x : T) a b l : In x (slice a b l) -> In x l.
  Proof.
    unfold slice. intros H. rewrite <- (firstn_skipn (Z.to_nat a) l). apply in_or_app. right. rewrite <- (firstn_skipn (Z.to_nat (b - a)) (skipn (Z.to_nat a) l)). apply in_or_app. left. exact H.
  Qed.
  Lemma crop_square n (k : kernel A) a b : square n k -> 0 <= n -> 0 <= a -> a <= b -> b <= n -> square (b - a) (crop A a b k).
  Proof.
    intros [Hk Hr] Hn Ha Hab Hb. unfold crop. split.
    - rewrite map_length. unfold slice. rewrite firstn_length_le; [reflexivity|]. rewrite skipn_length. lia.
    - apply Forall_map. apply Forall_forall. intros r I. apply slice_In in I. rewrite Forall_forall in Hr. specialize (Hr r I). unfold slice. rewrite firstn_length_le; [reflexivity|]. rewrite skipn_length. lia.
  Qed.
  Lemma crop_full n (k : kernel A) : square n k -> 0 <= n -> crop A 0 n k = k.
  Proof.
    intros [Hk Hr] Hn. unfold crop, slice. rewrite Z.sub_0_r. cbn [Z.to_nat skipn]. rewrite firstn_all2 by lia. rewrite <- (map_id k) at 2. apply map_ext_in.
    intros y Iy. rewrite Forall_forall in Hr. rewrite firstn_all2; [reflexivity|]. rewrite (Hr y Iy). lia.
  Qed.
  Lemma map2_id {T} (P : T -> Prop) (f : T -> T) (rows : list (list T)) : Forall (Forall P) rows -> (forall x, P x -> f x = x) -> map (map f) rows = rows.
  Proof.
    intros F H. induction F as [|r rows Hr F IH]; cbn; [reflexivity|]. f_equal; [|exact IH]. induction Hr as [|x r Hx Hr IH']; cbn; [reflexivity|]. f_equal; auto.
  Qed.
  Definition id_trans : Z -> Z -> list (list A) := fun _ t => eye zero one (Z.to_nat t * Z.to_nat t).
  Lemma ofa_step trans src tgt r cur W : ofa_steps A zero add mul trans (src :: tgt :: r) cur W =
    if src <=? cur then Ok W
    else do (s, e) <- get_current_kernel_pos src tgt;
         ofa_steps A zero add mul trans (tgt :: r) cur {| w_in := w_in W; w_k := tgt; w_rows := map (map (apply_matrix A zero add mul (trans src tgt) (Z.to_nat tgt))) (w_rows (crop_weight A s e W)) |}.
  Proof. reflexivity. Qed.
  Lemma ofa_steps_eye ks : descending ks -> forall W cur, hd_error ks = Some (w_k W) -> In cur ks -> square_weight W ->
    exists a b, get_current_kernel_pos (w_k W) cur = Ok (a, b) /\ ofa_steps A zero add mul id_trans ks cur W = Ok (crop_weight A a b W).
  Proof.
    assert (FULL : forall W : weight A, 0 < w_k W -> Z.odd (w_k W) = true -> square_weight W ->
      exists a b, get_current_kernel_pos (w_k W) (w_k W) = Ok (a, b) /\ Ok W = Ok (crop_weight A a b W)).
    { intros W Hp Ho HS. destruct (C36_window (w_k W) (w_k W)) as (a & b & E & ? & ? & ? & ?); [lia|assumption|assumption|]. exists a, b. split; [exact E|]. f_equal.
      assert (a = 0) by lia. assert (b = w_k W) by lia. subst a b. destruct W as [wi wk rows]. cbn in *. unfold crop_weight. cbn. rewrite Z.sub_0_r. f_equal. symmetry.
      apply (map2_id (square wk)); [exact HS|]. intros. apply crop_full; [assumption|lia]. }
    induction 1 as [k Hp Ho|k k' r Hlt Ho D IH]; intros W cur Hh Ic HS; cbn [hd_error] in Hh; injection Hh as ->.
    - destruct Ic as [<-|[]]. cbn [ofa_steps]. apply FULL; assumption.
    - destruct (desc_pos _ k' D (or_introl eq_refl)) as [Hp' Ho']. rewrite ofa_step.
      destruct Ic as [<-|Ic].
      + rewrite (proj2 (Z.leb_le _ _)) by lia. apply FULL; [lia|assumption|assumption].
      + destruct (desc_pos _ cur D Ic) as [Hpc Hoc].
        assert (Hcur : cur <= k') by (destruct Ic as [<-|I]; [lia|pose proof (desc_head _ _ _ D I); lia]).
        rewrite (proj2 (Z.leb_gt _ _)) by lia.
        destruct (C36_window (w_k W) k') as (a1 & b1 & E1 & A1 & B1 & S1 & C1); [lia|assumption|assumption|].
        destruct (C36_window k' cur) as (a2 & b2 & E2 & A2 & B2 & S2 & C2); [lia|assumption|assumption|].
        destruct (C36_window (w_k W) cur) as (a & b & E & A0 & B0 & S0 & C0); [lia|assumption|assumption|].
        exists a, b. split; [exact E|]. rewrite E1. cbn [bind].
        assert (EW : {| w_in := w_in W; w_k := k'; w_rows := map (map (apply_matrix A zero add mul (id_trans (w_k W) k') (Z.to_nat k'))) (w_rows (crop_weight A a1 b1 W)) |} = crop_weight A a1 b1 W).
        { unfold crop_weight. cbn [w_rows w_in]. f_equal; [lia|]. apply (map2_id (square k')).
          - apply Forall_map. eapply Forall_impl; [|exact HS]. intros row HR. apply Forall_map. eapply Forall_impl; [|exact HR]. intros x Hx. rewrite <- S1. eapply crop_square; [exact Hx|lia|lia|lia|lia].
          - intros x [X1 X2]. apply apply_eye; assumption. }
        rewrite EW. destruct (IH (crop_weight A a1 b1 W) cur) as (a' & b' & E' & F).
        * cbn. f_equal. lia.
        * exact Ic.
        * unfold square_weight. cbn [w_rows w_k crop_weight]. apply Forall_map. eapply Forall_impl; [|exact HS]. intros row HR. apply Forall_map. eapply Forall_impl; [|exact HR]. intros x Hx. eapply crop_square; [exact Hx|lia|lia|lia|lia].
        * rewrite F. f_equal. cbn [w_k crop_weight] in E'. rewrite S1, E2 in E'. apply Ok_inj in E'. injection E' as <- <-. unfold crop_weight. cbn [w_in w_rows]. f_equal; [lia|].
          rewrite map_map. apply map_ext. intros row. rewrite map_map. apply map_ext. intros x. rewrite crop_crop by lia. f_equal; lia.
  Qed.
End OFA.

(** The progressive transformation with identity matrices is the centre crop. *)
Theorem C36_ofa_identity :
  forall A zero one add mul, laws A zero one add mul ->
    forall ks (W : weight A) cur, descending ks -> hd_error ks = Some (w_k W) -> In cur ks -> square_weight W ->
      ofa_kernel A zero add mul (id_trans A zero one) ks W cur = bignas_kernel A W cur.
Proof.
  intros A zero one add mul L ks W cur D Hh Ic HS. unfold ofa_kernel, bignas_kernel. destruct (get_same_padding cur) as [p|]; [|reflexivity]. cbn [bind].
  destruct (cur =? w_k W); [reflexivity|]. destruct (ofa_steps_eye A zero one add mul L ks D W cur Hh Ic HS) as (a & b & E & F). rewrite E, F. reflexivity.
Qed.
Print Assumptions C36_ofa_identity.
Example C36_ofa_example :
  let W := {| w_in := 1; w_k := 5; w_rows := [[map (fun i => map (fun j => 10 * i + j) [0; 1; 2; 3; 4]) [0; 1; 2; 3; 4]]] |} in
  descending [5; 3; 1] /\ square_weight W /\ ofa_kernel Z 0 Z.add Z.mul (id_trans Z 0 1) [5; 3; 1] W 1 = Ok ({| w_in := 1; w_k := 1; w_rows := [[[[22]]]] |}, 0).
Proof. cbv zeta. split; [repeat (constructor; try lia; try reflexivity)|]. split; [repeat constructor|vm_compute; reflexivity]. Qed.

(** * C37: static export *)
Definition C37_claim : Prop :=
  forall A (c : dconv A) ms,
    (forall k f, In (k, f) ms -> f = true) \/ (exists e, to_static A c ms = Raise e).
(** The exported convolution computes what the dynamic one computes. *)
Theorem C37_conv_equal :
  forall A zero add mul (c : dconv A) ms s h w x,
    to_static A c ms = Ok s -> length x = count_true (in_mask c) -> static_forward A zero add mul s h w x = dynamic_forward A zero add mul c h w x.
Proof.
  intros A zero add mul c ms s h w x E Hx. unfold to_static in E. destruct (check_if_mutables_fixed ms); [|discriminate]. cbn [bind] in E.
  destruct (dynamic_params A c (d_weight c)) as [[W b]|] eqn:EP; [|discriminate]. cbn [bind] in E. unfold dynamic_forward, static_forward. rewrite EP. cbn [bind].
  match type of E with (do _ <- conv2d_ctor ?i ?o ?g; _) = _ => destruct (conv2d_ctor i o g); [|discriminate]; cbn [bind] in E; apply Ok_inj in E; subst s; cbn [s_geom s_groups s_weight s_bias] end.
  f_equal. unfold in_mask in Hx. destruct (d_in_mut c); [rewrite Hx; reflexivity|]. rewrite count_repeat in Hx. destruct (depthwise A c) eqn:ED; [|reflexivity].
  unfold depthwise in ED. apply andb_prop in ED. destruct ED as [ED _]. apply Nat.eqb_eq in ED. congruence.
Qed.
Theorem C37_linear_equal :
  forall A zero add mul (l : dlinear A) ms s x,
    linear_to_static A l ms = Ok s -> static_linear A zero add mul s x = dynamic_linear A zero add mul l x.
Proof.
  intros A zero add mul l ms s x E. unfold linear_to_static in E. destruct (check_if_mutables_fixed ms); [|discriminate]. cbn [bind] in E.
  unfold dynamic_linear. destruct (linear_params A l) as [[nW b]|]; [|discriminate]. cbn [bind] in E. apply Ok_inj in E. subst s. reflexivity.
Qed.
(** An evaluable convolution whose mutables are fixed can be exported; the exported layer has
    the active numbers of channels. *)
Theorem C37_conv_exports :
  forall A zero add mul (c : dconv A) ms h w x y,
    dynamic_forward A zero add mul c h w x = Ok y -> length x = count_true (in_mask c) -> (forall k f, In (k, f) ms -> f = true) ->
    exists s, to_static A c ms = Ok s /\ static_forward A zero add mul s h w x = Ok y /\ s_in s = length x /\ s_out s = length y.
Proof.
  intros A zero add mul c ms h w x y E Hx HF.
  assert (CF : check_if_mutables_fixed ms = Ok tt).
  { unfold check_if_mutables_fixed. assert (K : forallb (fun kf => match fst kf with Container | Derived => true | Other => snd kf end) ms = true).
    { apply forallb_forall. intros [k f] I. cbn. rewrite (HF k f I). destruct k; reflexivity. } rewrite K. reflexivity. }
  assert (SE : exists s, to_static A c ms = Ok s /\ s_in s = length x /\ s_out s = length y).
  { unfold to_static. rewrite CF. cbn [bind]. unfold dynamic_forward in E. destruct (dynamic_params A c (d_weight c)) as [[W b]|]; [|discriminate]. cbn [bind] in *.
    match goal with |- context [conv2d_ctor (w_in W * ?g)] => assert (G : g = if depthwise A c then length x else d_groups c) end.
    { unfold in_mask in Hx. destruct (d_in_mut c); [rewrite Hx; reflexivity|]. rewrite count_repeat in Hx. destruct (depthwise A c) eqn:ED; [|reflexivity].
      unfold depthwise in ED. apply andb_prop in ED. destruct ED as [ED _]. apply Nat.eqb_eq in ED. congruence. }
    rewrite G. clear G. revert E. generalize (if depthwise A c then length x else d_groups c). intros g E. unfold conv2d in E.
    destruct (Nat.eqb_spec g 0); [discriminate|]. destruct (Nat.ltb_spec (length (w_rows W)) g); [discriminate|]. destruct (Nat.eqb_spec (length (w_rows W) mod g) 0) as [Hm|]; [|discriminate].
    destruct (Nat.eqb_spec (length x) (w_in W * g)) as [Hl|]; [|discriminate]. cbn [negb orb] in E.
    destruct (match b with Some b0 => negb (length b0 =? length (w_rows W))%nat | None => false end) eqn:Eb; [discriminate|].
    destruct (_ || _); [discriminate|]. apply Ok_inj in E.
    unfold conv2d_ctor. destruct (Nat.eqb_spec g 0); [contradiction|]. rewrite Nat.mod_mul by assumption. rewrite Hm. cbn [negb Nat.eqb orb bind]. eexists. split; [reflexivity|]. cbn [s_in s_out]. split; [auto|].
    subst y. assert (LW : length (with_bias A b (w_rows W)) = length (w_rows W)).
    { unfold with_bias. destruct b as [b0|]; [|apply map_length]. apply negb_false_iff, Nat.eqb_eq in Eb. rewrite combine_length, map_length. lia. }
    assert (Q : length (with_bias A b (w_rows W)) = (g * (length (w_rows W) / g))%nat) by (rewrite LW; apply Nat.div_exact; assumption).
    destruct (chunks_spec g _ _ Q) as [EC _]. rewrite <- LW at 1. rewrite <- EC at 1.
    assert (C1 := chunks_length g (length (w_rows W) / g) (with_bias A b (w_rows W))). assert (C2 := chunks_length g (w_in W) x). assert (C3 := eq_trans C1 (eq_sym C2)). clear - C3.
    revert C3. generalize (chunks g (w_in W) x). generalize (chunks g (length (w_rows W) / g) (with_bias A b (w_rows W))).
    intros l1. induction l1 as [|r l1 IH]; intros [|p l2] C1; try discriminate C1; [reflexivity|]. cbn [length] in C1. cbn [combine map concat fst snd]. rewrite !app_length, map_length. f_equal. apply IH. lia. }
  destruct SE as (s & S1 & S2). exists s. split; [exact S1|]. split; [|exact S2]. rewrite (C37_conv_equal A zero add mul c ms s h w x S1 Hx). exact E.
Qed.
Print Assumptions C37_conv_equal.
Print Assumptions C37_linear_equal.
Print Assumptions C37_conv_exports.

(** Export with an unfixed mutable: refused unless the mutable is a channel container or
    derived, in which case the layer is exported. *)
Theorem C37_refusal_refuted : ~ C37_claim.
Proof.
  intro H. destruct (H Z (dw2 [true; false] [true; false]) [(Derived, false)]) as [K|[e K]].
  - specialize (K Derived false (or_introl eq_refl)). discriminate.
  - vm_compute in K. discriminate.
Qed.
Theorem C37_refusal_partial :
  forall A (c : dconv A) (l : dlinear A) ms, In (Other, false) ms -> to_static A c ms = Raise RuntimeError /\ linear_to_static A l ms = Raise RuntimeError.
Proof.
  intros A c l ms I. unfold to_static, linear_to_static, check_if_mutables_fixed.
  assert (K : forallb (fun kf => match fst kf with Container | Derived => true | Other => snd kf end) ms = false).
  { destruct (forallb _ ms) eqn:E; [|reflexivity]. rewrite forallb_forall in E. specialize (E _ I). discriminate. }
  rewrite K. split; reflexivity.
Qed.
Print Assumptions C37_refusal_refuted.
Print Assumptions C37_refusal_partial.
Example C37_example :
  exists s, to_static Z (gc (Some [true; false; false; true]) (Some [false; true; true; false])) [(Container, true); (Other, true)] = Ok s /\ s_in s = 2%nat /\ s_out s = 2%nat /\ s_groups s = 2%nat /\
    static_forward Z 0 Z.add Z.mul s 2 2 [[[1; 2]; [3; 4]]; [[5; 6]; [7; 8]]] = Ok [[[21; 40]; [26; 40]]; [[35; 156]; [51; 86]]].
Proof. eexists. split; [reflexivity|]. do 3 (split; [reflexivity|]). vm_compute. reflexivity. Qed.
Example C37_linear_example :
  exists s, linear_to_static Z lin_example [(Derived, false)] = Ok s /\ static_linear Z 0 Z.add Z.mul s [1; 10] = Ok [264; 397].
Proof. eexists. split; reflexivity. Qed.
