(** Properties of DynamicConv2dAdaptivePadding. *)
From Coq Require Import Reals Psatz.
From Flocq Require Import Core Relative BinarySingleNaN.
From Verif Require Import Prelude PyNum Float_Lemmas AdaptivePad_Model.
From Verif Require Onnx_Model Tools_Model.
Open Scope Z_scope.

(** ** [math.ceil] of a division of floats *)
Lemma py_ceil_ok x : is_finite_SF x = true -> py_ceil x = Ok (Zceil (fr x)).
Proof.
  destruct x as [s|s| |s m e]; cbn [is_finite_SF]; intros F; try discriminate F; clear F.
  - cbn. rewrite Zceil_IZR. reflexivity.
  - unfold py_ceil, fr, SF2R. f_equal. destruct e as [|e|e].
    + unfold F2R. cbn [Fnum Fexp bpow]. rewrite Rmult_1_r, Zceil_IZR. destruct s; reflexivity.
    + unfold F2R. cbn [Fnum Fexp bpow]. rewrite <- mult_IZR, Zceil_IZR. change (Z.pow_pos radix2 e) with (2 ^ Zpos e). destruct s; reflexivity.
    + unfold F2R. cbn [Fnum Fexp bpow]. change (Z.pow_pos radix2 e) with (2 ^ Zpos e).
      assert (P : 0 < 2 ^ Zpos e) by (apply Z.pow_pos_nonneg; lia).
      unfold Zceil. f_equal.
      replace (- (IZR (cond_Zopp s (Zpos m)) * / IZR (2 ^ Zpos e)))%R with (IZR (if s then Zpos m else Zneg m) / IZR (2 ^ Zpos e))%R.
      * symmetry. apply Zfloor_div. lia.
      * unfold Rdiv. rewrite Ropp_mult_distr_l, <- opp_IZR. destruct s; reflexivity.
Qed.

(** The least number of strides that covers [n]. *)
Definition covers (n s m : Z) : Prop := n <= m * s /\ forall m', n <= m' * s -> m <= m'.

Lemma covers_unique n s m m' : covers n s m -> covers n s m' -> m = m'.
Proof. intros [A1 A2] [B1 B2]. specialize (A2 _ B1). specialize (B2 _ A1). lia. Qed.

Lemma covers_iff n s m : 0 < s -> (covers n s m <-> (m - 1) * s < n <= m * s).
Proof.
  intros S0. split.
  - intros [A B]. split; [|exact A]. destruct (Z.lt_ge_cases ((m - 1) * s) n) as [L|G]; [exact L|]. specialize (B _ G). lia.
  - intros [A B]. split; [exact B|]. intros m' H. nia.
Qed.

Lemma ceil_div_ok n s : 0 <= n < 2 ^ 53 -> 0 < s <= 2 ^ 53 -> exists m, ceil_div n s = Ok m /\ covers n s m.
Proof.
  intros Hn Hs. unfold ceil_div. replace (s =? 0) with false by lia.
  assert (Sn : small n) by (unfold small; lia). assert (Ss : small s) by (unfold small; lia).
  destruct (f64_int n Sn) as [Fn En]. destruct (f64_int s Ss) as [Fs Es].
  assert (Ps : (0 < IZR s)%R) by (apply IZR_lt; lia). assert (Pn : (0 <= IZR n)%R) by (apply IZR_le; lia).
  assert (S1 : (1 <= IZR s)%R) by (apply IZR_le; lia).
  set (q := (IZR n / IZR s)%R). assert (Eq : (q * IZR s = IZR n)%R) by (unfold q; field; lra).
  assert (Q0 : (0 <= q)%R) by (unfold q; apply Rmult_le_pos; [exact Pn|apply Rlt_le, Rinv_0_lt_compat; exact Ps]).
  assert (Qn : (q <= IZR n)%R) by nra.
  assert (M : (Rabs (rnd q) < maxr)%R) by (apply (rnd_max q n Sn); rewrite Rabs_pos_eq by exact Q0; exact Qn).
  destruct (f64div_ok _ _ Fn Fs) as [Fd Ed]; [rewrite Es; lra|rewrite En, Es; exact M|]. rewrite En, Es in Ed. fold q in Ed.
  rewrite py_ceil_ok by apply Fd. rewrite Ed. exists (Zceil (rnd q)). split; [reflexivity|].
  (* the exact quotient lies in (m - 1, m] *)
  set (m := - (- n / s)). assert (Hm : (m - 1) * s < n <= m * s).
  { unfold m. pose proof (Z.div_mod (- n) s ltac:(lia)) as D. pose proof (Z.mod_pos_bound (- n) s ltac:(lia)) as B. nia. }
  apply covers_iff; [lia|]. enough (C : Zceil (rnd q) = m) by (rewrite C; exact Hm).
  assert (M0 : 0 <= m) by nia. assert (Mn : m <= n) by nia.
  apply Zceil_imp. destruct Hm as [Z1 H2]. pose proof (IZR_lt _ _ Z1) as H1. apply IZR_le in H2. rewrite mult_IZR in H1, H2.
  assert (Up : (q <= IZR m)%R) by nra. assert (Low : (IZR (m - 1) < q)%R) by nra.
  assert (Sm : small m) by (unfold small; lia).
  split.
  - (* rounding does not reach the integer below *)
    destruct (Z.eq_dec m 0) as [Z0|Nz].
    + assert (small (m - 1)) by (unfold small; lia). subst m.
      assert (R0 : (0 <= rnd q)%R) by (rewrite <- (rnd_int 0) by (unfold small; lia); apply rnd_le; exact Q0). rewrite Z0. apply Rlt_le_trans with 0%R; [apply IZR_lt; lia|exact R0].
    + assert (Qp : (1 <= q * IZR s)%R) by (rewrite Eq; apply IZR_le; nia).
      assert (Q1 : (bpow radix2 (-1022) <= q)%R).
      { assert (B : (bpow radix2 (-1022) <= bpow radix2 (-53))%R) by (apply bpow_le; lia).
        assert (I : (bpow radix2 (-53) * IZR (2 ^ 53) = 1)%R). { change (IZR (2 ^ 53)) with (bpow radix2 53). rewrite <- bpow_plus. reflexivity. }
        assert (L : (IZR s <= IZR (2 ^ 53))%R) by (apply IZR_le; lia). pose proof (bpow_gt_0 radix2 (-53)) as G. nra. }
      pose proof (relative_error_N_FLT radix2 (-1074) 53 hp (fun x => negb (Z.even x)) q) as RE.
      assert (RE' : (Rabs (rnd q - q) <= / 2 * bpow radix2 (-53 + 1) * Rabs q)%R).
      { apply RE. rewrite Rabs_pos_eq by exact Q0. exact Q1. }
      assert (H3 : (/ 2 * bpow radix2 (-53 + 1) = bpow radix2 (-53))%R). { change (-53 + 1) with (-52). rewrite <- (Rmult_1_r (bpow radix2 (-53))). change (-52) with (1 + -53). rewrite bpow_plus. change (bpow radix2 1) with 2%R. field. }
      rewrite H3, (Rabs_pos_eq q Q0) in RE'. apply Rabs_le_inv in RE' as [RE1 _].
      (* the gap to the integer below is at least 1 / s *)
      assert (Gap : (1 <= (q - IZR (m - 1)) * IZR s)%R).
      { replace ((q - IZR (m - 1)) * IZR s)%R with (IZR (n - (m - 1) * s)).
        - apply IZR_le. lia.
        - rewrite minus_IZR, mult_IZR. rewrite Rmult_minus_distr_r, Eq. reflexivity. }
      assert (Err : (bpow radix2 (-53) * q * IZR s <= 1)%R).
      { rewrite Rmult_assoc, Eq. assert (I : (bpow radix2 (-53) * IZR (2 ^ 53) = 1)%R). { change (IZR (2 ^ 53)) with (bpow radix2 53). rewrite <- bpow_plus. reflexivity. }
        rewrite <- I. apply Rmult_le_compat_l; [apply bpow_ge_0|apply IZR_le; lia]. }
      assert (Le : (IZR (m - 1) <= rnd q)%R) by (rewrite <- (rnd_int (m - 1)) by (unfold small; lia); apply rnd_le; lra).
      destruct Le as [Lt|Eqm]; [exact Lt|exfalso].
      assert (E1 : ((q - IZR (m - 1)) * IZR s <= bpow radix2 (-53) * q * IZR s)%R) by (apply Rmult_le_compat_r; lra).
      assert (L : (IZR n < IZR (2 ^ 53))%R) by (apply IZR_lt; lia).
      assert (I : (bpow radix2 (-53) * IZR (2 ^ 53) = 1)%R). { change (IZR (2 ^ 53)) with (bpow radix2 53). rewrite <- bpow_plus. reflexivity. }
      rewrite Rmult_assoc, Eq in E1. pose proof (bpow_gt_0 radix2 (-53)) as G. nra.
  - rewrite <- (rnd_int m Sm). apply rnd_le. exact Up.
Qed.

(** ** The padding *)
Lemma pad_total_ok n k s d : 0 <= n < 2 ^ 53 -> 0 < s <= 2 ^ 53 ->
  exists m, covers n s m /\ pad_total n k s d = Ok (Z.max ((m - 1) * s + (k - 1) * d + 1 - n) 0).
Proof.
  intros Hn Hs. destruct (ceil_div_ok n s Hn Hs) as (m & E & C). exists m. split; [exact C|]. unfold pad_total. rewrite E. reflexivity.
Qed.

(** Output length of a convolution without padding of its own. *)
Lemma conv_len_same n k s d m : 1 <= n -> 1 <= k -> 0 < s -> 1 <= d -> covers n s m ->
  conv_len (n + Z.max ((m - 1) * s + (k - 1) * d + 1 - n) 0) k s d 0 = Ok m.
Proof.
  intros Hn Hk Hs Hd C. apply covers_iff in C as [C1 C2]; [|exact Hs]. assert (M : 1 <= m) by nia.
  unfold conv_len. set (p := Z.max ((m - 1) * s + (k - 1) * d + 1 - n) 0).
  assert (P1 : (m - 1) * s <= n + p - d * (k - 1) - 1) by (unfold p; nia).
  assert (P2 : n + p - d * (k - 1) - 1 < m * s) by (unfold p; nia).
  destruct (Z.ltb_spec (n + p + 2 * 0) (d * (k - 1) + 1)) as [L|G]; [exfalso; nia|]. f_equal.
  replace (n + p + 2 * 0 - d * (k - 1) - 1) with (n + p - d * (k - 1) - 1) by lia.
  rewrite <- (Z.div_unique_pos (n + p - d * (k - 1) - 1) s (m - 1) (n + p - d * (k - 1) - 1 - (m - 1) * s)); lia.
Qed.

(** A convolution whose attributes are meaningful. *)
Definition sensible (c : acfg) : Prop :=
  1 <= fst (a_kernel c) /\ 1 <= snd (a_kernel c) /\ 0 < fst (a_stride c) <= 2 ^ 53 /\ 0 < snd (a_stride c) <= 2 ^ 53 /\
  1 <= fst (a_dil c) /\ 1 <= snd (a_dil c).
(** A picture with at least one pixel. *)
Definition picture {T} (h w : Z) (img : list (list T)) : Prop :=
  1 <= h < 2 ^ 53 /\ 1 <= w < 2 ^ 53 /\ Z.of_nat (length img) = h /\ Forall (fun row => Z.of_nat (length row) = w) img.

Lemma picture_hd {T} h w (img : list (list T)) : picture h w img -> Z.of_nat (length (hd [] img)) = w.
Proof. intros (H & _ & L & F). destruct F as [|r rs Hr _]; [cbn in L; lia|exact Hr]. Qed.

Lemma pads_ok c h w : 0 <= h < 2 ^ 53 -> 0 <= w < 2 ^ 53 -> sensible c ->
  exists mh mw, covers h (fst (a_stride c)) mh /\ covers w (snd (a_stride c)) mw /\
    let ph := Z.max ((mh - 1) * fst (a_stride c) + (fst (a_kernel c) - 1) * fst (a_dil c) + 1 - h) 0 in
    let pw := Z.max ((mw - 1) * snd (a_stride c) + (snd (a_kernel c) - 1) * snd (a_dil c) + 1 - w) 0 in
    pads c h w = Ok (pw / 2, pw - pw / 2, ph / 2, ph - ph / 2).
Proof.
  intros Hh Hw (_ & _ & S1 & S2 & _). destruct (pad_total_ok h (fst (a_kernel c)) (fst (a_stride c)) (fst (a_dil c)) Hh S1) as (mh & Ch & Eh).
  destruct (pad_total_ok w (snd (a_kernel c)) (snd (a_stride c)) (snd (a_dil c)) Hw S2) as (mw & Cw & Ew). exists mh, mw. split; [exact Ch|]. split; [exact Cw|].
  cbv zeta. unfold pads. rewrite Eh. cbn [bind]. rewrite Ew. cbn [bind]. f_equal.
  set (ph := Z.max _ 0). set (pw := Z.max ((mw - 1) * _ + _ + _ - _) 0).
  destruct ((ph >? 0) || (pw >? 0)) eqn:E; [reflexivity|]. apply orb_false_iff in E as [E1 E2]. assert (ph = 0) by (unfold ph in *; lia). assert (pw = 0) by (unfold pw in *; lia).
  replace ph with 0 by lia. replace pw with 0 by lia. reflexivity.
Qed.

Lemma fpad_rows {T} (zero : T) l r t b img : length (fpad zero (l, r, t, b) img) = (Z.to_nat t + length img + Z.to_nat b)%nat.
Proof. unfold fpad. rewrite !app_length, map_length, !repeat_length. lia. Qed.
Lemma fpad_width {T} (zero : T) l r t b img : img <> [] -> (length (hd [] (fpad zero (l, r, t, b) img)) = Z.to_nat l + length (hd [] img) + Z.to_nat r)%nat.
Proof.
  intros N. unfold fpad. destruct (Z.to_nat t) as [|t'].
  - destruct img as [|row rest]; [congruence|]. cbn [repeat app map hd]. rewrite !app_length, !repeat_length. lia.
  - cbn [repeat app hd]. rewrite repeat_length. reflexivity.
Qed.

(** The size of the output is the number of strides that cover the input, in both
    dimensions, whatever the kernel, the stride and the dilation are. *)
Theorem C250_output_size_partial : forall (T : Type) (zero : T) c h w img mh mw, sensible c -> a_padding c = (0, 0) -> picture h w img ->
  covers h (fst (a_stride c)) mh -> covers w (snd (a_stride c)) mw ->
  forward zero (conv_size c) c img = Ok (mh, mw).
Proof.
  intros T zero c h w img mh mw HS HP HI Ch Cw. pose proof (picture_hd _ _ _ HI) as Hd. destruct HI as (Hh & Hw & L & _).
  destruct (pads_ok c h w ltac:(lia) ltac:(lia) HS) as (mh' & mw' & Ch' & Cw' & E). rewrite (covers_unique _ _ _ _ Ch' Ch), (covers_unique _ _ _ _ Cw' Cw) in E. clear mh' mw' Ch' Cw'.
  cbv zeta in E. unfold forward, padded. rewrite L, Hd, E. cbn [bind].
  set (ph := Z.max ((mh - 1) * _ + _ + _ - _) 0). set (pw := Z.max ((mw - 1) * _ + _ + _ - _) 0). fold ph pw in E.
  assert (P1 : 0 <= ph) by (unfold ph; lia). assert (P2 : 0 <= pw) by (unfold pw; lia).
  assert (I : img <> []) by (intros ->; cbn in L; lia).
  pose proof (Z.div_pos ph 2 P1 ltac:(lia)). pose proof (Z.div_pos pw 2 P2 ltac:(lia)).
  pose proof (Z.div_le_upper_bound ph 2 ph ltac:(lia) ltac:(lia)). pose proof (Z.div_le_upper_bound pw 2 pw ltac:(lia) ltac:(lia)).
  unfold conv_size. rewrite HP. cbn [fst snd]. rewrite fpad_rows, fpad_width by exact I.
  destruct HS as (K1 & K2 & S1 & S2 & D1 & D2).
  replace (Z.of_nat (Z.to_nat (ph / 2) + length img + Z.to_nat (ph - ph / 2))) with (h + ph) by lia.
  replace (Z.of_nat (Z.to_nat (pw / 2) + length (hd [] img) + Z.to_nat (pw - pw / 2))) with (w + pw) by lia.
  unfold ph, pw. rewrite conv_len_same by (try lia; exact Ch). cbn [bind]. rewrite conv_len_same by (try lia; exact Cw). reflexivity.
Qed.

(** With a padding of its own the claim fails. *)
Definition C250_claim : Prop := forall (T : Type) (zero : T) c h w img mh mw, sensible c -> 0 <= fst (a_padding c) -> 0 <= snd (a_padding c) -> picture h w img ->
  covers h (fst (a_stride c)) mh -> covers w (snd (a_stride c)) mw ->
  forward zero (conv_size c) c img = Ok (mh, mw).
Definition k3 (p : Z * Z) : acfg := {| a_kernel := (3, 3); a_stride := (2, 1); a_dil := (1, 2); a_padding := p |}.
Definition pic : list (list nat) := [[1; 2; 3]; [4; 5; 6]; [7; 8; 9]; [10; 11; 12]]%nat.
Theorem C250_output_size_refuted : ~ C250_claim.
Proof.
  intros H. specialize (H nat 0%nat (k3 (1, 1)) 4 3 pic 2 3).
  assert (E : forward 0%nat (conv_size (k3 (1, 1))) (k3 (1, 1)) pic = Ok (3, 5)) by (vm_compute; reflexivity). rewrite E in H.
  assert (B : Ok (3, 5) = Ok (2, 3)); [|discriminate B]. apply H.
  - unfold sensible. cbn. lia.
  - cbn. lia.
  - cbn. lia.
  - unfold picture. cbn. split; [lia|]. split; [lia|]. split; [reflexivity|]. repeat constructor.
  - apply covers_iff; cbn; lia.
  - apply covers_iff; cbn; lia.
Qed.
Example C250_output_size_ex : forward 0%nat (conv_size (k3 (0, 0))) (k3 (0, 0)) pic = Ok (2, 3).
Proof. vm_compute. reflexivity. Qed.
Example C250_output_size_hyps : sensible (k3 (0, 0)) /\ picture 4 3 pic /\ covers 4 2 2 /\ covers 3 1 3.
Proof.
  split; [unfold sensible; cbn; lia|]. split; [unfold picture; cbn; split; [lia|]; split; [lia|]; split; [reflexivity|]; repeat constructor|].
  split; apply covers_iff; lia.
Qed.

(** The picture lies in the middle of its padding: a zero more at most on the right and at
    the bottom. *)
Theorem C250_balanced : forall c h w l r t b, 0 <= h < 2 ^ 53 -> 0 <= w < 2 ^ 53 -> sensible c -> pads c h w = Ok (l, r, t, b) ->
  0 <= l /\ 0 <= t /\ (r = l \/ r = l + 1) /\ (b = t \/ b = t + 1).
Proof.
  intros c h w l r t b Hh Hw HS E. destruct (pads_ok c h w Hh Hw HS) as (mh & mw & _ & _ & E'). cbv zeta in E'. rewrite E in E'. apply Ok_inj in E'.
  injection E' as -> -> -> ->. set (ph := Z.max ((mh - 1) * _ + _ + _ - _) 0). set (pw := Z.max ((mw - 1) * _ + _ + _ - _) 0).
  assert (P1 : 0 <= ph) by (unfold ph; lia). assert (P2 : 0 <= pw) by (unfold pw; lia).
  pose proof (Z.div_mod ph 2 ltac:(lia)). pose proof (Z.mod_pos_bound ph 2 ltac:(lia)). pose proof (Z.div_mod pw 2 ltac:(lia)). pose proof (Z.mod_pos_bound pw 2 ltac:(lia)). lia.
Qed.

(** No smaller padding gives an output of that size. *)
Theorem C250_least : forall c h w l r t b mh mw, 1 <= h < 2 ^ 53 -> 1 <= w < 2 ^ 53 -> sensible c -> pads c h w = Ok (l, r, t, b) ->
  covers h (fst (a_stride c)) mh -> covers w (snd (a_stride c)) mw ->
  (forall p, 0 <= p -> (exists o, conv_len (h + p) (fst (a_kernel c)) (fst (a_stride c)) (fst (a_dil c)) 0 = Ok o /\ mh <= o) -> t + b <= p) /\
  (forall p, 0 <= p -> (exists o, conv_len (w + p) (snd (a_kernel c)) (snd (a_stride c)) (snd (a_dil c)) 0 = Ok o /\ mw <= o) -> l + r <= p).
Proof.
  intros c h w l r t b mh mw Hh Hw HS E Ch Cw. destruct (pads_ok c h w ltac:(lia) ltac:(lia) HS) as (mh' & mw' & Ch' & Cw' & E').
  rewrite (covers_unique _ _ _ _ Ch' Ch), (covers_unique _ _ _ _ Cw' Cw) in E'. cbv zeta in E'. rewrite E in E'. apply Ok_inj in E'. injection E' as -> -> -> ->.
  assert (G : forall n k s d m p o, 0 < s -> covers n s m -> 0 <= p -> conv_len (n + p) k s d 0 = Ok o -> m <= o -> Z.max ((m - 1) * s + (k - 1) * d + 1 - n) 0 <= p).
  { intros n k s d m p o S0 C P Eo Le. unfold conv_len in Eo. destruct (_ <? _) eqn:L; [discriminate Eo|]. apply Ok_inj in Eo.
    replace (n + p + 2 * 0 - d * (k - 1) - 1) with (n + p - d * (k - 1) - 1) in Eo by lia.
    assert (Q : m - 1 <= (n + p - d * (k - 1) - 1) / s) by lia.
    pose proof (Z.mul_div_le (n + p - d * (k - 1) - 1) s S0) as D. nia. }
  destruct HS as (_ & _ & S1 & S2 & _). split; intros p P (o & Eo & Le).
  - pose proof (G h (fst (a_kernel c)) (fst (a_stride c)) (fst (a_dil c)) mh p o ltac:(lia) Ch P Eo Le). lia.
  - pose proof (G w (snd (a_kernel c)) (snd (a_stride c)) (snd (a_dil c)) mw p o ltac:(lia) Cw P Eo Le). lia.
Qed.
Example C250_pads_ex : pads (k3 (0, 0)) 4 3 = Ok (2, 2, 0, 1).
Proof. vm_compute. reflexivity. Qed.

(** Pixel (i, j) of the padded picture is pixel (i - top, j - left) of the picture, and zero
    outside of it. *)
Theorem C250_pixels : forall (T : Type) (zero : T) c h w img x l r t b, sensible c -> picture h w img -> pads c h w = Ok (l, r, t, b) ->
  padded zero c img = Ok x ->
  forall i j : nat, nth j (nth i x []) zero =
    (if (t <=? Z.of_nat i) && (Z.of_nat i <? t + h) && (l <=? Z.of_nat j) && (Z.of_nat j <? l + w)
     then nth (j - Z.to_nat l) (nth (i - Z.to_nat t) img []) zero else zero).
Proof.
  intros T zero c h w img x l r t b HS HI EP EX i j. pose proof (picture_hd _ _ _ HI) as Hd. destruct HI as (Hh & Hw & L & F).
  destruct (C250_balanced c h w l r t b ltac:(lia) ltac:(lia) HS EP) as (L0 & T0 & _). unfold padded in EX. rewrite L, Hd, EP in EX. cbn [bind] in EX. apply Ok_inj in EX. subst x.
  assert (Z : forall n, nth j (repeat zero n) zero = zero) by (intros n; apply nth_repeat).
  assert (B : forall n k, nth j (nth k (repeat (repeat zero n) (Z.to_nat t)) []) zero = zero).
  { intros n k. destruct (Nat.lt_ge_cases k (Z.to_nat t)) as [A|A].
    - rewrite (nth_indep _ [] (repeat zero n)) by (rewrite repeat_length; exact A). rewrite nth_repeat. apply Z.
    - rewrite (nth_overflow (repeat (repeat zero n) (Z.to_nat t))) by (rewrite repeat_length; exact A). destruct j; reflexivity. }
  unfold fpad. destruct (Z.leb_spec t (Z.of_nat i)) as [Ti|Ti]; cbn [andb].
  2:{ rewrite app_nth1 by (rewrite repeat_length; lia). apply B. }
  rewrite app_nth2 by (rewrite repeat_length; lia). rewrite repeat_length.
  destruct (Z.ltb_spec (Z.of_nat i) (t + h)) as [Hi|Hi]; cbn [andb].
  2:{ rewrite app_nth2 by (rewrite map_length; lia). destruct (Nat.lt_ge_cases (i - Z.to_nat t - length (map (fun row => repeat zero (Z.to_nat l) ++ row ++ repeat zero (Z.to_nat r)) img)) (Z.to_nat b)) as [A|A].
      - rewrite (nth_indep _ [] (repeat zero (Z.to_nat l + length (hd [] img) + Z.to_nat r))) by (rewrite repeat_length; exact A). rewrite nth_repeat. apply Z.
      - rewrite (nth_overflow (repeat (repeat zero (Z.to_nat l + length (hd [] img) + Z.to_nat r)) (Z.to_nat b))) by (rewrite repeat_length; exact A). destruct j; reflexivity. }
  rewrite app_nth1 by (rewrite map_length; lia).
  assert (Ii : (i - Z.to_nat t < length img)%nat) by lia.
  rewrite (nth_indep _ [] ((fun row => repeat zero (Z.to_nat l) ++ row ++ repeat zero (Z.to_nat r)) [])) by (rewrite map_length; exact Ii).
  rewrite (map_nth (fun row => repeat zero (Z.to_nat l) ++ row ++ repeat zero (Z.to_nat r))). cbv beta. assert (Wr : Z.of_nat (length (nth (i - Z.to_nat t) img [])) = w) by (rewrite Forall_forall in F; apply F, nth_In; exact Ii).
  destruct (Z.leb_spec l (Z.of_nat j)) as [Lj|Lj]; cbn [andb].
  2:{ rewrite app_nth1 by (rewrite repeat_length; lia). apply Z. }
  rewrite app_nth2 by (rewrite repeat_length; lia). rewrite repeat_length. destruct (Z.ltb_spec (Z.of_nat j) (l + w)) as [Hj|Hj].
  - rewrite app_nth1 by lia. reflexivity.
  - rewrite app_nth2 by lia. apply nth_repeat.
Qed.
Example C250_pixels_ex : padded 0%nat (k3 (0, 0)) pic =
  Ok [[0; 0; 1; 2; 3; 0; 0]; [0; 0; 4; 5; 6; 0; 0]; [0; 0; 7; 8; 9; 0; 0]; [0; 0; 10; 11; 12; 0; 0]; [0; 0; 0; 0; 0; 0; 0]]%nat.
Proof. vm_compute. reflexivity. Qed.

(** The exported static layer computes what the dynamic layer does, if that has no padding
    of its own. *)
Definition C250_export_claim : Prop := forall (T U : Type) (zero : T) (conv : Z * Z -> list (list T) -> outcome U) c img,
  forward zero conv (to_static c) img = forward zero conv c img.
Theorem C250_export_partial : forall (T U : Type) (zero : T) (conv : Z * Z -> list (list T) -> outcome U) c img, a_padding c = (0, 0) ->
  forward zero conv (to_static c) img = forward zero conv c img.
Proof. intros T U zero conv c img E. unfold forward, padded, pads, to_static. cbn [a_kernel a_stride a_dil a_padding]. rewrite E. reflexivity. Qed.
Theorem C250_export_refuted : ~ C250_export_claim.
Proof.
  intros H. specialize (H nat (Z * Z)%type 0%nat (conv_size (k3 (1, 1))) (k3 (1, 1)) pic). vm_compute in H. discriminate H.
Qed.

(** A stride of zero is a division by zero. *)
Theorem C250_no_stride : forall (T : Type) (zero : T) c img, fst (a_stride c) = 0 -> padded zero c img = Raise ZeroDivisionError.
Proof. intros T zero c img E. unfold padded, pads, pad_total, ceil_div. rewrite E. reflexivity. Qed.

(** The same division of floats in RuntimeInfo.iter_pre_epoch: with counters below 2^53 it
    is the exact one that the model of runtime_info.py uses. *)
Theorem C207_float : forall info a b, Onnx_Model.get info "max_iters"%string = Some a -> Onnx_Model.get info "max_epochs"%string = Some b ->
  0 <= a < 2 ^ 53 -> 0 < b <= 2 ^ 53 -> Tools_Model.iter_pre_epoch info = ceil_div a b.
Proof.
  intros info a b A B Ha Hb. destruct (ceil_div_ok a b Ha Hb) as (m & E & C). rewrite E. apply covers_iff in C; [|lia].
  unfold Tools_Model.iter_pre_epoch, Tools_Model.get_info. rewrite A, B. cbn [bind]. replace (b =? 0) with false by lia. f_equal.
  pose proof (Z.div_mod (- a) b ltac:(lia)) as D. pose proof (Z.mod_pos_bound (- a) b ltac:(lia)) as M. nia.
Qed.
Example C207_float_ex : ceil_div 10 4 = Ok 3 /\ ceil_div 9007199254740993 1 = Ok 9007199254740992.
Proof. split; vm_compute; reflexivity. Qed.
Print Assumptions C250_output_size_partial.
Print Assumptions C250_output_size_refuted.
Print Assumptions C250_balanced.
Print Assumptions C250_least.
Print Assumptions C250_pixels.
Print Assumptions C250_export_partial.
Print Assumptions C250_export_refuted.
Print Assumptions C250_no_stride.
Print Assumptions C207_float.
