(** Levels (C202), extra parameters (C203) and fields (C204) of augmentations, and packed samples (C205). *)
From Coq Require Import String QArith Qminmax Qabs Lqa.
From Verif Require Import Prelude Onnx_Model Onnx_Lemmas Augment_Model.
Local Open Scope string_scope.
Local Open Scope list_scope.
Local Open Scope Z_scope.

(** ** C202 *)
(** *** Specification *)
(** The documented ranges of the parameter of each augmentation, and whether it is a whole number. *)
Inductive range := Reals (lo hi : Q) | Whole (lo hi : Z).
Definition within (r : range) (a : Q) : Prop :=
  match r with Reals lo hi => (lo <= a <= hi)%Q | Whole lo hi => exists z, (a == inject_Z z)%Q /\ lo <= z <= hi end.
Definition ranges1 : list (string * range) :=
  [("Rotate", Reals (-30) 30); ("Posterize", Whole 4 8); ("Posterize2", Whole 0 4); ("Solarize", Whole 0 256); ("SolarizeAdd", Whole 0 110);
   ("Color", Reals (1#10) (19#10)); ("Contrast", Reals (1#10) (19#10)); ("Brightness", Reals (1#10) (19#10)); ("Sharpness", Reals (1#10) (19#10));
   ("ShearX", Reals (-(3#10)) (3#10)); ("ShearY", Reals (-(3#10)) (3#10)); ("TranslateX", Reals (-250) 250); ("TranslateY", Reals (-250) 250);
   ("TranslateXRel", Reals (-(45#100)) (45#100)); ("TranslateYRel", Reals (-(45#100)) (45#100))]%Q.
Definition ranges2 : list (string * range) :=
  [("RotateV2", Reals (-30) 30); ("PosterizeV2", Whole 4 8); ("SolarizeV2", Whole 0 256); ("SolarizeAddV2", Whole 0 110);
   ("Color", Reals (1#10) (19#10)); ("ContrastV2", Reals (1#10) (19#10)); ("BrightnessV2", Reals (1#10) (19#10)); ("SharpnessV2", Reals (1#10) (19#10));
   ("ShearX", Reals (-(3#10)) (3#10)); ("ShearY", Reals (-(3#10)) (3#10)); ("TranslateX", Reals (-250) 250); ("TranslateY", Reals (-250) 250);
   ("TranslateXRel", Reals (-(45#100)) (45#100)); ("TranslateYRel", Reals (-(45#100)) (45#100))]%Q.

(** *** Lemmas *)
Lemma clip_range g : (0 <= clip g <= 10)%Q.
Proof.
  unfold clip. destruct (Q.max_spec 0 g) as [[A E]|[A E]], (Q.min_spec 10 (Qmax 0 g)) as [[B F]|[B F]]; lra.
Qed.
Lemma clip_id g : (0 <= g <= 10)%Q -> (clip g == g)%Q.
Proof. intros H. unfold clip. destruct (Q.max_spec 0 g) as [[A E]|[A E]], (Q.min_spec 10 (Qmax 0 g)) as [[B F]|[B F]]; lra. Qed.
Lemma trunc_Z x k : (x == inject_Z k)%Q -> Qtrunc x = k.
Proof. unfold Qeq, Qtrunc. destruct x as [n d]. cbn. intros E. rewrite Z.mul_1_r in E. rewrite E. apply Z.quot_mul. discriminate. Qed.
Lemma trunc_range x n : (0 <= x <= inject_Z n)%Q -> 0 <= Qtrunc x <= n.
Proof.
  unfold Qle, Qtrunc. destruct x as [a d]. cbn. intros [A B]. rewrite Z.quot_div_nonneg by lia. split; [apply Z.div_pos; lia|].
  apply Z.div_le_upper_bound; lia.
Qed.
Lemma trunc_nonneg x : (0 <= x)%Q -> 0 <= Qtrunc x.
Proof. unfold Qle, Qtrunc. destruct x as [a d]. cbn. intros A. rewrite Z.quot_div_nonneg by lia. apply Z.div_pos; lia. Qed.
Lemma ten l k : (0 <= l <= 10)%Q -> (0 <= k)%Q -> (0 <= l / 10 * k <= k)%Q.
Proof.
  intros A B. assert (E : (l / 10 == l * (1 # 10))%Q) by (unfold Qdiv; reflexivity). assert (C : (0 <= l / 10 <= 1)%Q) by lra. set (t := (l / 10)%Q) in *. clearbody t. split.
  - apply Qmult_le_0_compat; lra.
  - setoid_replace k with (1 * k)%Q at 2 by ring. apply Qmult_le_compat_r; lra.
Qed.
Lemma neg_range neg v k : (0 <= v <= k)%Q -> (- k <= negate neg v <= k)%Q.
Proof. destruct neg; cbn; lra. Qed.
Lemma in_rotate g neg a : In a (rotate_level (clip g) neg) -> within (Reals (-30) 30) a.
Proof. intros [<-|[]]. apply (neg_range neg _ 30). apply ten; [apply clip_range|lra]. Qed.
Lemma in_shear g neg a : In a (shear_level (clip g) neg) -> within (Reals (-(3#10)) (3#10)) a.
Proof. intros [<-|[]]. apply (neg_range neg _ (3#10)). apply ten; [apply clip_range|lra]. Qed.
Lemma in_trans g neg a : In a (translate_abs_level (clip g) neg) -> within (Reals (-250) 250) a.
Proof. intros [<-|[]]. apply (neg_range neg _ 250). apply ten; [apply clip_range|lra]. Qed.
Lemma in_rel g neg a : In a (translate_rel_level (clip g) neg) -> within (Reals (-(45#100)) (45#100)) a.
Proof. intros [<-|[]]. apply (neg_range neg _ (45#100)). apply ten; [apply clip_range|lra]. Qed.
Lemma in_enhance g a : In a (enhance_level (clip g)) -> within (Reals (1#10) (19#10)) a.
Proof. intros [<-|[]]. cbn [within]. pose proof (ten (clip g) (18#10) (clip_range g) ltac:(lra)). lra. Qed.
Lemma in_c0 g a : In a (conversion0 (clip g)) -> within (Whole 4 8) a.
Proof. intros [<-|[]]. eexists. split; [reflexivity|]. pose proof (trunc_range (clip g / 10 * 4) 4 (ten (clip g) 4 (clip_range g) ltac:(lra))). lia. Qed.
Lemma in_c1 g a : In a (conversion1 (clip g)) -> within (Whole 0 4) a.
Proof. intros [<-|[]]. eexists. split; [reflexivity|]. pose proof (trunc_range (clip g / 10 * 4) 4 (ten (clip g) 4 (clip_range g) ltac:(lra))). lia. Qed.
Lemma in_c2 g a : In a (conversion2 (clip g)) -> within (Whole 0 256) a.
Proof. intros [<-|[]]. eexists. split; [reflexivity|]. apply (trunc_range (clip g / 10 * 256) 256 (ten (clip g) 256 (clip_range g) ltac:(lra))). Qed.
Lemma in_c3 g a : In a (conversion3 (clip g)) -> within (Whole 0 110) a.
Proof. intros [<-|[]]. eexists. split; [reflexivity|]. apply (trunc_range (clip g / 10 * 110) 110 (ten (clip g) 110 (clip_range g) ltac:(lra))). Qed.
Local Hint Resolve in_rotate in_shear in_trans in_rel in_enhance in_c0 in_c1 in_c2 in_c3 : augm.
Lemma name_cases name f : get name_to_op name = Some f -> In name (map fst name_to_op).
Proof. intros H. apply get_in in H. apply (in_map fst) in H. exact H. Qed.
Lemma class_cases cls f : get classes2 cls = Some f -> In (cls, f) classes2.
Proof. apply get_in. Qed.

(** *** Theorems *)
(** Whatever magnitude is configured and drawn, the parameter is in the documented range. *)
Theorem C202_range : forall (F : Type) (FILL : F) h name p g neg o, op_init FILL h name p g neg = Ok o -> forall a, In a (args o) -> exists r, get ranges1 name = Some r /\ within r a.
Proof.
  intros F FILL h name p g neg o H a I0. unfold op_init in H. destruct (get name_to_op name) eqn:E; [|discriminate H]. apply Ok_inj in H. subst o. cbn [args] in I0.
  apply name_cases in E. cbn [map fst name_to_op In] in E. repeat (destruct E as [<-|E]; [first [now destruct I0|eexists; split; [reflexivity|]; cbv [level_args existsb String.eqb Ascii.eqb Bool.eqb orb] in I0; eauto with augm]|]). destruct E.
Qed.
Theorem C202_range2 : forall (F : Type) (FILL : F) h cls p g neg o, op2_init FILL h cls p g neg = Ok o -> forall a, In a (args2 o) -> exists r, get ranges2 cls = Some r /\ within r a.
Proof.
  intros F FILL h cls p g neg o H a I0. unfold op2_init in H. destruct (get classes2 cls) eqn:E; [|discriminate H]. apply Ok_inj in H. subst o. cbn [args2] in I0.
  apply class_cases in E. cbn [classes2 In] in E. repeat (destruct E as [E|E]; [injection E as <- <-; first [now destruct I0|eexists; split; [reflexivity|]; cbn [level2] in I0; eauto with augm]|]). destruct E.
Qed.
(** Every parameter in the range is reached by some draw. *)
Lemma reach_pos k v : (0 < k)%Q -> (0 <= v <= k)%Q -> exists g, (clip g / 10 * k == v)%Q.
Proof.
  intros K V. assert (R : (0 <= v / k <= 1)%Q).
  { split; [apply Qle_shift_div_l; [exact K|]; lra|]. apply Qle_shift_div_r; [exact K|]. lra. }
  exists (v / k * 10)%Q. rewrite clip_id by lra. field. lra.
Qed.
Lemma reach k v : (0 < k)%Q -> (- k <= v <= k)%Q -> exists g neg, (negate neg (clip g / 10 * k) == v)%Q.
Proof.
  intros K V. destruct (Qlt_le_dec v 0) as [N|N].
  - destruct (reach_pos k (- v) K ltac:(lra)) as (g & E). exists g, true. cbn [negate]. rewrite E. ring.
  - destruct (reach_pos k v K ltac:(lra)) as (g & E). exists g, false. exact E.
Qed.
Lemma reach_Z n z : 0 < n -> 0 <= z <= n -> exists g, Qtrunc (clip g / 10 * inject_Z n) = z.
Proof.
  intros N Z0. destruct (reach_pos (inject_Z n) (inject_Z z)) as (g & E).
  - change 0%Q with (inject_Z 0). rewrite <- Zlt_Qlt. exact N.
  - split; [change 0%Q with (inject_Z 0)|]; rewrite <- Zle_Qle; lia.
  - exists g. apply trunc_Z. exact E.
Qed.
Ltac hit g neg := exists g, neg; do 2 eexists; split; [reflexivity|]; split; [reflexivity|].
Theorem C202_reached : forall (F : Type) (FILL : F) h name p r v, get ranges1 name = Some r -> within r v -> exists g neg o a, op_init FILL h name p g neg = Ok o /\ args o = [a] /\ (a == v)%Q.
Proof.
  intros F FILL h name p r v G W. apply get_in in G. cbn [ranges1 In] in G.
  assert (S : forall k, (0 < k)%Q -> (- k <= v <= k)%Q -> exists g neg, (negate neg (clip g / 10 * k) == v)%Q) by (intros; apply reach; assumption).
  assert (E0 : ((1 # 10) <= v <= 19 # 10)%Q -> exists g, (clip g / 10 * (18 # 10) + (1 # 10) == v)%Q).
  { intros V. destruct (reach_pos (18 # 10) (v - (1 # 10)) ltac:(lra) ltac:(lra)) as (g & E). exists g. rewrite E. ring. }
  repeat (destruct G as [G|G]; [injection G as <- <-; cbn [within] in W|]); try destruct G.
  - destruct (S 30%Q ltac:(lra) W) as (g & neg & E). hit g neg. exact E.
  - destruct W as (z & E & Z0). destruct (reach_Z 4 (z - 4) ltac:(lia) ltac:(lia)) as (g & T). hit g false. rewrite E. change (clip g / 10 * 4)%Q with (clip g / 10 * inject_Z 4)%Q. rewrite T. replace (z - 4 + 4) with z by lia. reflexivity.
  - destruct W as (z & E & Z0). destruct (reach_Z 4 (4 - z) ltac:(lia) ltac:(lia)) as (g & T). hit g false. rewrite E. change (clip g / 10 * 4)%Q with (clip g / 10 * inject_Z 4)%Q. rewrite T. replace (4 - (4 - z)) with z by lia. reflexivity.
  - destruct W as (z & E & Z0). destruct (reach_Z 256 z ltac:(lia) ltac:(lia)) as (g & T). hit g false. rewrite E. change (clip g / 10 * 256)%Q with (clip g / 10 * inject_Z 256)%Q. rewrite T. reflexivity.
  - destruct W as (z & E & Z0). destruct (reach_Z 110 z ltac:(lia) ltac:(lia)) as (g & T). hit g false. rewrite E. change (clip g / 10 * 110)%Q with (clip g / 10 * inject_Z 110)%Q. rewrite T. reflexivity.
  - destruct (E0 W) as (g & E). hit g false. exact E.
  - destruct (E0 W) as (g & E). hit g false. exact E.
  - destruct (E0 W) as (g & E). hit g false. exact E.
  - destruct (E0 W) as (g & E). hit g false. exact E.
  - destruct (S (3#10)%Q ltac:(lra) W) as (g & neg & E). hit g neg. exact E.
  - destruct (S (3#10)%Q ltac:(lra) W) as (g & neg & E). hit g neg. exact E.
  - destruct (S 250%Q ltac:(lra) W) as (g & neg & E). hit g neg. exact E.
  - destruct (S 250%Q ltac:(lra) W) as (g & neg & E). hit g neg. exact E.
  - destruct (S (45#100)%Q ltac:(lra) W) as (g & neg & E). hit g neg. exact E.
  - destruct (S (45#100)%Q ltac:(lra) W) as (g & neg & E). hit g neg. exact E.
Qed.
(** What PIL is asked to do makes sense: posterizing keeps 1 to 7 bits; a table has an entry of 0 to 255 for each value of each channel, the value itself from 128
    on and at least the value below; the identity is only applied as such. *)
Definition sensible {F} (mode : string) (c : call F) : Prop :=
  match c with
  | CPosterize b => 1 <= b <= 7
  | CPoint lut => exists t, length t = 256%nat /\ (mode = "L" /\ lut = t \/ mode = "RGB" /\ lut = t ++ t ++ t) /\
      forall i v, nth_error t i = Some v -> 0 <= v <= 255 /\ Z.of_nat i <= v /\ (128 <= Z.of_nat i -> v = Z.of_nat i)
  | _ => True
  end.
Lemma lut_ok add : 0 <= add -> length (lut256 add) = 256%nat /\ forall i v, nth_error (lut256 add) i = Some v -> 0 <= v <= 255 /\ Z.of_nat i <= v /\ (128 <= Z.of_nat i -> v = Z.of_nat i).
Proof.
  intros A. unfold lut256. rewrite map_map, map_length, seq_length. split; [reflexivity|]. intros i v H. rewrite nth_error_map in H. destruct (nth_error (seq 0 256) i) as [j|] eqn:E; [|discriminate H].
  assert (L : (i < 256)%nat) by (pose proof (seq_length 256 0) as Q0; rewrite <- Q0; apply nth_error_Some; congruence).
  apply (nth_error_nth _ _ 0%nat) in E. rewrite seq_nth in E by exact L. cbn in E. subst j. injection H as <-. destruct (Z.ltb_spec (Z.of_nat i) 128); lia.
Qed.
Theorem C202_sensible : forall (F : Type) (FILL : F) h name p g neg o pick size mode c, op_init FILL h name p g neg = Ok o -> call_of o pick size mode = Ok c -> sensible mode c.
Proof.
  intros F FILL h name p g neg o pick size mode c H C. pose proof (C202_range F FILL h name p g neg o H) as R. unfold op_init in H. destruct (get name_to_op name) eqn:E; [|discriminate H]. apply Ok_inj in H. subst o. cbn [args] in R.
  unfold call_of in C. cbn [aug_fn args kwargs] in C. apply get_in in E.
  destruct (if geometric f then _ else _) as [k|] eqn:K in C; [|discriminate C]. cbn [bind] in C. apply Ok_inj in C. subst c. clear K.
  assert (B : forall mode a, 0 <= Qtrunc a -> sensible mode (@solarize_add F mode (Qtrunc a))).
  { intros md a A. unfold solarize_add. destruct (String.eqb_spec md "L") as [->|]; [|destruct (String.eqb_spec md "RGB") as [->|]; [|exact I]].
    - exists (lut256 (Qtrunc a)). destruct (lut_ok _ A). auto.
    - exists (lut256 (Qtrunc a)). destruct (lut_ok _ A). auto. }
  assert (P : forall a, 0 <= Qtrunc a -> sensible mode (@posterize F (Qtrunc a))). { intros a A. unfold posterize. destruct (Z.leb_spec 8 (Qtrunc a)); [exact I|cbn; lia]. }
  cbn [name_to_op In] in E. repeat (destruct E as [E|E]; [injection E as <- <-; cbn [run]; try exact I|]); try destruct E.
  - apply P. cbn [args level_args existsb String.eqb Ascii.eqb Bool.eqb orb hd] in *. edestruct R as (r & G & W); [left; reflexivity|]. injection G as <-. destruct W as (z & E & Z0). cbn [hd conversion0]. erewrite trunc_Z by exact E. lia.
  - apply P. edestruct R as (r & G & W); [left; reflexivity|]. injection G as <-. destruct W as (z & E & Z0). cbn [hd]. erewrite trunc_Z by exact E. lia.
  - apply B. edestruct R as (r & G & W); [left; reflexivity|]. injection G as <-. destruct W as (z & E & Z0). cbn [hd]. erewrite trunc_Z by exact E. lia.
Qed.
(** A rotation of magnitude 9 for which 9.5 is drawn, negated. *)
Example C202_example : exists o, op_init (128, 128, 128) {| img_mean := None; interpolation := None; translate_const := None |} "Rotate" (6#10) (19#2) true = Ok o /\
  map Qred (args o) = [-(57#2)]%Q /\ exists o', op_init (128, 128, 128) {| img_mean := None; interpolation := None; translate_const := None |} "SolarizeAdd" (6#10) 3 true = Ok o' /\
  exists t, call_of o' 0 (32, 32) "L" = Ok (CPoint t) /\ firstn 3 t = [33; 34; 35] /\ nth_error t 200 = Some 200.
Proof. eexists. split; [reflexivity|]. split; [reflexivity|]. eexists. split; [reflexivity|]. eexists. split; [vm_compute; reflexivity|]. split; reflexivity. Qed.

(** ** C203 *)
(** What the extra parameters ask for: the colour of the pixels that come into the image, the ways of resampling, the largest translation. *)
Definition wanted_fill {F} (FILL : F) (h : extra F) : F := match img_mean h with Some c => c | None => FILL end.
Definition wanted_modes {F} (h : extra F) : list string := match interpolation h with Some (One m) => [m] | Some (Many l) => l | None => ["NEAREST"; "BILINEAR"; "BICUBIC"] end.
Definition obeys {F} (FILL : F) (h : extra F) (c : call F) : Prop :=
  match c with CRotate _ k | CAffine _ k => fill k = Some (wanted_fill FILL h) /\ In (resample k) (wanted_modes h) | _ => True end.
Definition C203_claim : Prop := forall (F : Type) (FILL : F) h cls p g neg o size mode, op2_init FILL h cls p g neg = Ok o -> obeys FILL h (call_of2 o size mode).
Definition C203_translate_claim : Prop := forall (F : Type) (FILL : F) h name p g neg o t, translate_const h = Some t -> (0 <= t)%Q -> In name ["TranslateX"; "TranslateY"] ->
  op_init FILL h name p g neg = Ok o -> forall a, In a (args o) -> (Qabs a <= t)%Q.
(** The second version never looks at its parameters: the image is filled with black. *)
Theorem C203_ignored_refuted : ~ C203_claim.
Proof.
  intros H. specialize (H Z 128 {| img_mean := Some 7; interpolation := None; translate_const := None |} "ShearX" 1%Q 5%Q false _ (32, 32) "RGB" eq_refl). destruct H as [H _]. discriminate H.
Qed.
Theorem C203_translate_refuted : ~ C203_translate_claim.
Proof.
  intros H. specialize (H Z 128 {| img_mean := None; interpolation := None; translate_const := Some 10%Q |} "TranslateX" 1%Q 10%Q false _ 10%Q eq_refl ltac:(lra) ltac:(left; reflexivity) eq_refl _ ltac:(left; reflexivity)).
  vm_compute in H. apply H. reflexivity.
Qed.
(** In the first version every geometric augmentation fills with the colour asked for and resamples in one of the ways asked for. *)
Theorem C203_obeys_partial : forall (F : Type) (FILL : F) h name p g neg o pick size mode, op_init FILL h name p g neg = Ok o ->
  match call_of o pick size mode with Ok c => obeys FILL h c | Raise e => e = IndexError /\ wanted_modes h = [] end.
Proof.
  intros F FILL h name p g neg o pick size mode H. unfold op_init in H. destruct (get name_to_op name) eqn:E; [|discriminate H]. apply Ok_inj in H. subst o. unfold call_of. cbn [aug_fn kwargs args].
  destruct (geometric f) eqn:G.
  - unfold check_args. cbn [snd fst]. assert (K : forall ms : list string, match nth_error ms (pick mod length ms)%nat with Some m => In m ms | None => ms = [] end).
    { intros [|m ms]; [destruct (pick mod _)%nat; reflexivity|]. destruct (nth_error (m :: ms) _) eqn:N; [eapply nth_error_In; exact N|]. apply nth_error_None in N. pose proof (Nat.mod_upper_bound pick (length (m :: ms)) ltac:(discriminate)). lia. }
    unfold obeys, wanted_fill, wanted_modes. destruct (interpolation h) as [[m|ms]|].
    + cbn [bind]. destruct f; try discriminate G; cbn [run]; (split; [reflexivity|left; reflexivity]).
    + specialize (K ms). destruct (nth_error ms _); cbn [bind]; [|auto]. destruct f; try discriminate G; cbn [run]; (split; [reflexivity|exact K]).
    + specialize (K ["NEAREST"; "BILINEAR"; "BICUBIC"]). destruct (nth_error ["NEAREST"; "BILINEAR"; "BICUBIC"] _); cbn [bind]; [|discriminate K]. destruct f; try discriminate G; cbn [run]; (split; [reflexivity|exact K]).
  - cbn [bind]. destruct f; try discriminate G; cbn [run]; try exact I; unfold posterize, solarize_add; [destruct (_ <=? _); exact I|destruct (String.eqb _ _); [exact I|destruct (String.eqb _ _); exact I]].
Qed.
Example C203_example : let h := {| img_mean := Some 7; interpolation := Some (Many ["BICUBIC"; "BOX"]); translate_const := None |} in
  exists o, op_init 128 h "TranslateXRel" 1 5 true = Ok o /\ exists m, call_of o 3 (200, 100) "RGB" = Ok (CAffine m {| fill := Some 7; resample := "BOX" |}) /\
  let '(_, _, c, _, _, _) := m in (c == -45)%Q.
Proof. eexists. split; [reflexivity|]. eexists. split; [reflexivity|]. vm_compute. reflexivity. Qed.

(** ** C204 *)
(** An augmentation that is drawn changes each image of the fields once and nothing else; one that is not drawn changes nothing; it fails only when an image is missing. *)
Lemma fields_get {Img} (f : nat -> Img -> outcome Img) : forall ks n imgs imgs', NoDup ks -> on_fields f n ks imgs = Ok imgs' ->
  (forall k, ~ In k ks -> get imgs' k = get imgs k) /\ (forall i k, nth_error ks i = Some k -> exists im im', get imgs k = Some im /\ f (n + i)%nat im = Ok im' /\ get imgs' k = Some im').
Proof.
  induction ks as [|k0 ks IH]; intros n imgs imgs' ND H; cbn [on_fields] in H.
  - apply Ok_inj in H. subst. split; [reflexivity|]. intros [|i] k E; discriminate E.
  - inversion ND as [|a b NI ND']; subst. destruct (get imgs k0) as [im|] eqn:G; [|discriminate H]. destruct (f n im) as [im'|e] eqn:Ef; [|discriminate H]. cbn [bind] in H. destruct (IH _ _ _ ND' H) as [A B]. split.
    + intros k NK. rewrite A by (intros X; apply NK; right; exact X). rewrite get_put. destruct (String.eqb_spec k0 k) as [->|]; [|reflexivity]. exfalso. apply NK. left. reflexivity.
    + intros [|i] k E.
      * injection E as <-. exists im, im'. rewrite Nat.add_0_r. repeat split; try assumption. rewrite (A k0 NI), get_put, String.eqb_refl. reflexivity.
      * destruct (B i k E) as (a & b & X & Y & Z0). exists a, b. replace (n + S i)%nat with (S n + i)%nat by lia. repeat split; try assumption. rewrite get_put in X. destruct (String.eqb_spec k0 k) as [->|]; [|exact X]. exfalso. apply NI. eapply nth_error_In. exact E.
Qed.
Theorem C204_fields : forall (F Img : Type) (pil : call F -> Img -> Img) size mode fields u pick (o : op F) imgs imgs', NoDup (fields_of fields) ->
  transform1 pil size mode fields u pick o imgs = Ok imgs' ->
  (forall k, ~ In k (fields_of fields) -> get imgs' k = get imgs k) /\
  if Qltb (prob o) u then imgs' = imgs else
  forall i k, nth_error (fields_of fields) i = Some k -> exists im c, get imgs k = Some im /\ call_of o (pick i) (size im) (mode im) = Ok c /\ get imgs' k = Some (pil c im).
Proof.
  intros F Img pil size mode fields u pick o imgs imgs' ND H. unfold transform1 in H. destruct (Qltb (prob o) u).
  - apply Ok_inj in H. subst. split; reflexivity.
  - destruct (fields_get _ _ _ _ _ ND H) as [A B]. split; [exact A|]. intros i k E. destruct (B i k E) as (im & im' & X & Y & Z0). cbn [plus] in Y. destruct (call_of o (pick i) (size im) (mode im)) as [c|] eqn:C; [|discriminate Y]. cbn [bind] in Y. apply Ok_inj in Y. subst im'. exists im, c. auto.
Qed.
Theorem C204_fields2 : forall (F Img : Type) (pil : call F -> Img -> Img) size mode fields u (o : op2 F) imgs imgs', NoDup (fields_of fields) ->
  transform2 pil size mode fields u o imgs = Ok imgs' ->
  (forall k, ~ In k (fields_of fields) -> get imgs' k = get imgs k) /\
  if Qltb (prob2 o) u then imgs' = imgs else
  forall k, In k (fields_of fields) -> exists im, get imgs k = Some im /\ get imgs' k = Some (pil (call_of2 o (size im) (mode im)) im).
Proof.
  intros F Img pil size mode fields u o imgs imgs' ND H. unfold transform2 in H. destruct (Qltb (prob2 o) u).
  - apply Ok_inj in H. subst. split; reflexivity.
  - destruct (fields_get _ _ _ _ _ ND H) as [A B]. split; [exact A|]. intros k IK. apply In_nth_error in IK as (i & E). destruct (B i k E) as (im & im' & X & Y & Z0). apply Ok_inj in Y. subst im'. exists im. auto.
Qed.
Lemma put_some {A} (d : list (string * A)) k v k' : (exists w, get d k' = Some w) -> exists w, get (put d k v) k' = Some w.
Proof. intros [w W]. rewrite get_put. destruct (String.eqb k k'); eauto. Qed.
Theorem C204_total : forall (F Img : Type) (pil : call F -> Img -> Img) size mode fields u pick (FILL : F) h name p g neg o imgs, op_init FILL h name p g neg = Ok o -> interpolation h <> Some (Many []) ->
  (forall k, In k (fields_of fields) -> exists im, get imgs k = Some im) -> exists imgs', transform1 pil size mode fields u pick o imgs = Ok imgs'.
Proof.
  intros F Img pil size mode fields u pick FILL h name p g neg o imgs HO NI H. unfold transform1. destruct (Qltb _ _); [eauto|].
  assert (T : forall n im, exists im', (do c <- call_of o (pick n) (size im) (mode im); Ok (pil c im)) = Ok im').
  { intros n im. pose proof (C203_obeys_partial F FILL h name p g neg o (pick n) (size im) (mode im) HO) as X. destruct (call_of _ _ _ _); [cbn [bind]; eauto|]. destruct X as [_ X]. exfalso. unfold wanted_modes in X. destruct (interpolation h) as [[m|ms]|]; try discriminate X. subst ms. apply NI. reflexivity. }
  generalize 0%nat. revert imgs H. induction (fields_of fields) as [|k ks IH]; intros imgs H n; cbn [on_fields]; [eauto|]. destruct (H k (or_introl eq_refl)) as [im E]. rewrite E. destruct (T n im) as [im' E']. rewrite E'. cbn [bind]. apply IH. intros k' I0. apply put_some. apply H. right. exact I0.
Qed.
(** Both policies can be built with any draws, and no other. *)
Theorem C204_policies : forall (F : Type) (FILL : F) policies ex draw, (exists ops, augment_init FILL policies ex draw = Ok ops /\ length ops = 25%nat /\ Forall (fun sp => length sp = 2%nat /\ Forall (fun o => 0 <= prob o <= 1)%Q sp) ops) <->
  (policies = "original" \/ policies = "v0").
Proof.
  intros F FILL policies ex draw. split.
  - intros (ops & H & _). unfold augment_init in H. cbn [auto_augment_policy get] in H. destruct (String.eqb_spec "original" policies); [left; congruence|]. destruct (String.eqb_spec "v0" policies); [right; congruence|]. discriminate H.
  - intros [-> | ->]; (eexists; split; [cbv -[clip level_args]; reflexivity|]; split; [reflexivity|]; repeat (constructor; [split; [reflexivity|repeat (constructor; [cbn [prob]; lra|]); constructor]|]); constructor).
Qed.
Example C204_example : let o := {| aug_fn := FInvert; prob := (4#10)%Q; args := []; kwargs := (128, One "BOX") |} in
  let pil (c : call Z) (n : Z) := match c with CInvert => 255 - n | _ => n end in
  transform1 pil (fun _ => (1, 1)) (fun _ => "L") (Some ["a"; "b"]) (3#10)%Q (fun _ => 0%nat) o [("a", 5); ("c", 6); ("b", 7)] = Ok [("a", 250); ("c", 6); ("b", 248)] /\
  transform1 pil (fun _ => (1, 1)) (fun _ => "L") None (3#10)%Q (fun _ => 0%nat) o [("a", 5)] = Raise KeyError.
Proof. split; reflexivity. Qed.

(** ** C205 *)
(** Each packed sample has the meta information of its own results under the configured keys, except sample_idx. *)
Definition has_meta {V} (keys : list string) (results : list (string * V)) (p : packed V) : Prop :=
  forall k, k <> "sample_idx" -> get (metainfo p) k = if existsb (String.eqb k) keys then get results k else None.
Definition C205_claim : Prop := forall (V : Type) l (samples : list (option (array V) * list (string * V))) ps, pack_all (Tuple l) samples = Ok ps ->
  Forall2 (fun s p => has_meta l (snd s) p) samples ps.
(** After the first sample with an index the keys are used up. *)
Theorem C205_second_refuted : ~ C205_claim.
Proof.
  intros H. specialize (H Z ["img_path"] [(None, [("sample_idx", 0); ("img_path", 5)]); (None, [("sample_idx", 1); ("img_path", 6)])] _ eq_refl).
  inversion H as [|a b m m' _ H2]; subst. inversion H2 as [|a b m m' H3 _]; subst. specialize (H3 "img_path" ltac:(discriminate)). discriminate H3.
Qed.
Lemma meta_fold {V} (results : list (string * V)) : forall ks m k,
  get (fold_left (fun m k => match get results k with Some v => put m k v | None => m end) ks m) k = if existsb (String.eqb k) ks then match get results k with Some v => Some v | None => get m k end else get m k.
Proof.
  induction ks as [|a ks IH]; intros m k; cbn [fold_left existsb]; [reflexivity|]. rewrite IH. destruct (String.eqb_spec k a) as [->|N]; cbn [orb].
  - destruct (get results a) as [v|] eqn:E.
    + rewrite get_put, String.eqb_refl. destruct (existsb _ ks); reflexivity.
    + destruct (existsb _ ks); reflexivity.
  - destruct (get results a) as [v|]; [|reflexivity]. rewrite get_put. destruct (String.eqb_spec a k) as [->|]; [congruence|]. reflexivity.
Qed.
Lemma pack_meta {V} st img (results : list (string * V)) x : pack st img results = Ok x -> has_meta (items st) results (snd x).
Proof.
  unfold pack. intros H. destruct (match img with Some _ => _ | None => _ end) as [inp|]; [|discriminate H]. cbn [bind] in H. destruct (existsb _ _) in H; [discriminate H|]. apply Ok_inj in H. subst x. intros k NK. cbn [snd metainfo]. rewrite meta_fold. cbn [get].
  assert (E : existsb (String.eqb k) (items (if has results "sample_idx" then Gen (filter (fun k => negb (String.eqb k "sample_idx")) (items st)) else st)) = existsb (String.eqb k) (items st)).
  { destruct (has results "sample_idx"); [|reflexivity]. cbn [items]. induction (items st) as [|a l IH]; [reflexivity|]. cbn [filter existsb]. destruct (String.eqb_spec a "sample_idx") as [->|]; cbn [negb existsb].
    - rewrite IH. destruct (String.eqb_spec k "sample_idx"); [contradiction|reflexivity].
    - rewrite IH. reflexivity. }
  rewrite E. destruct (existsb _ (items st)); [|reflexivity]. destruct (get results k); reflexivity.
Qed.
(** Up to and including the first sample with an index, and in all later ones nothing. *)
Theorem C205_first_partial : forall (V : Type) l (samples : list (option (array V) * list (string * V))) ps, pack_all (Tuple l) samples = Ok ps ->
  forall i s p, nth_error samples i = Some s -> nth_error ps i = Some p ->
  if existsb (fun s => has (snd s) "sample_idx") (firstn i samples) then metainfo p = [] else has_meta l (snd s) p.
Proof.
  intros V l. assert (G : forall samples ps, pack_all (Gen []) samples = Ok ps -> forall i s p, nth_error samples i = Some s -> nth_error ps i = Some p -> @metainfo V p = []).
  { induction samples as [|[img r] rest IH]; intros ps H i s p S P; [destruct i; discriminate S|]. cbn [pack_all] in H. destruct (pack (Gen []) img r) as [x|] eqn:X; [|discriminate H]. cbn [bind] in H. destruct (pack_all (fst x) rest) as [ps'|] eqn:R; [|discriminate H]. cbn [bind] in H. apply Ok_inj in H. subst ps.
    assert (E : fst x = Gen [] /\ metainfo (snd x) = []). { unfold pack in X. destruct (match img with Some _ => _ | None => _ end) as [inp|]; [|discriminate X]. cbn [bind items filter] in X. destruct (has r "sample_idx"); cbn [items fold_left existsb] in X; apply Ok_inj in X; subst x; split; reflexivity. }
    destruct E as [E1 E2]. rewrite E1 in R. destruct i as [|i]; [injection P as <-; exact E2|]. exact (IH _ R _ _ _ S P). }
  induction samples as [|[img r] rest IH]; intros ps H i s p S P; [destruct i; discriminate S|]. cbn [pack_all] in H. destruct (pack (Tuple l) img r) as [x|] eqn:X; [|discriminate H]. cbn [bind] in H. destruct (pack_all (fst x) rest) as [ps'|] eqn:R; [|discriminate H]. cbn [bind] in H. apply Ok_inj in H. subst ps.
  destruct i as [|i]; cbn [firstn existsb nth_error] in *.
  - injection S as <-. injection P as <-. exact (pack_meta _ _ _ _ X).
  - cbn [snd]. assert (E : fst x = if has r "sample_idx" then Gen [] else Tuple l). { unfold pack in X. destruct (match img with Some _ => _ | None => _ end) as [inp|]; [|discriminate X]. cbn [bind] in X. destruct (existsb _ _) in X; [discriminate X|]. apply Ok_inj in X. subst x. cbn [fst]. destruct (has r "sample_idx"); reflexivity. }
    rewrite E in R. destruct (has r "sample_idx"); cbn [orb]; [exact (G _ _ R _ _ _ S P)|]. exact (IH _ R _ _ _ S P).
Qed.
(** Channels come first; a grey image has one channel; the labels and indices are those of the results. *)
Theorem C205_inputs : forall (V : Type) st (a : array V) results x, pack st (Some a) results = Ok x -> exists h w c t, (fst a = [h; w; c] \/ fst a = [h; w] /\ c = 1%nat) /\
  inputs (snd x) = Some ([c; h; w], t) /\ forall i j k, t [k; i; j] = snd a (if (length (fst a) =? 3)%nat then [i; j; k] else [i; j]).
Proof.
  intros V st [sh d] results x H. unfold pack in H. destruct (to_inputs (sh, d)) as [inp|] eqn:E; [|discriminate H]. cbn [bind] in H. destruct (existsb _ _) in H; [discriminate H|]. apply Ok_inj in H. subst x. cbn [snd inputs fst].
  unfold to_inputs in E. cbn [fst snd] in E. destruct sh as [|s0 [|s1 [|s2 [|s3 sh]]]]; cbn in E; try discriminate E; apply Ok_inj in E; subst inp.
  - exists s0, s1, 1%nat. eexists. split; [right; split; reflexivity|]. split; [reflexivity|]. reflexivity.
  - exists s0, s1, s2. eexists. split; [left; reflexivity|]. split; [reflexivity|]. reflexivity.
Qed.
Lemma flat_get {V} (results : list (string * V)) k : forall ks, get (flat_map (fun k => match get results k with Some v => [(k, v)] | None => [] end) ks) k = if existsb (String.eqb k) ks then get results k else None.
Proof.
  induction ks as [|a ks IH]; [reflexivity|]. cbn [flat_map existsb]. destruct (String.eqb_spec k a) as [->|N]; cbn [orb].
  - destruct (get results a) as [v|] eqn:E; cbn [app get]; [rewrite String.eqb_refl; reflexivity|]. rewrite IH. destruct (existsb _ _); try exact E; reflexivity.
  - destruct (get results a) as [v|] eqn:E; cbn [app get]; [|exact IH]. destruct (String.eqb_spec a k); [congruence|exact IH].
Qed.
Theorem C205_data : forall (V : Type) st img (results : list (string * V)) x, pack st img results = Ok x -> forall k, get (data (snd x)) k = if existsb (String.eqb k) ["gt_label"; "sample_idx"; "contrast_sample_idxs"] then get results k else None.
Proof.
  intros V st img results x H k. unfold pack in H. destruct (match img with Some _ => _ | None => _ end) as [inp|]; [|discriminate H]. cbn [bind] in H. destruct (existsb _ _) in H; [discriminate H|]. apply Ok_inj in H. subst x. cbn [snd data]. apply flat_get.
Qed.
Example C205_example : exists p, pack_all (Tuple ["img_path"; "sample_idx"]) [(Some ([2; 3]%nat, fun i => Z.of_nat (nth 0 i 0%nat * 10 + nth 1 i 0%nat)), [("sample_idx", 4); ("img_path", 5); ("gt_label", 1)])] = Ok [p] /\
  metainfo p = [("img_path", 5)] /\ data p = [("gt_label", 1); ("sample_idx", 4)] /\ exists t, inputs p = Some ([1; 2; 3]%nat, t) /\ t [0; 1; 2]%nat = 12.
Proof. eexists. split; [reflexivity|]. split; [reflexivity|]. split; [reflexivity|]. eexists. split; reflexivity. Qed.

Print Assumptions C202_range.
Print Assumptions C202_range2.
Print Assumptions C202_reached.
Print Assumptions C202_sensible.
Print Assumptions C203_ignored_refuted.
Print Assumptions C203_translate_refuted.
Print Assumptions C203_obeys_partial.
Print Assumptions C204_fields.
Print Assumptions C204_fields2.
Print Assumptions C204_total.
Print Assumptions C204_policies.
Print Assumptions C205_second_refuted.
Print Assumptions C205_first_partial.
Print Assumptions C205_inputs.
Print Assumptions C205_data.

(** Relative translations are of the width along x and of the height along y. *)
Theorem C198_relative : forall (F : Type) w h mode a (k : kw F), exists mx my, run FTranslateXRel (w, h) mode a k = CAffine mx k /\ run FTranslateYRel (w, h) mode a k = CAffine my k /\
  mx = (1, 0, a * inject_Z w, 0, 1, 0)%Q /\ my = (1, 0, 0, 0, 1, a * inject_Z h)%Q.
Proof. intros. do 2 eexists. repeat split. Qed.
(** The operations of a sub-policy act one after the other. *)
Theorem C204_sequence : forall (F Img : Type) (pil : call F -> Img -> Img) size mode fields a b imgs,
  sub_policy pil size mode fields (a ++ b) imgs = (do imgs' <- sub_policy pil size mode fields a imgs; sub_policy pil size mode fields b imgs').
Proof.
  intros F Img pil size mode fields a. induction a as [| [[o u] pick] a IH]; intros b imgs; [reflexivity |]. cbn [app sub_policy]. destruct (transform1 pil size mode fields u pick o imgs); [cbn [bind]; apply IH | reflexivity].
Qed.
Theorem C204_unknown : forall (F : Type) (FILL : F) policies ex draw e, augment_init FILL policies ex draw = Raise e -> e = KeyError.
Proof.
  intros F FILL policies ex draw e H. destruct (string_dec policies "original") as [-> | N1]; [| destruct (string_dec policies "v0") as [-> | N2]].
  - destruct (proj2 (C204_policies F FILL "original" ex draw) (or_introl eq_refl)) as [ops [E _]]. congruence.
  - destruct (proj2 (C204_policies F FILL "v0" ex draw) (or_intror eq_refl)) as [ops [E _]]. congruence.
  - unfold augment_init in H. assert (G : get auto_augment_policy policies = None); [| rewrite G in H; congruence].
    unfold auto_augment_policy. cbn [get]. rewrite ?(proj2 (String.eqb_neq _ _) N1), ?(proj2 (String.eqb_neq _ _) N2), ?(proj2 (String.eqb_neq _ _) (fun e => N1 (eq_sym e))), ?(proj2 (String.eqb_neq _ _) (fun e => N2 (eq_sym e))). reflexivity.
Qed.
Print Assumptions C198_relative.
Print Assumptions C204_sequence.
Print Assumptions C204_unknown.
