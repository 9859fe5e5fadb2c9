(** DynamicSequential (C150) and DynamicPatchEmbed (C151). *)
From Coq Require Import List ZArith Bool String Lia.
From Verif Require Import Prelude Onnx_Model Attention_Model TransOps_Model TransOps_Props.
From Verif Require Dynamic_Model Attention2_Props.
Import ListNotations.
Local Open Scope string_scope.
Local Open Scope list_scope.
Local Open Scope nat_scope.

(** * C150 *)
Section Sequential.
  Variable X : Type.
  Notation seq_ := (dseq X).
  (** The children that compute something, and running modules one after the other. *)
  Definition computing (s : seq_) : list (child X) := filter (fun m => negb (ch_ignored X m)) (q_children X s).
  Definition pipeline (ms : list (child X)) (x : X) : outcome X := fold_left (fun o m => do y <- o; ch_forward X m y) ms (Ok x).

  Lemma pipeline_raise ms e : fold_left (fun o m => do y <- o; ch_forward X m y) ms (Raise e) = Raise e.
  Proof. induction ms as [|m ms IH]; cbn [fold_left bind]; [reflexivity|exact IH]. Qed.
  Lemma run_all_spec ms : forall x, run_all X ms x = pipeline ms x.
  Proof.
    unfold pipeline. induction ms as [|m ms IH]; intros x; cbn [run_all fold_left bind]; [reflexivity|].
    destruct (ch_forward X m x) as [y|e]; cbn [bind]; [apply IH|]. symmetry. apply pipeline_raise.
  Qed.
  Lemma pure_spec s : pure_modules X s = computing s.
  Proof. unfold pure_modules, modules, computing. rewrite filter_app. cbn. apply app_nil_r. Qed.
  Lemma until_spec ms : forall z p x, run_until X z p ms x = run_all X (firstn (Z.to_nat (z - p)) ms) x.
  Proof.
    induction ms as [|m ms IH]; intros z p x; cbn [run_until]; [rewrite firstn_nil; reflexivity|].
    destruct (Z.ltb_spec z (p + 1)).
    - replace (Z.to_nat (z - p)) with O by lia. reflexivity.
    - replace (Z.to_nat (z - p)) with (S (Z.to_nat (z - (p + 1)))) by lia. cbn [firstn run_all]. destruct (ch_forward X m x); cbn [bind]; [apply IH|reflexivity].
  Qed.
  Lemma collect_spec ms : forall z p, collect X z p ms = firstn (Z.to_nat (z - p)) (filter (fun m => negb (ch_ignored X m)) ms).
  Proof.
    induction ms as [|m ms IH]; intros z p; cbn [collect filter]; [rewrite firstn_nil; reflexivity|].
    destruct (ch_ignored X m); cbn [negb]; [apply IH|]. destruct (Z.ltb_spec z (p + 1)).
    - replace (Z.to_nat (z - p)) with O by lia. reflexivity.
    - replace (Z.to_nat (z - p)) with (S (Z.to_nat (z - (p + 1)))) by lia. cbn [firstn]. f_equal. apply IH.
  Qed.

  (** Forward runs the first [depth] computing children. *)
Theorem C150_forward s d z x : q_depth X s = Some d -> dp_choice d = Some z ->
    seq_forward X s x = pipeline (firstn (Z.to_nat z) (computing s)) x.
  Proof. intros E C. unfold seq_forward, current. rewrite E. cbn [get_attr bind]. rewrite C. cbn [bind]. rewrite until_spec, run_all_spec, pure_spec, Z.sub_0_r. reflexivity. Qed.
  (** Export works exactly with a fixed depth whose choice is set, and gives these children; they compute the same. *)
Theorem C150_export s ms : seq_to_static X s = Ok ms <->
    exists d z, q_depth X s = Some d /\ dp_choice d = Some z /\ Attention2_Props.unblocked (dp_state d) /\ ms = firstn (Z.to_nat z) (computing s).
  Proof.
    unfold seq_to_static. destruct (q_depth X s) as [d|] eqn:E.
    - unfold Dynamic_Model.check_if_mutables_fixed. cbn [forallb]. unfold Attention2_Props.unblocked. unfold current.
      assert (C : forall z, collect X z 0 (modules X s) = firstn (Z.to_nat z) (computing s)).
      { intros z. rewrite collect_spec, Z.sub_0_r. f_equal. apply pure_spec. }
      destruct (dp_state d) as [k f] eqn:Es. cbn [fst snd].
      split.
      + intros H. destruct (_ && true) eqn:B; cbn [bind get_attr] in H; [|discriminate]. destruct (dp_choice d) as [z|] eqn:Ez; cbn [bind] in H; [|discriminate]. apply Ok_inj in H.
        exists d, z. rewrite Es. cbn [fst snd]. repeat split; auto; [|congruence]. intros ->. rewrite andb_true_r in B. exact B.
      + intros (d' & z & H1 & H2 & H3 & ->). injection H1 as <-. rewrite Es in H3. cbn [fst snd] in H3.
        assert (B : (match k with Dynamic_Model.Other => f | _ => true end) = true) by (destruct k; auto). rewrite B. cbn [andb bind get_attr]. rewrite H2. cbn [bind]. rewrite C. reflexivity.
    - cbn. split; [discriminate|]. intros (d & z & H & _). discriminate.
  Qed.
Theorem C150_same s ms x : seq_to_static X s = Ok ms -> run_all X ms x = seq_forward X s x.
  Proof. intros H. apply C150_export in H as (d & z & E & C & _ & ->). rewrite run_all_spec. symmetry. apply (C150_forward s d z x E C). Qed.
  (** A depth is accepted exactly if its choice is at most one more than the number of children. *)
Theorem C150_register_partial s attr d : (exists s', seq_register X attr d s = Ok s') <->
    attr = "depth" /\ exists z, dp_choice d = Some z /\ (z <= Z.of_nat (length (q_children X s)) + 1)%Z.
  Proof.
    unfold seq_register, modules. rewrite app_length. cbn [length]. destruct (String.eqb_spec attr "depth") as [->|N].
    - destruct (dp_choice d) as [z|].
      + destruct (Z.ltb_spec (Z.of_nat (length (q_children X s) + 1)) z); split.
        * intros [s' K]. discriminate.
        * intros (_ & z' & K & L). injection K as <-. lia.
        * intros _. split; [reflexivity|]. exists z. split; [reflexivity|lia].
        * eauto.
      + split; [intros [s' K]; discriminate|intros (_ & z & K & _); discriminate].
    - split; [intros [s' K]; discriminate|intros [K _]; contradiction].
  Qed.
  (** The full claim: accepted exactly if there are that many children. *)
  Definition C150_register_claim : Prop := forall s attr d, (exists s', seq_register X attr d s = Ok s') <->
    attr = "depth" /\ exists z, dp_choice d = Some z /\ (z <= Z.of_nat (length (q_children X s)))%Z.
Theorem C150_register_refuted : ~ C150_register_claim.
  Proof.
    intros H. destruct (H {| q_children := []; q_depth := None |} "depth" {| dp_choice := Some 1%Z; dp_state := (Dynamic_Model.Other, true) |}) as [K _].
    destruct K as (_ & z & E & L); [eexists; reflexivity|]. injection E as <-. cbn in L. lia.
  Qed.
  (** A container with nothing registered computes what Sequential computes. *)
  Definition C150_bare_claim : Prop := forall ms x, seq_forward X {| q_children := ms; q_depth := None |} x = run_all X ms x.
Theorem C150_bare_refuted (x : X) : ~ C150_bare_claim.
  Proof. intros H. specialize (H [] x). discriminate. Qed.
End Sequential.

Definition step_ (n : nat) : child (list nat) := {| ch_ignored := false; ch_forward := fun x => match x with [] => Raise ValueError | _ => Ok (x ++ [n]) end |}.
Definition ignored_ : child (list nat) := {| ch_ignored := true; ch_forward := fun x => Raise ValueError |}.
Definition demo_seq (z : Z) : dseq (list nat) :=
  {| q_children := [step_ 1; ignored_; step_ 2; step_ 3]; q_depth := Some {| dp_choice := Some z; dp_state := (Dynamic_Model.Other, true) |} |}.
Example C150_example : seq_forward _ (demo_seq 2) [5] = Ok [5; 1; 2] /\ seq_to_static _ (demo_seq 2) = Ok [step_ 1; step_ 2] /\
  seq_forward _ (demo_seq 9) [5] = Ok [5; 1; 2; 3] /\ seq_forward _ (demo_seq 2) [] = Raise ValueError.
Proof. repeat split. Qed.
Example C150_example_register : seq_register _ "depth" {| dp_choice := Some 5%Z; dp_state := (Dynamic_Model.Other, true) |} (demo_seq 2) = Ok (demo_seq 5) /\
  seq_register _ "depth" {| dp_choice := Some 6%Z; dp_state := (Dynamic_Model.Other, true) |} (demo_seq 2) = Raise ValueError.
Proof. split; reflexivity. Qed.

(** * C151 *)
Section PatchEmbed.
  Variable A : Type.
  Variables (zero : A) (add mul : A -> A -> A).
  Notation weight := (Dynamic_Model.weight A).
  Notation image := (Dynamic_Model.image A).
  Notation conv2d := (Dynamic_Model.conv2d A zero add mul).
  Notation forward := (dpatch_forward A zero add mul).
  Notation static := (patch_forward A zero add mul).

  (** The same embedding with nothing registered and without the normalisation. *)
  Definition bare (d : dpatch A) : dpatch A :=
    {| dp_patch := {| p_geom := p_geom A (dp_patch A d); p_weight := p_weight A (dp_patch A d); p_bias := p_bias A (dp_patch A d); p_norm := None |}; dp_mut := None |}.
  Definition normed (d : dpatch A) (t : list (list A)) : list (list A) := match p_norm A (dp_patch A d) with Some f => f t | None => t end.
  (** The mask and the bias have an entry for each filter. *)
  Definition fitting (d : dpatch A) (c : channels) : Prop :=
    dp_mut A d = Some c /\ length (c_mask c) = length (Dynamic_Model.w_rows A (p_weight A (dp_patch A d))) /\
    match p_bias A (dp_patch A d) with Some b => length b = length (Dynamic_Model.w_rows A (p_weight A (dp_patch A d))) | None => True end.

  Lemma kept_map {S T} (f : S -> T) m : forall l, kept m (map f l) = map f (kept m l).
  Proof. unfold kept. induction m as [|[] m IH]; intros [|x l]; cbn [map combine filter fst snd]; try reflexivity; [|apply IH]. rewrite IH. reflexivity. Qed.
  Lemma kept_combine {S T} m : forall (l : list S) (k : list T), length l = length k -> kept m (combine l k) = combine (kept m l) (kept m k).
  Proof.
    unfold kept. induction m as [|[] m IH]; intros [|x l] [|y k] H; cbn [combine filter fst snd map length] in *; try discriminate; try reflexivity; [rewrite IH by lia; reflexivity|apply IH; lia].
  Qed.
  Lemma kept_in {T} m : forall (l : list T) x, In x (kept m l) -> In x l.
  Proof.
    unfold kept. induction m as [|[] m IH]; intros [|y l] x H; cbn [combine filter fst snd map] in H; try contradiction; [destruct H as [->|H]; [left; reflexivity|]|]; right; apply IH; exact H.
  Qed.
  (** A convolution without groups, channel by channel. *)
  Lemma conv2d_one g W bias h w x : match bias with Some b => length b = length (Dynamic_Model.w_rows A W) | None => True end ->
    conv2d g 1 W bias h w x =
    if (length (Dynamic_Model.w_rows A W) =? 0) || negb (length x =? Dynamic_Model.w_in A W) ||
       (h + 2 * Dynamic_Model.g_pad g <? Dynamic_Model.g_dil g * (Dynamic_Model.w_k A W - 1) + 1)%Z || (w + 2 * Dynamic_Model.g_pad g <? Dynamic_Model.g_dil g * (Dynamic_Model.w_k A W - 1) + 1)%Z
    then Raise RuntimeError
    else Ok (map (fun rb => Dynamic_Model.out_channel A zero add mul g (Dynamic_Model.w_k A W) h w rb x) (Dynamic_Model.with_bias A bias (Dynamic_Model.w_rows A W))).
  Proof.
    intros Hb. unfold Dynamic_Model.conv2d. rewrite Nat.mod_1_r, Nat.mul_1_r, Nat.div_1_r.
    assert (B : (match bias with Some b => negb (length b =? length (Dynamic_Model.w_rows A W)) | None => false end) = false) by (destruct bias; [rewrite Hb, Nat.eqb_refl|]; reflexivity).
    rewrite B. cbn [Nat.eqb negb orb]. rewrite !orb_false_r.
    replace (length (Dynamic_Model.w_rows A W) <? 1) with (length (Dynamic_Model.w_rows A W) =? 0) by (destruct (length (Dynamic_Model.w_rows A W)) as [|[|]]; reflexivity).
    destruct (length x =? Dynamic_Model.w_in A W) eqn:Ex; [|destruct (length _ =? 0); reflexivity].
    apply Nat.eqb_eq in Ex. match goal with |- (if ?c then _ else _) = _ => destruct c; [reflexivity|] end. f_equal.
    cbn [Dynamic_Model.chunks combine map concat fst snd]. rewrite app_nil_r. rewrite <- Ex, firstn_all. f_equal.
    assert (L : length (Dynamic_Model.with_bias A bias (Dynamic_Model.w_rows A W)) = length (Dynamic_Model.w_rows A W)).
    { unfold Dynamic_Model.with_bias. destruct bias; [rewrite combine_length, map_length, Hb; apply Nat.min_id|apply map_length]. }
    rewrite <- L, firstn_all. reflexivity.
  Qed.
  Lemma tokens_kept m (planes : list image) n : (forall p, In p planes -> length (concat p) = n) -> kept m planes <> [] ->
    tokens A zero (kept m planes) = map (kept m) (tokens A zero planes).
  Proof.
    intros H N. unfold tokens. assert (L : forall l, l <> [] -> (forall p, In p l -> In p planes) -> match map (fun p : image => concat p) l with c :: _ => length c | [] => 0 end = n).
    { intros [|p l] Hl K; [congruence|]. cbn [map]. apply H, K. left. reflexivity. }
    rewrite L; [|exact N|intros p; apply kept_in]. rewrite L; [|intros ->; apply N; unfold kept; destruct m; reflexivity|auto].
    rewrite map_map. apply map_ext. intros i. rewrite !kept_map. reflexivity.
  Qed.
  Lemma plane_size g k h w rb x : length (concat (Dynamic_Model.out_channel A zero add mul g k h w rb x)) =
    Z.to_nat (Dynamic_Model.out_size g k h) * Z.to_nat (Dynamic_Model.out_size g k w).
  Proof.
    unfold Dynamic_Model.out_channel. rewrite <- (seq_length (Z.to_nat (Dynamic_Model.out_size g k h)) 0) at 2.
    generalize (seq 0 (Z.to_nat (Dynamic_Model.out_size g k h))) as us. intros us.
    induction us as [|u us IH]; cbn [map concat length]; [reflexivity|]. rewrite app_length, IH, map_length, seq_length. reflexivity.
  Qed.
  Lemma params_kept d c : fitting d c -> patch_params A d = Ok (
    {| Dynamic_Model.w_in := Dynamic_Model.w_in A (p_weight A (dp_patch A d)); Dynamic_Model.w_k := Dynamic_Model.w_k A (p_weight A (dp_patch A d));
       Dynamic_Model.w_rows := kept (c_mask c) (Dynamic_Model.w_rows A (p_weight A (dp_patch A d))) |},
    match p_bias A (dp_patch A d) with Some b => Some (kept (c_mask c) b) | None => None end).
  Proof.
    intros (E & L & B). unfold patch_params. rewrite E. unfold Dynamic_Model.mask_index. rewrite L, Nat.eqb_refl. cbn [bind].
    destruct (p_bias A (dp_patch A d)) as [b|]; [rewrite B, Nat.eqb_refl|]; cbn [bind]; rewrite ?sel_kept; reflexivity.
  Qed.

  (** The tokens are the pixels in row order, each with its entries of all channels. *)
Theorem C151_tokens (planes : list image) n : planes <> [] -> (forall p, In p planes -> length (concat p) = n) ->
    length (tokens A zero planes) = n /\
    forall i k, i < n -> k < length planes -> nth k (nth i (tokens A zero planes) []) zero = nth i (concat (nth k planes [])) zero.
  Proof.
    intros N H. unfold tokens. cbv zeta.
    match goal with |- context [seq 0 ?m] => assert (E : m = n) by (destruct planes as [|p r]; [contradiction|apply H; left; reflexivity]) end.
    rewrite E. split; [rewrite map_length; apply seq_length|]. intros i k Hi Hk.
    rewrite (nth_indep _ [] ((fun i => map (fun c => nth i c zero) (map (fun p : image => concat p) planes)) 0)) by (rewrite map_length, seq_length; exact Hi).
    rewrite (map_nth (fun i => map (fun c => nth i c zero) (map (fun p : image => concat p) planes))). rewrite seq_nth by exact Hi. cbn [Nat.add].
    rewrite map_map. rewrite (nth_indep _ zero ((fun p : image => nth i (concat p) zero) [])) by (rewrite map_length; exact Hk).
    rewrite (map_nth (fun p : image => nth i (concat p) zero)). reflexivity.
  Qed.
  (** With a mutable, every token has the selected entries of the token of the whole embedding, then normalised. *)
Theorem C151_forward d c h w x : fitting d c -> activated c <> 0 ->
    forward d h w x = do t <- forward (bare d) h w x; Ok (normed d (map (kept (c_mask c)) t)).
  Proof.
    intros F N. pose proof (params_kept d c F) as P. destruct F as (E & L & B). unfold dpatch_forward. rewrite P. cbn [bind]. unfold patch_params, bare. cbn [dp_mut dp_patch p_geom p_weight p_bias p_norm bind].
    set (W := p_weight A (dp_patch A d)) in *. set (bias := p_bias A (dp_patch A d)) in *. set (g := {| Dynamic_Model.g_stride := 16 |}).
    pose proof (kept_length (c_mask c) (Dynamic_Model.w_rows A W) L) as LK.
    rewrite conv2d_one; [|destruct bias as [b|]; [cbn [Dynamic_Model.w_rows]; rewrite LK, kept_length by congruence; reflexivity|exact I]].
    rewrite conv2d_one; [|destruct bias; auto]. cbn [Dynamic_Model.w_rows Dynamic_Model.w_in Dynamic_Model.w_k]. rewrite LK. unfold activated in N.
    assert (Z0 : (count_true (c_mask c) =? 0) = false) by (apply Nat.eqb_neq; exact N). rewrite Z0.
    assert (Z1 : (length (Dynamic_Model.w_rows A W) =? 0) = false).
    { apply Nat.eqb_neq. rewrite <- L. intros K. apply length_zero_iff_nil in K. rewrite K in N. apply N. reflexivity. }
    rewrite Z1. cbn [orb]. match goal with |- context [if ?c then _ else _] => destruct c; [reflexivity|] end. cbn [bind]. f_equal. unfold finish, normed.
    assert (K : map (fun rb => Dynamic_Model.out_channel A zero add mul g (Dynamic_Model.w_k A W) h w rb x) (Dynamic_Model.with_bias A (match bias with Some b => Some (kept (c_mask c) b) | None => None end) (kept (c_mask c) (Dynamic_Model.w_rows A W))) =
                kept (c_mask c) (map (fun rb => Dynamic_Model.out_channel A zero add mul g (Dynamic_Model.w_k A W) h w rb x) (Dynamic_Model.with_bias A bias (Dynamic_Model.w_rows A W)))).
    { rewrite kept_map. f_equal. unfold Dynamic_Model.with_bias. destruct bias as [b|]; [|symmetry; apply kept_map]. rewrite kept_combine by (rewrite map_length; congruence). rewrite kept_map. reflexivity. }
    rewrite K. rewrite (tokens_kept _ _ (Z.to_nat (Dynamic_Model.out_size g (Dynamic_Model.w_k A W) h) * Z.to_nat (Dynamic_Model.out_size g (Dynamic_Model.w_k A W) w))).
    - reflexivity.
    - intros p Hp. apply in_map_iff in Hp as (rb & <- & _). apply plane_size.
    - intros K0. apply N. apply (f_equal (@length _)) in K0. rewrite kept_length in K0; [exact K0|]. rewrite map_length. unfold Dynamic_Model.with_bias.
      destruct bias; [rewrite combine_length, map_length, B, Nat.min_id|rewrite map_length]; exact L.
  Qed.
  (** Export works exactly with a fixed mutable and a bias. *)
Theorem C151_exports d : match dp_mut A d with Some c => fitting d c | None => True end ->
    ((exists p, dpatch_to_static A d = Ok p) <-> exists c, dp_mut A d = Some c /\ Attention2_Props.unblocked (c_state c) /\ p_bias A (dp_patch A d) <> None).
  Proof.
    intros F. unfold dpatch_to_static. destruct (dp_mut A d) as [c|] eqn:E.
    - rewrite (params_kept d c F). unfold Dynamic_Model.check_if_mutables_fixed. cbn [forallb]. unfold Attention2_Props.unblocked. destruct (c_state c) as [k f] eqn:Es. cbn [fst snd]. split.
      + intros [p H]. exists c. rewrite Es. cbn [fst snd]. destruct (_ && true) eqn:B; cbn [bind get_attr] in H; [|discriminate]. split; [reflexivity|]. split.
        * intros ->. rewrite andb_true_r in B. exact B.
        * destruct (p_bias A (dp_patch A d)); discriminate.
      + intros (c' & H & U & B). injection H as <-. rewrite Es in U. cbn [fst snd] in U.
        assert (B0 : (match k with Dynamic_Model.Other => f | _ => true end) = true) by (destruct k; auto). rewrite B0. cbn [andb bind get_attr].
        destruct (p_bias A (dp_patch A d)); [eauto|congruence].
    - cbn. split; [intros [p H]; discriminate|intros (c & H & _); discriminate].
  Qed.
  (** Without normalisation, padding and dilation the export computes the same. *)
Theorem C151_same_partial d p h w x : p_norm A (dp_patch A d) = None -> Dynamic_Model.g_pad (p_geom A (dp_patch A d)) = 0%Z -> Dynamic_Model.g_dil (p_geom A (dp_patch A d)) = 1%Z ->
    dpatch_to_static A d = Ok p -> static p h w x = forward d h w x.
  Proof.
    intros Nn Pp Dd E. unfold dpatch_to_static in E. unfold dpatch_forward, patch_forward.
    destruct (Dynamic_Model.check_if_mutables_fixed _); cbn [bind] in E; [|discriminate]. destruct (dp_mut A d); cbn [get_attr bind] in E; [|discriminate].
    destruct (patch_params A d) as [[wt bias]|]; cbn [bind] in E; [|discriminate]. destruct bias as [b|]; [|discriminate]. apply Ok_inj in E. subst p.
    cbn [bind p_geom p_weight p_bias p_norm]. rewrite Nn, Pp, Dd. reflexivity.
  Qed.
  (** A converted embedding computes the same if its stride is 16. *)
Theorem C151_convert_partial p h w x : Dynamic_Model.g_stride (p_geom A p) = 16%Z -> forward (dpatch_convert A p) h w x = static p h w x.
  Proof. intros S0. unfold dpatch_forward, patch_forward, dpatch_convert, patch_params. cbn [dp_mut dp_patch bind]. rewrite <- S0. destruct (p_geom A p). reflexivity. Qed.
End PatchEmbed.

(** One pixel per patch (kernels of size 1), 3 filters, images of one row and of one channel. *)
Definition demo_weight : Dynamic_Model.weight Z := {| Dynamic_Model.w_in := 1; Dynamic_Model.w_k := 1; Dynamic_Model.w_rows := [[[[1]]]; [[[2]]]; [[[3]]]]%Z |}.
Definition demo_geom (s p d : Z) : Dynamic_Model.geom := {| Dynamic_Model.g_stride := s; Dynamic_Model.g_pad := p; Dynamic_Model.g_dil := d |}.
Definition demo_patch (s p : Z) (norm : option (list (list Z) -> list (list Z))) (bias : option (list Z)) : dpatch Z :=
  {| dp_patch := {| p_geom := demo_geom s p 1; p_weight := demo_weight; p_bias := bias; p_norm := norm |};
     dp_mut := Some {| c_mask := [true; false; true]; c_state := (Dynamic_Model.Derived, false) |} |}.
Definition demo_image : list (Dynamic_Model.image Z) := [[[5; 6; 7; 8; 9; 10; 11; 12; 13; 14; 15; 16; 17; 18; 19; 20; 21]]]%Z.
Notation demo_forward d := (dpatch_forward Z 0%Z Z.add Z.mul d 1 17 demo_image).
Notation demo_static p := (patch_forward Z 0%Z Z.add Z.mul p 1 17 demo_image).
Example C151_example : demo_forward (demo_patch 16 0 None (Some [100; 200; 300]%Z)) = Ok [[105; 315]; [121; 363]]%Z /\
  fitting Z (demo_patch 16 0 None (Some [100; 200; 300]%Z)) {| c_mask := [true; false; true]; c_state := (Dynamic_Model.Derived, false) |} /\
  (exists p, dpatch_to_static Z (demo_patch 16 0 None (Some [100; 200; 300]%Z)) = Ok p /\ demo_static p = Ok [[105; 315]; [121; 363]]%Z).
Proof. split; [reflexivity|]. split; [repeat split|]. eexists. split; reflexivity. Qed.

(** The export computes the same. *)
Definition C151_same_claim : Prop := forall d p, fitting Z d {| c_mask := [true; false; true]; c_state := (Dynamic_Model.Derived, false) |} ->
  dpatch_to_static Z d = Ok p -> demo_static p = demo_forward d.
(** The normalisation is lost ... *)
Theorem C151_norm_refuted : ~ C151_same_claim.
Proof. intros H. specialize (H (demo_patch 16 0 (Some (map (map Z.opp))) (Some [100; 200; 300]%Z)) _ (conj eq_refl (conj eq_refl eq_refl)) eq_refl). discriminate H. Qed.
(** ... and so is padding. *)
Theorem C151_padding_refuted : ~ (forall d p, p_norm Z (dp_patch Z d) = None -> fitting Z d {| c_mask := [true; false; true]; c_state := (Dynamic_Model.Derived, false) |} ->
  dpatch_to_static Z d = Ok p -> demo_static p = demo_forward d).
Proof. intros H. specialize (H (demo_patch 16 1 None (Some [100; 200; 300]%Z)) _ eq_refl (conj eq_refl (conj eq_refl eq_refl)) eq_refl). discriminate H. Qed.
(** Every embedding with a fixed mutable can be exported. *)
Theorem C151_bias_refuted : ~ (forall d, fitting Z d {| c_mask := [true; false; true]; c_state := (Dynamic_Model.Derived, false) |} -> exists p, dpatch_to_static Z d = Ok p).
Proof. intros H. destruct (H (demo_patch 16 0 None None) (conj eq_refl (conj eq_refl Logic.I))) as [p E]. discriminate E. Qed.
(** A converted embedding computes the same. *)
Definition C151_convert_claim : Prop := forall p, demo_forward (dpatch_convert Z p) = demo_static p.
Theorem C151_convert_refuted : ~ C151_convert_claim.
Proof. intros H. specialize (H (dp_patch Z (demo_patch 8 0 None (Some [100; 200; 300]%Z)))). discriminate H. Qed.

Print Assumptions C150_forward.
Print Assumptions C150_export.
Print Assumptions C150_same.
Print Assumptions C150_register_partial.
Print Assumptions C150_register_refuted.
Print Assumptions C150_bare_refuted.
Print Assumptions C151_forward.
Print Assumptions C151_exports.
Print Assumptions C151_same_partial.
Print Assumptions C151_convert_partial.
Print Assumptions C151_norm_refuted.
Print Assumptions C151_padding_refuted.
Print Assumptions C151_bias_refuted.
Print Assumptions C151_convert_refuted.
