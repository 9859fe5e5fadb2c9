(** C223: input resizers.  C224: the pooling neck.  C225: generators.  C226: pseudo losses. *)
From Coq Require Import String QArith Qround.
From Verif Require Import Prelude Onnx_Model Onnx_Lemmas Parts_Model.
Local Open Scope string_scope.
Local Open Scope list_scope.
Local Open Scope Z_scope.

(** ** C223 *)
(** The number of spatial dimensions each interpolation that works is for. *)
Definition spatial_dims (mode : string) : option nat :=
  if String.eqb mode "linear" then Some 1%nat else if String.eqb mode "bilinear" then Some 2%nat else if String.eqb mode "bicubic" then Some 2%nat
  else if String.eqb mode "trilinear" then Some 3%nat else None.
(** Three of the seven types the constructor accepts fail on every image, whatever the sizes. *)
Theorem C223_nearest : forall mode scale r dims size, In mode ["nearest"; "area"; "nearest-exact"] -> make_resizer mode scale = Ok r -> resize r dims size = Raise ValueError.
Proof.
  intros mode scale r dims size H E. unfold make_resizer in E. destruct (mem mode valid_types); [| discriminate]. apply Ok_inj in E. subst r.
  unfold resize, interpolate. cbn [r_mode]. apply mem_in in H. now rewrite H.
Qed.
(** The claim in full: what the constructor accepts can resize something. *)
Definition C223_claim : Prop := forall mode scale r, make_resizer mode scale = Ok r -> exists dims size out, resize r dims size = Ok out.
Theorem C223_refuted : ~ C223_claim.
Proof.
  intro H. destruct (H "nearest" None _ eq_refl) as [dims [size [out E]]].
  rewrite (C223_nearest "nearest" None _ dims size (or_introl eq_refl) eq_refl) in E. discriminate.
Qed.
(** The others give images of the size asked for. *)
Theorem C223_partial : forall mode n r dims l, spatial_dims mode = Some n -> make_resizer mode None = Ok r -> length dims = n -> length l = n -> (forall x, In x l -> 0 < x) ->
  resize r dims (SList l) = Ok l.
Proof.
  intros mode n r dims l Hm E Hd Hl Hp. unfold make_resizer in E. destruct (mem mode valid_types) eqn:Ev; [| discriminate]. apply Ok_inj in E. subst r.
  unfold resize. cbn [r_mode r_scale]. unfold interpolate.
  assert (Hf : forallb (fun n => 0 <? n) l = true) by (apply forallb_forall; intros x Hx; apply Z.ltb_lt; auto).
  rewrite Hl, Hd, Nat.eqb_refl. cbn [bind]. unfold spatial_dims in Hm.
  destruct (String.eqb mode "linear") eqn:E1; [apply String.eqb_eq in E1; subst mode; injection Hm as <-; cbn; now rewrite Hf |].
  destruct (String.eqb mode "bilinear") eqn:E2; [apply String.eqb_eq in E2; subst mode; injection Hm as <-; cbn; now rewrite Hf |].
  destruct (String.eqb mode "bicubic") eqn:E3; [apply String.eqb_eq in E3; subst mode; injection Hm as <-; cbn; now rewrite Hf |].
  destruct (String.eqb mode "trilinear") eqn:E4; [apply String.eqb_eq in E4; subst mode; injection Hm as <-; cbn; now rewrite Hf |]. discriminate.
Qed.
(** A choice of the mutable decides: a size that is given is ignored, and the static resizer does the same without one. *)
Theorem C223_chosen : forall r shape dims size, truthy shape = true -> dynamic_resize r shape dims size = resize (to_static r shape) dims SNone.
Proof. intros r shape dims size H. unfold dynamic_resize, resize, to_static. rewrite H. cbn. destruct shape; try discriminate; reflexivity. Qed.
(** Without a mutable and without a size every call fails: the default of the argument is a type. *)
Theorem C223_undriven : forall r dims, exists e, dynamic_resize r SNone dims None = Raise e.
Proof.
  intros r dims. unfold dynamic_resize. cbn [truthy]. unfold resize. cbn [r_mode r_scale r_size]. unfold interpolate.
  destruct (mem (r_mode r) _); [eexists; reflexivity |]. destruct (r_scale r); cbn [bind]; [eexists; reflexivity |].
  match goal with |- context [negb ?b] => destruct (negb b) end; eexists; reflexivity.
Qed.
Definition C223_default_claim : Prop := forall r dims, dynamic_resize r SNone dims None = resize r dims SNone.
(** The static resizer with a scale factor works there. *)
Theorem C223_default_refuted : ~ C223_default_claim.
Proof. intro H. specialize (H {| r_mode := "bicubic"; r_scale := Some 2%Q; r_size := SNone |} [10; 12]). vm_compute in H. discriminate. Qed.
(** A searchable size and a scale factor exclude each other. *)
Theorem C223_scaled : forall mode q r shape dims size, make_resizer mode (Some q) = Ok r -> truthy shape = true -> dynamic_resize r shape dims size = Raise ValueError.
Proof.
  intros mode q r shape dims size E H. unfold make_resizer in E. destruct (mem mode valid_types); [| discriminate]. apply Ok_inj in E. subst r.
  rewrite C223_chosen by auto. unfold resize, to_static, interpolate. cbn [r_mode r_scale r_size]. destruct (mem mode _); auto. destruct shape; try discriminate; reflexivity.
Qed.
Example C223_example : (do r <- make_resizer "bicubic" None; dynamic_resize r (SList [192; 224]) [256; 256] None) = Ok [192; 224].
Proof. reflexivity. Qed.
Example C223_given : (do r <- make_resizer "bilinear" None; dynamic_resize r SNone [256; 256] (Some (SInt 128))) = Ok [128; 128].
Proof. reflexivity. Qed.
Example C223_nearest_at : (do r <- make_resizer "nearest" None; resize r [256; 256] (SInt 128)) = Raise ValueError.
Proof. reflexivity. Qed.

(** ** C224 *)
(** Arrays of those dimensions, and the sum of their elements. *)
Fixpoint rect (dims : list nat) (t : nd) : Prop :=
  match dims, t with
  | [], Leaf _ => True
  | d :: ds, Node l => length l = d /\ (fix all (l : list nd) : Prop := match l with [] => True | x :: r => rect ds x /\ all r end) l
  | _, _ => False
  end.
Fixpoint total (t : nd) : Q := match t with Leaf q => q | Node l => (fix go (l : list nd) : Q := match l with [] => 0%Q | x :: r => (total x + go r)%Q end) l end.
Definition size_of (dims : list nat) : Z := fold_right (fun d a => Z.of_nat d * a) 1 dims.
Lemma rect_node d ds l : rect (d :: ds) (Node l) <-> length l = d /\ Forall (rect ds) l.
Proof.
  cbn [rect]. apply and_iff_compat_l. induction l as [| x l IH]; [split; auto |]. rewrite IH. split; [intros []; constructor; auto | intro H; inversion H; auto].
Qed.
Lemma total_node l : total (Node l) = fold_right (fun x a => (total x + a)%Q) 0%Q l.
Proof. induction l as [| x l IH]; [reflexivity |]. cbn [total fold_right]. rewrite <- IH. reflexivity. Qed.
Lemma rect_nil t : rect [] t -> exists q, t = Leaf q.
Proof. destruct t; cbn; [eauto | tauto]. Qed.
Lemma rect_cons d ds t : rect (d :: ds) t -> exists l, t = Node l /\ length l = d /\ Forall (rect ds) l.
Proof. destruct t as [q | l]; intro H; [now cbn in H | exists l; split; auto; now apply rect_node]. Qed.
(** The mean over the last of several dimensions. *)
Lemma mean_last_rect ds : forall d t, (0 < d)%nat -> Forall (fun k => (0 < k)%nat) ds -> rect (ds ++ [d]) t ->
  rect ds (mean_last t) /\ (total (mean_last t) == total t / inject_Z (Z.of_nat d))%Q.
Proof.
  induction ds as [| k ds IH]; intros d t Hd Hds Hr; cbn [app] in Hr; apply rect_cons in Hr as [l [-> [Hl HF]]].
  - assert (Hleaf : forallb is_leaf l = true).
    { apply forallb_forall. intros x Hx. rewrite Forall_forall in HF. apply HF in Hx. apply rect_nil in Hx as [q ->]. reflexivity. }
    cbn [mean_last]. rewrite Hleaf. split; [exact I |]. cbn [total]. rewrite <- total_node. rewrite total_node. unfold mean_of. rewrite map_length, Hl.
    assert (Es : fold_right Qplus 0%Q (map value l) = fold_right (fun x a => (total x + a)%Q) 0%Q l).
    { clear -HF. induction HF as [| x l Hx HF IH]; cbn; auto. rewrite IH. apply rect_nil in Hx as [q ->]. reflexivity. }
    rewrite Es. reflexivity.
  - inversion Hds as [| ? ? Hk Hds']; subst.
    assert (Hn : forallb is_leaf l = false).
    { destruct l as [| x l]; [cbn in Hk; lia |]. inversion HF as [| ? ? Hx ?]; subst. cbn.
      destruct (ds ++ [d]) as [| e es] eqn:E; [destruct ds; discriminate |]. apply rect_cons in Hx as [l' [-> _]]. reflexivity. }
    cbn [mean_last]. rewrite Hn. split.
    + apply rect_node. rewrite map_length. split; auto. rewrite Forall_forall in *. intros y Hy. apply in_map_iff in Hy as [x [<- Hx]]. apply (IH d); auto. rewrite Forall_forall. exact Hds'.
    + rewrite !total_node. clear Hn Hk Hds. induction HF as [| x l Hx HF IHl]; cbn [map fold_right].
      * unfold Qdiv. now rewrite Qmult_0_l.
      * rewrite IHl. destruct (IH d x Hd Hds' Hx) as [_ ->]. unfold Qdiv. ring.
Qed.
Lemma reduce_rect ds : forall t, Forall (fun k => (0 < k)%nat) ds -> rect ds t -> exists q, reduce_dims (length ds) t = Leaf q /\ (q == total t / inject_Z (size_of ds))%Q.
Proof.
  induction ds as [| d ds IH] using rev_ind; intros t Hd Hr.
  - apply rect_nil in Hr as [q ->]. exists q. split; auto. cbn. field.
  - apply Forall_app in Hd as [Hds Hd]. inversion Hd as [| ? ? Hd1 _]; subst.
    destruct (mean_last_rect ds d t Hd1 Hds Hr) as [Hm Ht]. rewrite app_length, Nat.add_comm. cbn [length Nat.add reduce_dims].
    destruct (IH _ Hds Hm) as [q [Eq Hq]]. exists q. split; auto. rewrite Hq, Ht.
    assert (Es : size_of (ds ++ [d]) = size_of ds * Z.of_nat d).
    { unfold size_of. rewrite fold_right_app. cbn [fold_right]. rewrite Z.mul_1_r. generalize (Z.of_nat d). clear. intro z. induction ds as [| x ds IH]; cbn [fold_right]; [ring |]. rewrite IH. ring. }
    rewrite Es, inject_Z_mult. unfold Qdiv. rewrite Qinv_mult_distr. ring.
Qed.
(** Each channel of each sample becomes the mean of its elements, whatever the number of spatial dimensions. *)
Lemma mean_last_map l : forallb is_leaf l = false -> mean_last (Node l) = Node (map mean_last l).
Proof. intro H. cbn [mean_last]. now rewrite H. Qed.
Lemma reduce_bc b c ds : forall t, (0 < b)%nat -> (0 < c)%nat -> Forall (fun k => (0 < k)%nat) ds -> rect (b :: c :: ds) t ->
  exists rows, reduce_dims (length ds) t = Node rows /\ length rows = b /\
    forall i x, (exists l, t = Node l /\ nth_error l i = Some x) -> exists qs, nth_error rows i = Some (Node qs) /\ length qs = c /\
      forall j y, (exists l, x = Node l /\ nth_error l j = Some y) -> exists q, nth_error qs j = Some (Leaf q) /\ (q == total y / inject_Z (size_of ds))%Q.
Proof.
  induction ds as [| d ds IH] using rev_ind; intros t Hb Hc Hd Hr.
  - apply rect_cons in Hr as [l [-> [Hl HF]]]. exists l. cbn [length reduce_dims]. repeat split; auto.
    intros i x [l' [E Hx]]. injection E as <-. rewrite Forall_forall in HF. pose proof (HF x (nth_error_In _ _ Hx)) as H.
    apply rect_cons in H as [qs [-> [Hq HF2]]]. exists qs. repeat split; auto. intros j y [l' [E Hy]]. injection E as <-.
    rewrite Forall_forall in HF2. pose proof (HF2 y (nth_error_In _ _ Hy)) as H. apply rect_nil in H as [q ->]. exists q. split; auto. cbn. field.
  - apply Forall_app in Hd as [Hds Hd]. inversion Hd as [| ? ? Hd1 _]; subst.
    assert (HA : Forall (fun k => (0 < k)%nat) (b :: c :: ds)) by (constructor; [| constructor]; auto).
    destruct (mean_last_rect (b :: c :: ds) d t Hd1 HA Hr) as [Hm _].
    rewrite app_length, Nat.add_comm. cbn [length Nat.add reduce_dims].
    destruct (IH _ Hb Hc Hds Hm) as [rows [Er [Hlen Hrows]]]. exists rows. repeat split; auto.
    apply rect_cons in Hr as [l [-> [Hl HF]]]. intros i x [l' [E Hx]]. injection E as <-. rewrite Forall_forall in HF.
    pose proof (HF x (nth_error_In _ _ Hx)) as Hrx. change (rect ((c :: ds) ++ [d]) x) in Hrx.
    assert (HA2 : Forall (fun k => (0 < k)%nat) (c :: ds)) by (constructor; auto).
    assert (Hn : forallb is_leaf l = false).
    { destruct l as [| z l]; [cbn in Hl; lia |]. pose proof (HF z (or_introl eq_refl)) as Hz. apply rect_cons in Hz as [lz [-> _]]. reflexivity. }
    destruct (Hrows i (mean_last x)) as [qs [Eq [Hq Hqs]]].
    { exists (map mean_last l). split; [now apply mean_last_map | now rewrite nth_error_map, Hx]. }
    exists qs. repeat split; auto. apply rect_cons in Hrx as [lx [-> [Hlx HFx]]]. change (Forall (rect (ds ++ [d])) lx) in HFx. intros j y [l' [E Hy]]. injection E as <-.
    rewrite Forall_forall in HFx. pose proof (HFx y (nth_error_In _ _ Hy)) as Hry.
    assert (Hnx : forallb is_leaf lx = false).
    { destruct lx as [| z lx]; [cbn in Hlx; lia |]. pose proof (HFx z (or_introl eq_refl)) as Hz.
      destruct (ds ++ [d]) as [| e es] eqn:Ed; [destruct ds; discriminate |]. apply rect_cons in Hz as [lz [-> _]]. reflexivity. }
    destruct (Hqs j (mean_last y)) as [q [Ej Hqv]].
    { exists (map mean_last lx). split; [now apply mean_last_map | now rewrite nth_error_map, Hy]. }
    exists q. split; auto. destruct (mean_last_rect ds d y Hd1 Hds Hry) as [_ Ht]. rewrite Hqv, Ht.
    assert (Es : size_of (ds ++ [d]) = size_of ds * Z.of_nat d).
    { unfold size_of. rewrite fold_right_app. cbn [fold_right]. rewrite Z.mul_1_r. generalize (Z.of_nat d). clear. intro z. induction ds as [| w ds IH]; cbn [fold_right]; [ring |]. rewrite IH. ring. }
    rewrite Es, inject_Z_mult. unfold Qdiv. rewrite Qinv_mult_distr. ring.
Qed.
Theorem C224_mean : forall b c ds t, (0 < b)%nat -> (0 < c)%nat -> Forall (fun k => (0 < k)%nat) ds -> rect (b :: c :: ds) (Node t) ->
  exists rows, dimension_reduction ((2 + length ds)%nat, Node t) = Ok (Node rows) /\ length rows = b /\
  forall i x, nth_error t i = Some (Node x) -> exists qs, nth_error rows i = Some (Node qs) /\ length qs = c /\
  forall j y, nth_error x j = Some y -> exists q, nth_error qs j = Some (Leaf q) /\ (q == total y / inject_Z (size_of ds))%Q.
Proof.
  intros b c ds t Hb Hc Hd Hr. destruct (reduce_bc b c ds (Node t) Hb Hc Hd Hr) as [rows [E [Hl H]]]. exists rows.
  unfold dimension_reduction. cbn [fst snd assert_ Nat.ltb Nat.leb Nat.add bind]. replace (S (S (length ds)) - 2)%nat with (length ds) by lia. rewrite E. repeat split; auto.
  intros i x Hx. destruct (H i (Node x)) as [qs [Eq [Hq Hqs]]]; [eauto |]. exists qs. repeat split; auto. intros j y Hy. apply Hqs. eauto.
Qed.
(** A tuple is pooled array by array; dropout applies in training only, if there is a ratio above zero. *)
Theorem C224_tuple : forall dropout p training l outs, mapM dimension_reduction l = Ok outs ->
  neck_forward dropout p training (NTuple l) = Ok (OTuple (match training, p with true, Some q => if Qle_bool q 0 then outs else map (dropout q) outs | _, _ => outs end)).
Proof.
  intros dropout p training l outs E. unfold neck_forward. rewrite E. cbn [bind]. destruct p as [q |], training; cbn; rewrite ?andb_true_r, ?andb_false_r; auto.
  destruct (Qle_bool q 0); reflexivity.
Qed.
(** The claim in full: a tensor gives what it gives in a tuple. *)
Definition C224_claim : Prop := forall dropout p training x y, neck_forward dropout p training (NTuple [x]) = Ok (OTuple [y]) -> neck_forward dropout p training (NTensor x) = Ok (OTensor y).
(** In evaluation, or without dropout, a tensor fails: what is returned was never set. *)
Theorem C224_refuted : ~ C224_claim.
Proof. intro H. specialize (H (fun _ x => x) (Some (1 # 5)) false (2%nat, Node [Node [Leaf 1]]) _ eq_refl). discriminate. Qed.
Theorem C224_tensor : forall dropout p x, exists e, neck_forward dropout p false (NTensor x) = Raise e.
Proof.
  intros dropout p x. unfold neck_forward. rewrite andb_false_r. unfold dimension_reduction, assert_. destruct (1 <? fst x)%nat; cbn; eexists; reflexivity.
Qed.
Theorem C224_partial : forall dropout q x y, (0 < q)%Q -> neck_forward dropout (Some q) true (NTuple [x]) = Ok (OTuple [y]) -> neck_forward dropout (Some q) true (NTensor x) = Ok (OTensor y).
Proof.
  intros dropout q x y Hq. unfold neck_forward. assert (E : Qle_bool q 0 = false).
  { destruct (Qle_bool q 0) eqn:E; auto. apply Qle_bool_iff in E. exfalso. apply (Qlt_irrefl 0). eapply Qlt_le_trans; eauto. }
  rewrite E. cbn [negb andb mapM bind]. destruct (dimension_reduction x) as [z | e]; cbn; intro H; [| discriminate]. apply Ok_inj in H. injection H as <-. reflexivity.
Qed.
Example C224_example : dimension_reduction (4%nat, Node [Node [Node [Node [Leaf 1; Leaf 2]; Node [Leaf 3; Leaf 6]]]]) = Ok (Node [Node [Leaf (24 # 8)]]).
Proof. reflexivity. Qed.
Example C224_train : neck_forward (fun _ x => x) (Some (1 # 5)) true (NTensor (2%nat, Node [Node [Leaf 1]])) = Ok (OTensor (Node [Node [Leaf 1]])).
Proof. reflexivity. Qed.

(** ** C225 *)
(** Images are squares of the largest multiple of the squared scale factor up to the size asked for. *)
Theorem C225_shape : forall img latent_dim hidden scale d bs n c h w, generate img latent_dim hidden scale d bs = Ok (n, c, h, w) ->
  c = 3 /\ h = w /\ (scale * scale | h) /\ h <= img < h + scale * scale /\ (d = LNone -> n = bs) /\ (forall s, d = LTensor s -> s = [n; latent_dim]).
Proof.
  intros img ld hidden scale d bs n c h w. unfold generate. destruct (scale * scale =? 0) eqn:E0; [discriminate |]. apply Z.eqb_neq in E0.
  assert (Hs : 0 < scale * scale) by nia.
  destruct (process_latent ld d bs) as [[n' c'] | e] eqn:Ep; cbn [bind]; [| discriminate].
  destruct ((img / (scale * scale) <? 1) || (hidden / 2 <? 1)); [discriminate |]. intro E. apply Ok_inj in E. injection E as <- <- <- <-. cbn [fst].
  repeat split; auto.
  - exists (img / (scale * scale)). ring.
  - pose proof (Z.mul_div_le img (scale * scale) Hs). lia.
  - pose proof (Z.mul_succ_div_gt img (scale * scale) Hs). lia.
  - intros ->. unfold process_latent, assert_ in Ep. destruct (0 <? bs); cbn in Ep; [| discriminate]. apply Ok_inj in Ep. now injection Ep as <- _.
  - intros s ->. unfold process_latent, assert_ in Ep. destruct s as [| a [| b r]]; try discriminate. destruct (b =? ld) eqn:Eb; cbn in Ep; [| discriminate]. apply Z.eqb_eq in Eb. subst b.
    destruct r; [| discriminate]. apply Ok_inj in Ep. now injection Ep as <- _.
Qed.
(** The claim in full: images have the size asked for. *)
Definition C225_claim : Prop := forall img latent_dim hidden scale d bs n c h w, generate img latent_dim hidden scale d bs = Ok (n, c, h, w) -> h = img.
Theorem C225_refuted : ~ C225_claim.
Proof. intro H. specialize (H 30 100 128 2 LNone 4 _ _ _ _ eq_refl). cbn in H. lia. Qed.
Theorem C225_partial : forall img latent_dim hidden scale d bs n c h w, (scale * scale | img) -> generate img latent_dim hidden scale d bs = Ok (n, c, h, w) -> h = img.
Proof.
  intros img ld hidden scale d bs n c h w [k Hk] E. destruct (C225_shape _ _ _ _ _ _ _ _ _ _ E) as [_ [_ [[m Hm] [Hle _]]]].
  unfold generate in E. destruct (scale * scale =? 0) eqn:E0; [discriminate |]. apply Z.eqb_neq in E0. pose proof (Z.square_nonneg scale) as Hn.
  clear E. destruct Hle as [H1 H2]. generalize dependent (scale * scale). intros s E1 Hk H2 Hm Hn. assert (m = k) by nia. subst. reflexivity.
Qed.
(** Sizes below the squared scale factor give nothing. *)
Theorem C225_small : forall img latent_dim hidden scale d bs x, 0 <= img < scale * scale -> generate img latent_dim hidden scale d bs <> Ok x.
Proof.
  intros img ld hidden scale d bs x H. unfold generate. destruct (scale * scale =? 0); [discriminate |]. rewrite Z.div_small by lia.
  destruct (process_latent ld d bs); cbn; discriminate.
Qed.
Example C225_example : generate 32 100 128 2 (LTensor [8; 100]) 1 = Ok (8, 3, 32, 32).
Proof. reflexivity. Qed.
Example C225_30 : generate 30 100 128 2 LNone 4 = Ok (4, 3, 28, 28).
Proof. reflexivity. Qed.
Example C225_numpy : generate 32 100 128 2 LOther 4 = Raise GenericException.
Proof. reflexivity. Qed.

(** ** C226 *)
(** The elements of all tensors in an output, and the other leaves. *)
Fixpoint elements (o : out) : list Q :=
  match o with
  | OTen l => l
  | OSeq l => (fix go (l : list out) := match l with [] => [] | t :: r => elements t ++ go r end) l
  | ODict l => (fix go (l : list (string * out)) := match l with [] => [] | kt :: r => elements (snd kt) ++ go r end) l
  | OElse => []
  end.
Fixpoint tensors (o : out) : nat :=
  match o with
  | OTen _ => 1%nat
  | OSeq l => (fix go (l : list out) := match l with [] => 0%nat | t :: r => (tensors t + go r)%nat end) l
  | ODict l => (fix go (l : list (string * out)) := match l with [] => 0%nat | kt :: r => (tensors (snd kt) + go r)%nat end) l
  | OElse => 0%nat
  end.
Fixpoint others (o : out) : nat :=
  match o with
  | OTen _ => 0%nat
  | OSeq l => (fix go (l : list out) := match l with [] => 0%nat | t :: r => (others t + go r)%nat end) l
  | ODict l => (fix go (l : list (string * out)) := match l with [] => 0%nat | kt :: r => (others (snd kt) + go r)%nat end) l
  | OElse => 1%nat
  end.
Definition sumQ (l : list Q) : Q := fold_right Qplus 0%Q l.
Lemma sumQ_app a b : (sumQ (a ++ b) == sumQ a + sumQ b)%Q.
Proof. unfold sumQ. induction a as [| x a IH]; cbn [app fold_right]; [ring |]. rewrite IH. ring. Qed.
Definition good (o : out) : Prop := match sum_of_output o with Ok (q, t) => (q == sumQ (elements o))%Q /\ t = (0 <? tensors o)%nat /\ others o = 0%nat | Raise e => e = NotImplementedError /\ (0 < others o)%nat end.
Lemma or_ltb a b : ((0 <? a) || (0 <? b))%nat = (0 <? a + b)%nat.
Proof. destruct a, b; reflexivity. Qed.
Lemma sum_good : forall o, good o.
Proof.
  fix sum_good 1. intro o. destruct o as [l | l | l |]; unfold good.
  - cbn. repeat split; reflexivity.
  - cbn [sum_of_output elements tensors others].
    assert (G : forall (l : list out) acc n, (forall t, In t l -> good t) -> snd acc = (0 <? n)%nat ->
      match (fix go (l : list out) (acc : Q * bool) := match l with [] => Ok acc | t :: r => do x <- sum_of_output t; go r ((fst acc + fst x)%Q, snd acc || snd x) end) l acc with
      | Ok (q, t) => (q == fst acc + sumQ ((fix go (l : list out) := match l with [] => [] | t :: r => elements t ++ go r end) l))%Q
          /\ t = (0 <? n + (fix go (l : list out) := match l with [] => 0%nat | t :: r => (tensors t + go r)%nat end) l)%nat
          /\ (fix go (l : list out) := match l with [] => 0%nat | t :: r => (others t + go r)%nat end) l = 0%nat
      | Raise e => e = NotImplementedError /\ (0 < (fix go (l : list out) := match l with [] => 0%nat | t :: r => (others t + go r)%nat end) l)%nat end).
    { clear l. induction l as [| t l IH]; intros acc n Hg Hacc.
      - destruct acc as [q b]. cbn in *. subst b. rewrite Nat.add_0_r. repeat split; auto. ring.
      - pose proof (Hg t (or_introl eq_refl)) as Ht. unfold good in Ht. destruct (sum_of_output t) as [[q b] | e]; cbn [bind fst snd].
        + destruct Ht as [Hq [Hb Ho]]. specialize (IH ((fst acc + q)%Q, snd acc || b) (n + tensors t)%nat (fun x Hx => Hg x (or_intror Hx))).
          assert (Hs : snd ((fst acc + q)%Q, snd acc || b) = (0 <? n + tensors t)%nat) by (cbn; rewrite Hacc, Hb; apply or_ltb). specialize (IH Hs). cbn [fst] in IH. clear Hs.
          match goal with |- match ?z with _ => _ end => destruct z as [[q2 b2] | e2] end.
          * destruct IH as [Hq2 [Hb2 Ho2]]. repeat split.
            -- rewrite Hq2, sumQ_app, Hq. ring.
            -- rewrite Hb2. f_equal. lia.
            -- lia.
          * destruct IH as [He Ho2]. split; [exact He | lia].
        + destruct Ht as [-> Ht]. split; [reflexivity | lia]. }
    specialize (G l (0%Q, false) 0%nat). cbn [fst snd Nat.add] in G.
    assert (Hall : forall t, In t l -> good t).
    { clear G. revert l. fix IHl 1. intros [| x l] t H; [destruct H |]. destruct H as [<- | H]; [apply sum_good | exact (IHl l t H)]. }
    specialize (G Hall eq_refl). match goal with |- match ?z with _ => _ end => destruct z as [[q b] | e] end; auto.
    destruct G as [Hq [Hb Ho]]. repeat split; auto. rewrite Hq. ring.
  - cbn [sum_of_output elements tensors others].
    assert (G : forall (l : list (string * out)) acc n, (forall t, In t l -> good (snd t)) -> snd acc = (0 <? n)%nat ->
      match (fix go (l : list (string * out)) (acc : Q * bool) := match l with [] => Ok acc | t :: r => do x <- sum_of_output (snd t); go r ((fst acc + fst x)%Q, snd acc || snd x) end) l acc with
      | Ok (q, t) => (q == fst acc + sumQ ((fix go (l : list (string * out)) := match l with [] => [] | t :: r => elements (snd t) ++ go r end) l))%Q
          /\ t = (0 <? n + (fix go (l : list (string * out)) := match l with [] => 0%nat | t :: r => (tensors (snd t) + go r)%nat end) l)%nat
          /\ (fix go (l : list (string * out)) := match l with [] => 0%nat | t :: r => (others (snd t) + go r)%nat end) l = 0%nat
      | Raise e => e = NotImplementedError /\ (0 < (fix go (l : list (string * out)) := match l with [] => 0%nat | t :: r => (others (snd t) + go r)%nat end) l)%nat end).
    { clear l. induction l as [| t l IH]; intros acc n Hg Hacc.
      - destruct acc as [q b]. cbn in *. subst b. rewrite Nat.add_0_r. repeat split; auto. ring.
      - pose proof (Hg t (or_introl eq_refl)) as Ht. unfold good in Ht. destruct (sum_of_output (snd t)) as [[q b] | e]; cbn [bind fst snd].
        + destruct Ht as [Hq [Hb Ho]]. specialize (IH ((fst acc + q)%Q, snd acc || b) (n + tensors (snd t))%nat (fun x Hx => Hg x (or_intror Hx))).
          assert (Hs : snd ((fst acc + q)%Q, snd acc || b) = (0 <? n + tensors (snd t))%nat) by (cbn; rewrite Hacc, Hb; apply or_ltb). specialize (IH Hs). cbn [fst] in IH. clear Hs.
          match goal with |- match ?z with _ => _ end => destruct z as [[q2 b2] | e2] end.
          * destruct IH as [Hq2 [Hb2 Ho2]]. repeat split.
            -- rewrite Hq2, sumQ_app, Hq. ring.
            -- rewrite Hb2. f_equal. lia.
            -- lia.
          * destruct IH as [He Ho2]. split; [exact He | lia].
        + destruct Ht as [-> Ht]. split; [reflexivity | lia]. }
    specialize (G l (0%Q, false) 0%nat). cbn [fst snd Nat.add] in G.
    assert (Hall : forall t, In t l -> good (snd t)).
    { clear G. revert l. fix IHl 1. intros [| x l] t H; [destruct H |]. destruct H as [<- | H]; [destruct x as [k o]; apply sum_good | exact (IHl l t H)]. }
    specialize (G Hall eq_refl). match goal with |- match ?z with _ => _ end => destruct z as [[q b] | e] end; auto.
    destruct G as [Hq [Hb Ho]]. repeat split; auto. rewrite Hq. ring.
  - cbn. split; [reflexivity | lia].
Qed.
(** The pseudo loss is the sum of all elements of all tensors, however deep. *)
Theorem C226_sum : forall o q t, sum_of_output o = Ok (q, t) -> (q == sumQ (elements o))%Q.
Proof. intros o q t E. pose proof (sum_good o) as H. unfold good in H. rewrite E in H. tauto. Qed.
(** It fails exactly when the output holds something that is none of these. *)
Theorem C226_fails : forall o, (exists x, sum_of_output o = Ok x) <-> others o = 0%nat.
Proof.
  intro o. pose proof (sum_good o) as H. unfold good in H. destruct (sum_of_output o) as [[q t] | e]; split.
  - intros _. tauto. - intros _. eexists. reflexivity. - intros [x Hx]. discriminate. - destruct H as [_ H]. intro. lia.
Qed.
(** The claim in full: there is a tensor to differentiate. *)
Definition C226_claim : Prop := forall o q t, sum_of_output o = Ok (q, t) -> t = true.
Theorem C226_refuted : ~ C226_claim.
Proof. intro H. specialize (H (OSeq [ODict []; OSeq []]) _ _ eq_refl). discriminate. Qed.
Theorem C226_partial : forall o q t, sum_of_output o = Ok (q, t) -> (t = true <-> (0 < tensors o)%nat).
Proof. intros o q t E. pose proof (sum_good o) as H. unfold good in H. rewrite E in H. destruct H as [_ [-> _]]. apply Nat.ltb_lt. Qed.
Example C226_example : sum_of_output (OSeq [OTen [1%Q; 2%Q]; ODict [("cls", OTen [3%Q]); ("box", OSeq [OTen [4%Q; 5%Q]])]]) = Ok (15%Q, true).
Proof. reflexivity. Qed.
Example C226_samples : sum_of_output (OSeq [OTen [1%Q]; OElse]) = Raise NotImplementedError.
Proof. reflexivity. Qed.
Print Assumptions C223_nearest.
Print Assumptions C223_refuted.
Print Assumptions C223_partial.
Print Assumptions C223_chosen.
Print Assumptions C223_undriven.
Print Assumptions C223_default_refuted.
Print Assumptions C223_scaled.
Print Assumptions C224_mean.
Print Assumptions C224_tuple.
Print Assumptions C224_refuted.
Print Assumptions C224_tensor.
Print Assumptions C224_partial.
Print Assumptions C225_shape.
Print Assumptions C225_refuted.
Print Assumptions C225_partial.
Print Assumptions C225_small.
Print Assumptions C226_sum.
Print Assumptions C226_fails.
Print Assumptions C226_refuted.
Print Assumptions C226_partial.

(** Latent data that is not a tensor raises, whatever the rest. *)
Theorem C225_other : forall img latent_dim hidden scale bs x, generate img latent_dim hidden scale LOther bs <> Ok x.
Proof. intros. unfold generate. destruct (scale * scale =? 0); cbn; discriminate. Qed.
(** With one factor each side is the product, rounded down. *)
Theorem C223_rounded : forall mode q dims out, interpolate mode SNone (Some q) dims = Ok out -> Forall2 (fun d n => (inject_Z n <= inject_Z d * q)%Q /\ (inject_Z d * q < inject_Z n + 1)%Q) dims out.
Proof.
  intros mode q dims out E. assert (G : out = map (fun d => Qfloor (inject_Z d * q)) dims).
  { unfold interpolate in E. cbn [bind] in E. repeat match type of E with (if ?t then _ else _) = _ => destruct t; try discriminate E | bind _ _ = _ => cbn [bind] in E | Ok _ = Ok _ => apply Ok_inj in E end. now subst. }
  subst out. clear E. induction dims as [| d dims IH]; constructor; auto. split; [apply Qfloor_le |]. pose proof (Qlt_floor (inject_Z d * q)%Q) as H. rewrite inject_Z_plus in H. exact H.
Qed.
Print Assumptions C225_other.
Print Assumptions C223_rounded.
