(** C153: the feature maps of the searchable ShuffleNet and MobileNet backbones; C154: what their frozen stages do. *)
From Coq Require Import List ZArith Bool Lia.
From Verif Require Import Prelude OpShapes_Model OpShapes_Props OpShapes2_Props.
Import ListNotations.
Local Open Scope Z_scope.

(** ** Specification *)
(** A map behind a stage. *)
Definition behind (st : stage) (x : fmap) : fmap :=
  match st_blocks st with O => x | S _ => {| ch := st_out st; ht := up (ht x) (st_stride st); wd := up (wd x) (st_stride st) |} end.
(** The maps behind all layers, the last convolution included. *)
Fixpoint maps (stages : list stage) (last : option Z) (x : fmap) : list fmap :=
  match stages with
  | [] => match last with Some o => [{| ch := o; ht := ht x; wd := wd x |}] | None => [] end
  | st :: r => behind st x :: maps r last (behind st x)
  end.
(** The map behind the first convolution. *)
Definition stem_map (first : Z) (x : fmap) : fmap := {| ch := first; ht := up (ht x) 2; wd := up (wd x) 2 |}.
(** The chosen entries of a list, in the order of the list. *)
Definition chosen {X} (outs : list nat) (l : list X) : list X :=
  flat_map (fun '(i, x) => if in_dec PeanoNat.Nat.eq_dec i outs then [x] else []) (combine (seq 0 (length l)) l).
(** The candidates suit every block of the stages. *)
Definition stage_ok (st : stage) : Prop := 1 <= st_out st /\ 1 <= st_stride st.
Definition suits (o : op) : Prop := match o with
  | MBBlock k e _ attentive => odd k /\ 1 <= e /\ attentive = false | ShuffleBlock k => k = 3 \/ k = 5 \/ k = 7
  | ShuffleXception | IdentityOp => True | _ => False end.
(** Whether one of the candidates is a shuffle block, and whether one is an inverted residual. *)
Definition shuffling (o : op) : Prop := match o with ShuffleBlock _ | ShuffleXception => True | _ => False end.
Definition inverted (o : op) : Prop := match o with MBBlock _ _ _ _ => True | _ => False end.
(** A first block that keeps the resolution must keep the channels if a shuffle block is a candidate; strides of inverted residuals are 1 or 2. *)
Fixpoint arranged (cands : list op) (i : Z) (stages : list stage) : Prop :=
  match stages with
  | [] => True
  | st :: r => match st_blocks st with
               | O => arranged cands i r
               | S _ => (Exists shuffling cands -> even (st_out st) /\ (st_stride st = 1 -> i = st_out st))
                        /\ (Exists inverted cands -> st_stride st = 1 \/ st_stride st = 2)
                        /\ arranged cands (st_out st) r
               end
  end.

(** ** Lemmas *)
Definition fine (x : fmap) : Prop := 1 <= ht x /\ 1 <= wd x.
Lemma fits_block cands o i out s x : In o cands -> Forall suits cands -> fine x -> 1 <= i -> 1 <= out -> 1 <= s -> ch x = i ->
  (Exists shuffling cands -> even out /\ (s = 1 -> i = out)) -> (Exists inverted cands -> s = 1 \/ s = 2) ->
  new_op o (at_ i out s) = Ok tt /\ forward_op o (at_ i out s) x = Ok {| ch := out; ht := up (ht x) s; wd := up (wd x) s |}.
Proof.
  intros Ho Hs (Hh & Hw) Hi Hout Hst Hc A B. assert (P : proper (at_ i out s) x) by (unfold proper; cbn [a_in a_out a_stride at_]; tauto).
  rewrite Forall_forall in Hs. pose proof (Hs _ Ho) as So. apply (C152_shape o (at_ i out s) x P).
  destruct o; cbn [suits] in So; try contradiction; cbn [fits a_in a_out a_stride at_].
  - destruct A as (A1 & A2); [apply Exists_exists; exists (ShuffleBlock k); split; [assumption | exact I]|]. auto.
  - apply A. apply Exists_exists. exists ShuffleXception. split; [assumption | exact I].
  - destruct So as (So & Se & ->). repeat split; auto; [|discriminate]. apply B. apply Exists_exists. eexists. split; [eassumption | exact I].
  - exact I.
Qed.
Lemma new_all {X} (f : X -> outcome unit) l : (forall x, In x l -> f x = Ok tt) -> all_ok f l = Ok tt.
Proof. induction l as [|x l IH]; intros H; cbn; [reflexivity|]. rewrite H by (left; reflexivity). cbn. apply IH. intros y Hy. apply H. right. assumption. Qed.
Lemma layer_same cands pick n : forall out x j, Forall suits cands -> (forall j, In (pick j) cands) -> fine x -> 1 <= out -> ch x = out ->
  (Exists shuffling cands -> even out) ->
  snd (make_layer n out out 1) = out
  /\ all_ok (fun c => all_ok (fun o => new_op o c) cands) (fst (make_layer n out out 1)) = Ok tt
  /\ run_blocks pick j (fst (make_layer n out out 1)) x = Ok x.
Proof.
  induction n as [|n IH]; intros out x j Hs Hp Hx Ho Hc A; cbn [make_layer]; [repeat split; reflexivity|].
  destruct (IH out x (S j) Hs Hp Hx Ho Hc A) as (I1 & I2 & I3). destruct (make_layer n out out 1) as [rest last]. cbn [fst snd] in *.
  assert (B : forall o, In o cands -> new_op o (at_ out out 1) = Ok tt /\ forward_op o (at_ out out 1) x = Ok x).
  { intros o Hin. destruct (fits_block cands o out out 1 x Hin Hs Hx Ho Ho ltac:(lia) Hc) as (N & F).
    - intros E. split; [apply A; assumption | auto].
    - auto.
    - rewrite !up_one in F. split; [assumption|]. rewrite F, <- Hc. destruct x; reflexivity. }
  split; [assumption|]. split.
  - cbn [all_ok fold_right]. rewrite new_all by (intros o Hin; apply (B o Hin)). cbn [bind]. assumption.
  - cbn [run_blocks]. destruct (B (pick j) (Hp j)) as (_ & F). unfold at_ in F. rewrite F. cbn [bind]. assumption.
Qed.
Lemma layer_ok cands pick st i x j : Forall suits cands -> (forall j, In (pick j) cands) -> fine x -> stage_ok st -> 1 <= i -> ch x = i ->
  (st_blocks st = O \/ ((Exists shuffling cands -> even (st_out st) /\ (st_stride st = 1 -> i = st_out st)) /\ (Exists inverted cands -> st_stride st = 1 \/ st_stride st = 2))) ->
  snd (make_layer (st_blocks st) i (st_out st) (st_stride st)) = ch (behind st x)
  /\ all_ok (fun c => all_ok (fun o => new_op o c) cands) (fst (make_layer (st_blocks st) i (st_out st) (st_stride st))) = Ok tt
  /\ run_blocks pick j (fst (make_layer (st_blocks st) i (st_out st) (st_stride st))) x = Ok (behind st x).
Proof.
  intros Hs Hp Hx (Ho & Hst) Hi Hc [E | (A & B)].
  - unfold behind. rewrite E. cbn. repeat split; congruence.
  - unfold behind. destruct (st_blocks st) as [|n]; [cbn; repeat split; congruence|]. cbn [make_layer].
    set (y := {| ch := st_out st; ht := up (ht x) (st_stride st); wd := up (wd x) (st_stride st) |}).
    assert (Hy : fine y) by (destruct Hx; split; cbn; apply up_pos; assumption).
    destruct (layer_same cands pick n (st_out st) y (S j) Hs Hp Hy Ho eq_refl ltac:(intros X; apply A; assumption)) as (I1 & I2 & I3).
    destruct (make_layer n (st_out st) (st_out st) 1) as [rest last]. cbn [fst snd] in *.
    pose proof (fun o Hin => fits_block cands o i (st_out st) (st_stride st) x Hin Hs Hx Hi Ho Hst Hc A B) as F.
    split; [assumption|]. split.
    + cbn [all_ok fold_right]. rewrite new_all by (intros o Hin; apply (F o Hin)). cbn [bind]. assumption.
    + cbn [run_blocks]. destruct (F (pick j) (Hp j)) as (_ & G). unfold at_ in G. rewrite G. cbn [bind]. assumption.
Qed.
Lemma behind_fine st x : fine x -> stage_ok st -> fine (behind st x).
Proof. intros (A & B) (Ho & Hst). unfold behind, fine. destruct (st_blocks st); cbn; split; try assumption; apply up_pos; assumption. Qed.
Lemma behind_pos st x : 1 <= ch x -> stage_ok st -> 1 <= ch (behind st x).
Proof. intros A (Ho & _). unfold behind. destruct (st_blocks st); cbn; assumption. Qed.
(** The chosen entries, counted from [n]. *)
Definition chosen_from {X} (n : nat) (outs : list nat) (l : list X) : list X :=
  flat_map (fun '(i, x) => if in_dec PeanoNat.Nat.eq_dec i outs then [x] else []) (combine (seq n (length l)) l).
Lemma keep_chosen outs n x : keep outs n x = if in_dec PeanoNat.Nat.eq_dec n outs then [x] else [].
Proof.
  unfold keep. destruct (existsb (Nat.eqb n) outs) eqn:E; destruct (in_dec PeanoNat.Nat.eq_dec n outs) as [H | H]; try reflexivity; exfalso.
  - apply existsb_exists in E. destruct E as (k & Hk & E). apply PeanoNat.Nat.eqb_eq in E. subst. contradiction.
  - assert (existsb (Nat.eqb n) outs = true); [|congruence]. apply existsb_exists. exists n. split; [assumption | apply PeanoNat.Nat.eqb_refl].
Qed.
Definition tail_of (i : Z) (last : option Z) : option (Z * Z) := match last with Some o => Some (i, o) | None => None end.
Lemma layers_ok cands pick outs last : forall stages i x n, Forall suits cands -> (forall i j, In (pick i j) cands) -> fine x ->
  Forall stage_ok stages -> 1 <= i -> ch x = i -> arranged cands i stages ->
  all_ok (all_ok (fun c => all_ok (fun o => new_op o c) cands)) (fst (make_layers stages i)) = Ok tt
  /\ run_layers pick outs n (fst (make_layers stages i)) (tail_of (snd (make_layers stages i)) last) x = Ok (chosen_from n outs (maps stages last x)).
Proof.
  induction stages as [|st r IH]; intros i x n Hs Hp Hx Hst Hi Hc Ha.
  - cbn [make_layers fst snd run_layers maps]. split; [reflexivity|]. unfold tail_of. destruct last as [o|]; cbn [run_layers]; [|reflexivity].
    destruct Hx. rewrite conv_point by assumption. cbn [bind]. rewrite keep_chosen. unfold chosen_from. cbn. rewrite app_nil_r. reflexivity.
  - apply Forall_cons_iff in Hst. destruct Hst as (Hst & Hr). cbn [make_layers maps].
    assert (C : (st_blocks st = O \/ ((Exists shuffling cands -> even (st_out st) /\ (st_stride st = 1 -> i = st_out st))
                                      /\ (Exists inverted cands -> st_stride st = 1 \/ st_stride st = 2)))
                /\ arranged cands (ch (behind st x)) r).
    { cbn [arranged] in Ha. unfold behind. destruct (st_blocks st) eqn:E.
      - split; [auto | rewrite Hc; assumption].
      - destruct Ha as (A & B & Ha). split; [auto | assumption]. }
    destruct C as (C & Ha').
    destruct (layer_ok cands (pick n) st i x 0 Hs (Hp n) Hx Hst Hi Hc C) as (L1 & L2 & L3).
    destruct (make_layer (st_blocks st) i (st_out st) (st_stride st)) as [l i']. cbn [fst snd] in *. subst i'.
    specialize (IH (ch (behind st x)) (behind st x) (S n) Hs Hp (behind_fine _ _ Hx Hst) Hr).
    destruct IH as (I1 & I2); [apply behind_pos; [rewrite Hc; assumption | assumption] | reflexivity | assumption |].
    destruct (make_layers r (ch (behind st x))) as [ls last']. cbn [fst snd] in *. split.
    + cbn [all_ok fold_right] in *. rewrite L2. cbn [bind]. assumption.
    + cbn [run_layers]. rewrite L3. cbn [bind]. rewrite I2. cbn [bind]. rewrite keep_chosen. reflexivity.
Qed.
Lemma up_up a s t : 1 <= s -> 1 <= t -> up (up a s) t = up a (s * t).
Proof. intros Hs Ht. unfold up. rewrite Z.opp_involutive. rewrite Z.div_div by lia. reflexivity. Qed.

(** ** C153: theorems *)
(** Whatever candidate is chosen for every block, the network runs and returns the selected maps. *)
Theorem C153_forward : forall cands first stages last limit outs,
  Forall suits cands -> 1 <= first -> Forall stage_ok stages -> arranged cands first stages -> Forall (fun i => (i < limit)%nat) outs ->
  exists n, build_net cands first stages last limit outs = Ok n /\
    forall pick x, (forall i j, In (pick i j) cands) -> ch x = 3 -> 1 <= ht x -> 1 <= wd x ->
      run_net n pick x = Ok (chosen outs (maps stages last (stem_map first x))).
Proof.
  intros cands first stages last limit outs Hs Hf Hst Ha Hl. unfold build_net.
  assert (E : forallb (fun i => Nat.ltb i limit) outs = true).
  { apply forallb_forall. intros i Hi. rewrite Forall_forall in Hl. apply PeanoNat.Nat.ltb_lt. apply Hl. assumption. }
  rewrite E. cbn [negb].
  destruct cands as [|o cands].
  - assert (N : forall ls : list (list args), all_ok (all_ok (fun c => all_ok (fun o => new_op o c) [])) ls = Ok tt).
    { intros ls. apply new_all. intros l _. apply new_all. intros c _. reflexivity. }
    destruct (make_layers stages first) as [layers i]. rewrite N. cbn [bind]. eexists. split; [reflexivity|].
    intros pick x Hp. destruct (Hp O O).
  - set (cs := o :: cands) in *.
    assert (B : all_ok (all_ok (fun c => all_ok (fun o => new_op o c) cs)) (fst (make_layers stages first)) = Ok tt).
    { apply (layers_ok cs (fun _ _ => o) outs last stages first (map_ first 1 1) 0); auto; [intros; left; reflexivity | unfold fine; cbn; lia]. }
    destruct (make_layers stages first) as [layers i] eqn:M. cbn [fst] in B. rewrite B. cbn [bind]. eexists. split; [reflexivity|].
    intros pick x Hp Hc Hh Hw. unfold run_net. cbn [n_first n_outs n_layers n_last]. rewrite conv_same by lia. cbn [bind].
    destruct (layers_ok cs pick outs last stages first (stem_map first x) 0 Hs Hp) as (_ & R); auto.
    { split; cbn; apply up_pos; lia. }
    rewrite M in R. cbn [fst snd] in R. exact R.
Qed.

(** The resolution behind a stage is the one of the input over twice the product of the strides so far. *)
Definition stride_of (st : stage) : Z := match st_blocks st with O => 1 | S _ => st_stride st end.
Definition overall (stages : list stage) : Z := fold_right (fun st p => stride_of st * p) 1 stages.
Lemma overall_pos stages : Forall stage_ok stages -> 1 <= overall stages.
Proof. induction 1 as [|st r (A & B) Hr IH]; [cbn; lia|]. change (1 <= stride_of st * overall r). unfold stride_of. destruct (st_blocks st); nia. Qed.
Lemma maps_nth last : forall stages x i d, Forall stage_ok stages -> (i < length stages)%nat ->
  ht (nth i (maps stages last x) d) = up (ht x) (overall (firstn (S i) stages)) /\ wd (nth i (maps stages last x) d) = up (wd x) (overall (firstn (S i) stages)).
Proof.
  induction stages as [|st r IH]; intros x i d Hst Hi; [cbn in Hi; lia|]. apply Forall_cons_iff in Hst. destruct Hst as ((Ho & Hs) & Hr).
  assert (Bh : ht (behind st x) = up (ht x) (stride_of st) /\ wd (behind st x) = up (wd x) (stride_of st)).
  { unfold behind, stride_of. destruct (st_blocks st); cbn; [rewrite !up_one|]; auto. }
  assert (Sp : 1 <= stride_of st) by (unfold stride_of; destruct (st_blocks st); lia).
  destruct i as [|i]; cbn [maps nth].
  - cbn [firstn overall fold_right]. rewrite Z.mul_1_r. exact Bh.
  - cbn [length] in Hi. destruct (IH (behind st x) i d Hr ltac:(lia)) as (A & B). rewrite A, B.
    change (firstn (S (S i)) (st :: r)) with (st :: firstn (S i) r). cbn [overall fold_right]. fold (overall (firstn (S i) r)).
    assert (P : 1 <= overall (firstn (S i) r)).
    { apply overall_pos. rewrite <- (firstn_skipn (S i) r) in Hr. apply Forall_app in Hr. apply Hr. }
    destruct Bh as (-> & ->). rewrite !up_up by assumption. auto.
Qed.
Theorem C153_resolution : forall stages last first x i d, Forall stage_ok stages -> (i < length stages)%nat ->
  ht (nth i (maps stages last (stem_map first x)) d) = up (ht x) (2 * overall (firstn (S i) stages))
  /\ wd (nth i (maps stages last (stem_map first x)) d) = up (wd x) (2 * overall (firstn (S i) stages)).
Proof.
  intros stages last first x i d Hst Hi. destruct (maps_nth last stages (stem_map first x) i d Hst Hi) as (-> & ->).
  assert (P : 1 <= overall (firstn (S i) stages)).
  { apply overall_pos. rewrite <- (firstn_skipn (S i) stages) in Hst. apply Forall_app in Hst. apply Hst. }
  cbn [stem_map ht wd]. rewrite !up_up by lia. auto.
Qed.

(** Increasing indices below the number of layers select the maps that they name. *)
Fixpoint increasing (n : nat) (l : list nat) : Prop := match l with [] => True | i :: r => (n <= i)%nat /\ increasing (S i) r end.
Lemma increasing_in l : forall n i, increasing n l -> In i l -> (n <= i)%nat.
Proof.
  induction l as [|j r IH]; intros n i H Hin; [destruct Hin|]. destruct H as (A & B). destruct Hin as [-> | Hin]; [assumption|].
  specialize (IH _ _ B Hin). lia.
Qed.
Lemma chosen_none {X} (l : list X) : forall n outs, (forall i, In i outs -> (i < n)%nat) -> chosen_from n outs l = [].
Proof.
  induction l as [|x l IH]; intros n outs H; [reflexivity|]. unfold chosen_from. cbn [length seq combine flat_map].
  destruct (in_dec PeanoNat.Nat.eq_dec n outs) as [Hin | _]; [specialize (H _ Hin); lia|]. cbn [app]. apply IH. intros i Hi. specialize (H _ Hi). lia.
Qed.
Lemma chosen_skip {X} (l : list X) : forall n outs j, (j < n)%nat -> chosen_from n (j :: outs) l = chosen_from n outs l.
Proof.
  induction l as [|x l IH]; intros n outs j H; [reflexivity|]. unfold chosen_from. cbn [length seq combine flat_map].
  f_equal; [|apply IH; lia]. destruct (in_dec PeanoNat.Nat.eq_dec n (j :: outs)) as [Hin | Hin], (in_dec PeanoNat.Nat.eq_dec n outs) as [H2 | H2]; try reflexivity; exfalso.
  - destruct Hin as [-> | Hin]; [lia | contradiction].
  - apply Hin. right. assumption.
Qed.
Lemma chosen_increasing {X} (d : X) (l : list X) : forall n outs, increasing n outs -> Forall (fun i => (i < n + length l)%nat) outs ->
  chosen_from n outs l = map (fun i => nth (i - n) l d) outs.
Proof.
  induction l as [|x l IH]; intros n outs Hi Hb.
  - destruct outs as [|i r]; [reflexivity|]. exfalso. apply Forall_cons_iff in Hb. destruct Hb as (Hb & _). destruct Hi as (Hi & _). cbn in Hb. lia.
  - destruct outs as [|i r]; [apply chosen_none; intros i []|]. destruct Hi as (Hi & Hr). apply Forall_cons_iff in Hb. destruct Hb as (Hb & Hbr).
    assert (St : forall outs, increasing (S n) outs -> Forall (fun i => (i < n + length (x :: l))%nat) outs ->
                 chosen_from (S n) outs l = map (fun i => nth (i - n) (x :: l) d) outs).
    { intros os Ho Hf. rewrite IH by (assumption || (eapply Forall_impl; [|exact Hf]; cbn; intros; lia)).
      apply map_ext_in. intros k Hk. apply (increasing_in _ _ _ Ho) in Hk. replace (k - n)%nat with (S (k - S n)) by lia. reflexivity. }
    unfold chosen_from. cbn [length seq combine flat_map]. change (flat_map _ (combine (seq (S n) (length l)) l)) with (chosen_from (S n) (i :: r) l).
    destruct (PeanoNat.Nat.eq_dec i n) as [-> | Ne].
    + destruct (in_dec PeanoNat.Nat.eq_dec n (n :: r)) as [_ | Hn]; [|exfalso; apply Hn; left; reflexivity].
      rewrite chosen_skip by lia. rewrite St by assumption. cbn [map app]. rewrite PeanoNat.Nat.sub_diag. reflexivity.
    + destruct (in_dec PeanoNat.Nat.eq_dec n (i :: r)) as [Hn | _].
      * exfalso. destruct Hn as [Hn | Hn]; [congruence|]. apply (increasing_in _ _ _ Hr) in Hn. lia.
      * cbn [app]. apply St; [split; [lia | assumption] | constructor; assumption].
Qed.
Theorem C153_outputs_partial : forall outs (l : list fmap) d, increasing 0 outs -> Forall (fun i => (i < length l)%nat) outs ->
  chosen outs l = map (fun i => nth i l d) outs.
Proof.
  intros outs l d Hi Hb. change (chosen outs l) with (chosen_from 0 outs l). rewrite (chosen_increasing d) by assumption.
  apply map_ext. intros i. rewrite PeanoNat.Nat.sub_0_r. reflexivity.
Qed.
(** The network returns the maps that out_indices names, one for every index. *)
Definition C153_claim : Prop := forall cands first stages last limit outs n pick x ys d,
  build_net cands first stages last limit outs = Ok n -> (forall i j, In (pick i j) cands) ->
  run_net n pick x = Ok ys -> ys = map (fun i => nth i (maps stages last (stem_map first x)) d) outs.
Definition two_stages : list stage := [{| st_out := 8; st_blocks := 1; st_stride := 2 |}; {| st_out := 16; st_blocks := 2; st_stride := 2 |}].
(** Indices out of order come back in the order of the layers; indices beyond the layers of a short architecture are dropped. *)
Theorem C153_outputs_refuted : ~ C153_claim
  /\ (exists n, build_net [ShuffleXception] 4 two_stages (Some 20) 5 [1; 0]%nat = Ok n
      /\ run_net n (fun _ _ => ShuffleXception) (map_ 3 32 32) = Ok [map_ 8 8 8; map_ 16 4 4])
  /\ (exists n, build_net [ShuffleXception] 4 two_stages (Some 20) 5 [4]%nat = Ok n
      /\ run_net n (fun _ _ => ShuffleXception) (map_ 3 32 32) = Ok []).
Proof.
  split; [|split; eexists; split; reflexivity]. intros H.
  specialize (H [ShuffleXception] 4 two_stages (Some 20) 5%nat [4]%nat _ (fun _ _ => ShuffleXception) (map_ 3 32 32) [] (map_ 0 0 0) eq_refl).
  specialize (H ltac:(intros; left; reflexivity) eq_refl). discriminate.
Qed.
(** An index outside of the checked range is rejected. *)
Theorem C153_index : forall cands first stages last limit outs i, In i outs -> (limit <= i)%nat ->
  build_net cands first stages last limit outs = Raise ValueError.
Proof.
  intros cands first stages last limit outs i Hin Hi. unfold build_net. replace (forallb (fun i => Nat.ltb i limit) outs) with false; [reflexivity|].
  symmetry. apply not_true_iff_false. intros E. rewrite forallb_forall in E. specialize (E _ Hin). apply PeanoNat.Nat.ltb_lt in E. lia.
Qed.

Definition mixed : list op := [ShuffleBlock 3; ShuffleBlock 7; ShuffleXception].
Example C153_example :
  Forall suits mixed /\ arranged mixed 4 two_stages /\ Forall stage_ok two_stages /\
  exists n, build_net mixed 4 two_stages (Some 20) 5 [0; 2]%nat = Ok n
    /\ run_net n (fun i j => match i, j with O, _ => ShuffleBlock 7 | _, O => ShuffleXception | _, _ => ShuffleBlock 3 end) (map_ 3 31 45) = Ok [map_ 8 8 12; map_ 20 4 6].
Proof.
  split; [|split; [|split]].
  - repeat (apply Forall_cons; [cbn; auto|]). apply Forall_nil.
  - cbn. split; [intros _; split; [exists 4; lia | lia]|]. split; [auto|]. split; [intros _; split; [exists 8; lia | lia]|]. auto.
  - repeat constructor; cbn; lia.
  - eexists. split; reflexivity.
Qed.
Print Assumptions C153_forward.
Print Assumptions C153_resolution.
Print Assumptions C153_outputs_partial.
Print Assumptions C153_outputs_refuted.
Print Assumptions C153_index.

(** ** C154: specification *)
(** A submodule in mode [m], with or without gradients, after train; batch norms stay in evaluation mode under norm_eval. *)
Definition moded (norm_eval m : bool) (u : sub) : sub := {| is_bn := is_bn u; training := m && negb (norm_eval && is_bn u); grad := grad u |}.
Definition fixed (u : sub) : sub := {| is_bn := is_bn u; training := false; grad := false |}.

(** ** Lemmas *)
Lemma freeze_first_ok e : forall n ls, (n <= length ls)%nat -> freeze_first e n ls = Ok (map (map fixed) (firstn n ls) ++ skipn n ls).
Proof.
  induction n as [|n IH]; intros ls H; [reflexivity|]. destruct ls as [|l t]; [cbn in H; lia|]. cbn [freeze_first]. cbn [length] in H.
  rewrite IH by lia. reflexivity.
Qed.
Lemma freeze_first_raise e : forall n ls, (length ls < n)%nat -> freeze_first e n ls = Raise e.
Proof. induction n as [|n IH]; intros ls H; [lia|]. destruct ls as [|l t]; [reflexivity|]. cbn [freeze_first]. cbn [length] in H. rewrite IH by lia. reflexivity. Qed.
Definition after (frozen : Z) (norm_eval m : bool) (b : backbone) : backbone :=
  {| b_conv1 := map (fun u => moded norm_eval m (if 0 <=? frozen then no_grad u else u)) (b_conv1 b);
     b_layers := map (map fixed) (firstn (Z.to_nat frozen) (b_layers b)) ++ map (map (moded norm_eval m)) (skipn (Z.to_nat frozen) (b_layers b));
     b_tail := map (moded norm_eval m) (b_tail b) |}.
Lemma train_ok k frozen ne m b : (Z.to_nat frozen <= length (b_layers b))%nat -> train k frozen ne m b = Ok (after frozen ne m b).
Proof.
  intros H. unfold train, freeze_stages, map_backbone. cbn [b_layers b_conv1 b_tail]. rewrite freeze_first_ok by (rewrite map_length; assumption). cbn [bind].
  f_equal. unfold after. rewrite firstn_map, skipn_map, !map_map.
  assert (F : forall ls : list (list sub), map (fun x => map fixed (map (set_training m) x)) ls = map (map fixed) ls).
  { intros ls. apply map_ext. intros l. rewrite map_map. reflexivity. }
  rewrite F. destruct (m && ne) eqn:E.
  - apply andb_prop in E. destruct E as (-> & ->). cbn [b_layers b_conv1 b_tail]. f_equal.
    + destruct (0 <=? frozen); rewrite !map_map; apply map_ext; intros [[] t g]; reflexivity.
    + rewrite map_app, !map_map. f_equal.
      * apply map_ext. intros l. rewrite !map_map. apply map_ext. intros [[] t g]; reflexivity.
      * apply map_ext. intros l. rewrite !map_map. apply map_ext. intros [[] t g]; reflexivity.
    + rewrite map_map. apply map_ext. intros [[] t g]; reflexivity.
  - assert (X : forall u, moded ne m u = set_training m u).
    { intros [i t g]. unfold moded, set_training. cbn. f_equal. destruct m; [|reflexivity]. cbn in E. rewrite E. reflexivity. }
    f_equal.
    + destruct (0 <=? frozen); rewrite ?map_map; apply map_ext; intros u; rewrite X; reflexivity.
    + f_equal. apply map_ext. intros l. apply map_ext. intros u. rewrite X. reflexivity.
    + apply map_ext. intros u. rewrite X. reflexivity.
Qed.
Lemma after_length frozen ne m b : length (b_layers (after frozen ne m b)) = length (b_layers b).
Proof. unfold after. cbn [b_layers]. rewrite app_length, !map_length, <- app_length, firstn_skipn. reflexivity. Qed.
Lemma after_after frozen ne m m' b : (Z.to_nat frozen <= length (b_layers b))%nat -> after frozen ne m' (after frozen ne m b) = after frozen ne m' b.
Proof.
  intros H. unfold after. cbn [b_layers b_conv1 b_tail]. f_equal.
  - rewrite map_map. apply map_ext. intros u. destruct (0 <=? frozen); reflexivity.
  - assert (L : length (map (map fixed) (firstn (Z.to_nat frozen) (b_layers b))) = Z.to_nat frozen) by (rewrite map_length, firstn_length; lia).
    rewrite <- L at 1. rewrite firstn_app, firstn_all, PeanoNat.Nat.sub_diag. cbn [firstn]. rewrite app_nil_r.
    rewrite <- L at 2. rewrite skipn_app, skipn_all, PeanoNat.Nat.sub_diag. cbn [skipn app]. rewrite !map_map. f_equal.
    + apply map_ext. intros l. rewrite map_map. reflexivity.
    + apply map_ext. intros l. rewrite map_map. reflexivity.
  - rewrite map_map. reflexivity.
Qed.

(** ** Theorems *)
(** After any calls of train, the stages below frozen_stages are in evaluation mode without gradients, and everything else is
    in the last mode. *)
Theorem C154_train : forall k frozen ne modes m b, frozen <= Z.of_nat (length (b_layers b)) ->
  trains k frozen ne (modes ++ [m]) b = Ok (after frozen ne m b).
Proof.
  intros k frozen ne modes m. induction modes as [|m0 r IH]; intros b H.
  - cbn [app trains]. rewrite train_ok by lia. reflexivity.
  - cbn [app trains]. rewrite train_ok by lia. cbn [bind]. rewrite IH by (rewrite after_length; assumption). rewrite after_after by lia. reflexivity.
Qed.
(** Read off: no parameter of a frozen stage or of the first convolution has a gradient, and no frozen stage is in training mode. *)
Theorem C154_frozen : forall k frozen ne modes b b', modes <> [] -> 0 <= frozen -> trains k frozen ne modes b = Ok b' ->
  (forall u, In u (b_conv1 b') -> grad u = false)
  /\ (forall i u, (i < Z.to_nat frozen)%nat -> In u (nth i (b_layers b') []) -> grad u = false /\ training u = false).
Proof.
  intros k frozen ne modes b b' Hm Hf H. destruct (exists_last Hm) as (r & m & ->).
  assert (L : frozen <= Z.of_nat (length (b_layers b))).
  { destruct (Z.le_gt_cases frozen (Z.of_nat (length (b_layers b)))) as [A | A]; [assumption|]. exfalso.
    assert (T : forall m, train k frozen ne m b = Raise (match k with Shuffle => IndexError | Mobile => AttributeError end)).
    { intros m0. unfold train, freeze_stages. rewrite freeze_first_raise by (cbn [map_backbone b_layers]; rewrite map_length; lia). reflexivity. }
    destruct r as [|m0 r]; cbn [app trains] in H; rewrite T in H; discriminate. }
  rewrite C154_train in H by assumption. apply Ok_inj in H. subst b'. unfold after. cbn [b_conv1 b_layers].
  replace (0 <=? frozen) with true by (symmetry; apply Z.leb_le; assumption). split.
  - intros u Hu. apply in_map_iff in Hu. destruct Hu as (v & <- & _). reflexivity.
  - intros i u Hi Hu. rewrite app_nth1 in Hu by (rewrite map_length, firstn_length; lia).
    change (@nil sub) with (map fixed []) in Hu. rewrite map_nth in Hu. apply in_map_iff in Hu. destruct Hu as (v & <- & _). auto.
Qed.
(** More frozen stages than layers: train raises, an IndexError or (MobileNet) an AttributeError. *)
Theorem C154_missing : forall k frozen ne m b, Z.of_nat (length (b_layers b)) < frozen ->
  train k frozen ne m b = Raise (match k with Shuffle => IndexError | Mobile => AttributeError end).
Proof. intros k frozen ne m b H. unfold train, freeze_stages. rewrite freeze_first_raise by (cbn [map_backbone b_layers]; rewrite map_length; lia). reflexivity. Qed.

(** With frozen_stages >= 0 the first convolution is frozen like the stages, in evaluation mode. *)
Definition C154_claim : Prop := forall k frozen ne m b b', 0 <= frozen -> train k frozen ne m b = Ok b' ->
  forall u, In u (b_conv1 b') -> grad u = false /\ training u = false.
(** Its batch norm keeps updating its statistics. *)
Theorem C154_conv1_refuted : ~ C154_claim.
Proof.
  intros H. set (u := {| is_bn := true; training := true; grad := true |}).
  destruct (H Shuffle 0 false true {| b_conv1 := [u]; b_layers := []; b_tail := [] |} _ ltac:(lia) eq_refl (no_grad u)) as (_ & C); [left; reflexivity | discriminate].
Qed.

Definition a_conv : sub := {| is_bn := false; training := true; grad := true |}.
Definition a_bn : sub := {| is_bn := true; training := true; grad := true |}.
Definition small_net : backbone := {| b_conv1 := [a_conv; a_bn]; b_layers := [[a_conv; a_bn]; [a_conv; a_bn]]; b_tail := [a_conv; a_bn] |}.
Example C154_example : trains Mobile 1 true [false; true] small_net = Ok
  {| b_conv1 := [{| is_bn := false; training := true; grad := false |}; {| is_bn := true; training := false; grad := false |}];
     b_layers := [[{| is_bn := false; training := false; grad := false |}; {| is_bn := true; training := false; grad := false |}];
                  [{| is_bn := false; training := true; grad := true |}; {| is_bn := true; training := false; grad := true |}]];
     b_tail := [{| is_bn := false; training := true; grad := true |}; {| is_bn := true; training := false; grad := true |}] |}
  /\ train Mobile 3 true true small_net = Raise AttributeError.
Proof. split; reflexivity. Qed.
Print Assumptions C154_train.
Print Assumptions C154_frozen.
Print Assumptions C154_missing.
Print Assumptions C154_conv1_refuted.
