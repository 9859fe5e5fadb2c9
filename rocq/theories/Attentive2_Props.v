(** C168: which maps every subnet of the searchable MobileNetV3 returns.  C169: which outputs and frozen stages can be asked for. *)
From Coq Require Import List ZArith Bool Lia.
From Verif Require Import Prelude OpShapes_Model OpShapes_Props OpShapes3_Props Dynamic_Model Attentive_Model Attentive_Props.
Import ListNotations.
Local Open Scope Z_scope.

(** ** Specification *)
(** Sensible choices: at least one channel everywhere, at least one block per layer, odd kernels. *)
Definition sound_pick (p : pick) : Prop :=
  1 <= p_depth p /\ 1 <= p_out p /\ forall j, odd (p_kernel p j) /\ 1 <= p_ratio p j.
Definition sound (s : subnet) : Prop := 1 <= s_first s /\ 1 <= s_last_ratio s /\ 1 <= s_last s /\ Forall sound_pick (s_picks s).
(** The maps behind the layers: the chosen channels; the stem halves the resolution and every layer divides it by its stride. *)
Fixpoint maps (os ss : list Z) (h w : Z) : list fmap :=
  match os, ss with
  | o :: os', s :: ss' => {| ch := o; ht := up h s; wd := up w s |} :: maps os' ss' (up h s) (up w s)
  | _, _ => []
  end.
(** The maps whose index is asked for. *)
Definition selected (outs : list Z) (l : list fmap) : list fmap :=
  map snd (filter (fun jx => existsb (Z.eqb (Z.of_nat (fst jx))) outs) (combine (seq 0 (length l)) l)).
Definition expected (outs ss : list Z) (s : subnet) (x : fmap) : list fmap :=
  selected outs (maps (map p_out (s_picks s)) ss (up (ht x) 2) (up (wd x) 2) ++ [{| ch := s_last s; ht := 1; wd := 1 |}]).
(** Height and width agree about being odd where an attentive shortcut halves them. *)
Fixpoint aligned (ss : list Z) (h w : Z) : Prop :=
  match ss with [] => True | s :: r => (s = 2 -> even (h - w)) /\ aligned r (up h s) (up w s) end.
(** Without attentive shortcuts: a layer of stride 1 that is as wide as the one before is added to its input, so that both
    must choose the same width. *)
Fixpoint agree (ss maxima : list Z) (m i : Z) (os : list Z) : Prop :=
  match ss, maxima, os with
  | s :: ss', m' :: ms', o :: os' => (s = 1 -> m = m' -> i = o) /\ agree ss' ms' m' o os'
  | _, _, _ => True
  end.
(** The largest number of channels of each layer. *)
Definition top (l : list Z) : Z := fold_right Z.max (hd 0 l) l.

(** ** Lemmas *)
Lemma top_max l m : max_of l = Ok m -> top l = m.
Proof.
  intros H. pose proof (max_of_ge _ _ H) as (I & G). destruct l as [|a r]; [destruct I|]. unfold top. cbn [hd].
  assert (K : forall l b, (forall x, In x l -> x <= m) -> b <= m -> (b = m \/ In m l) -> fold_right Z.max b l = m).
  { clear. induction l as [|x l IH]; intros b G B I; cbn [fold_right]; [destruct I as [I | []]; exact I|].
    assert (Gx : x <= m) by (apply G; left; reflexivity).
    assert (Up : fold_right Z.max b l <= m).
    { assert (F : forall l, (forall y, In y l -> y <= m) -> fold_right Z.max b l <= m).
      { clear - B. induction l as [|y l IH]; intros G; cbn [fold_right]; [exact B|]. assert (y <= m) by (apply G; left; reflexivity).
        assert (fold_right Z.max b l <= m) by (apply IH; intros z Hz; apply G; right; exact Hz). lia. }
      apply F. intros y Hy. apply G. right. exact Hy. }
    destruct I as [I | [I | I]].
    - rewrite IH; [lia | intros y Hy; apply G; right; exact Hy | exact B | left; exact I].
    - subst. lia.
    - rewrite IH; [lia | intros y Hy; apply G; right; exact Hy | exact B | right; exact I]. }
  apply K; [exact G | apply G; left; reflexivity | right; exact I].
Qed.
Lemma odd_padding k : odd k -> exists h, get_same_padding k = Ok h /\ 2 * h = k - 1.
Proof.
  intros (h & Hh & ->). exists h. unfold get_same_padding. rewrite Z.land_comm. 
  change 1 with (Z.ones 1) at 1. rewrite Z.land_comm, Z.land_ones by lia. change (2 ^ 1) with 2.
  replace ((2 * h + 1) mod 2) with 1 by (symmetry; rewrite Z.add_comm, Z.mul_comm, Z.mod_add by lia; reflexivity).
  rewrite Z.eqb_refl. cbn [assert_ bind]. rewrite Z.shiftr_div_pow2 by lia. change (2 ^ 1) with 2.
  replace ((2 * h + 1) / 2) with h by (rewrite Z.add_comm, Z.mul_comm, Z.div_add by lia; reflexivity). split; [reflexivity | lia].
Qed.
Lemma block_ok b i o r k x : ch x = i -> 1 <= ht x -> 1 <= wd x -> 1 <= i -> 1 <= o -> 1 <= r -> r <= b_ratio b -> odd k ->
  1 <= a_in (b_args b) -> (a_stride (b_args b) = 1 \/ a_stride (b_args b) = 2) ->
  (b_attentive b = true -> a_stride (b_args b) = 2 -> even (ht x - wd x)) ->
  (b_attentive b = false -> a_stride (b_args b) = 1 -> a_in (b_args b) = a_out (b_args b) -> i = o) ->
  block_forward b i o r k x = Ok {| ch := o; ht := up (ht x) (a_stride (b_args b)); wd := up (wd x) (a_stride (b_args b)) |}.
Proof.
  intros Hc Hh Hw Hi Ho Hr Hrb Hk Ha Hs Hat Hres. unfold block_forward. cbv zeta.
  assert (E1 : (if with_expand_conv b then conv i (r * i) 1 1 0 1 x else Ok x) = Ok {| ch := r * i; ht := ht x; wd := wd x |}).
  { unfold with_expand_conv. destruct (a_in (b_args b) * b_ratio b =? a_in (b_args b)) eqn:E; cbn [negb].
    - apply Z.eqb_eq in E. assert (b_ratio b = 1) by nia. assert (r = 1) by lia. subst r. rewrite Z.mul_1_l, <- Hc. destruct x; reflexivity.
    - rewrite conv_point by lia. reflexivity. }
  rewrite E1. cbn [bind]. destruct (odd_padding k Hk) as (h & Ep & Eh). rewrite Ep. cbn [bind].
  rewrite conv_same by (cbn [ch ht wd]; lia). cbn [bind ch ht wd].
  set (y := {| ch := r * i; ht := up (ht x) (a_stride (b_args b)); wd := up (wd x) (a_stride (b_args b)) |}).
  replace (if b_se b then bn (r * i) y else Ok y) with (Ok y) by (destruct (b_se b); [rewrite bn_same|]; reflexivity). cbn [bind].
  pose proof (up_pos (ht x) (a_stride (b_args b)) ltac:(lia) Hh). pose proof (up_pos (wd x) (a_stride (b_args b)) ltac:(lia) Hw).
  rewrite conv_point by (subst y; cbn [ch ht wd]; lia). cbn [bind]. subst y. cbn [ch ht wd].
  unfold with_res_shortcut. destruct (b_attentive b) eqn:Ea.
  - rewrite andb_false_r. rewrite shortcut_ok; [|repeat split; cbn [a_in a_out a_stride]; lia | exact Hs | auto].
    unfold target. cbn [a_out a_stride bind]. apply badd_same; reflexivity.
  - cbn [negb]. rewrite andb_true_r. destruct (a_stride (b_args b) =? 1) eqn:E; cbn [andb]; [|reflexivity].
    destruct (a_in (b_args b) =? a_out (b_args b)) eqn:E'; [|reflexivity]. apply Z.eqb_eq in E, E'.
    specialize (Hres eq_refl E E'). rewrite E, !up_one.
    replace {| ch := o; ht := ht x; wd := wd x |} with x by (rewrite <- Hres, <- Hc; destruct x; reflexivity). apply badd_same; reflexivity.
Qed.
(** The blocks after the first. *)
Lemma tail_ok p o k r se att n : 1 <= o -> (forall j, p_ratio p j <= r \/ True) -> sound_pick p -> forall d m x, (forall j, (m <= j)%nat -> (j < n)%nat -> p_ratio p j <= r) -> (1 <= m)%nat ->
  (m <= n)%nat -> ch x = p_out p -> 1 <= ht x -> 1 <= wd x ->
  run_blocks p m d (p_out p) (map (fun j => {| b_args := {| a_in := if Nat.eqb j 0 then 0 else o; a_out := o; a_stride := if Nat.eqb j 0 then 0 else 1 |};
                   b_kernel := k; b_ratio := r; b_se := se; b_attentive := att |}) (seq m (n - m))) x = Ok x.
Proof.
  intros Ho _ (Hd & Hp & Hj). induction d as [|d IH]; intros m x Hr Hm Hmn Hc Hh Hw; [reflexivity|].
  remember (n - m)%nat as q eqn:Eq. destruct q as [|q]; [reflexivity|]. cbn [seq map run_blocks].
  replace (Nat.eqb m 0) with false by (symmetry; apply Nat.eqb_neq; lia).
  destruct (Hj m) as (Ok' & Or). specialize (Hr m ltac:(lia) ltac:(lia)) as Hrm.
  rewrite block_ok; cbn [b_args b_ratio b_attentive a_in a_out a_stride]; auto; try lia. 
  cbn [bind]. rewrite !up_one. replace q with (n - S m)%nat by lia.
  replace {| ch := p_out p; ht := ht x; wd := wd x |} with x by (rewrite <- Hc; destruct x; reflexivity).
  apply IH; auto; try lia. intros j A B. apply Hr; lia.
Qed.
Lemma mem_in x l : mem x l = true -> In x l.
Proof. unfold mem. intros H. apply existsb_exists in H as (y & Hy & E). apply Z.eqb_eq in E. subst. exact Hy. Qed.
Section Networks.
Variable act : Type.
Variable swish : act.
Variable widen : Z -> Z.
Notation layer := (layer act).
Notation l_blocks := (l_blocks act). Notation l_depths := (l_depths act). Notation l_kernels := (l_kernels act).
Notation l_ratios := (l_ratios act). Notation l_channels := (l_channels act).

(** What _make_layer guarantees about its layers: their blocks, given the channels [i] of the layer before. *)
Fixpoint chained (att : bool) (ss : list Z) (i : Z) (ls : list layer) : Prop :=
  match ls with
  | [] => True
  | l :: r => exists s ss' n k m o se, ss = s :: ss' /\ max_of (l_depths l) = Ok n /\ max_of (l_kernels l) = Ok k /\ max_of (l_ratios l) = Ok m
      /\ max_of (l_channels l) = Ok o /\ l_blocks l = single_blocks (Z.to_nat n) i o k m s se att
      /\ (1 <= n -> s = 1 \/ s = 2) /\ chained att ss' (match l_blocks l with [] => i | _ => o end) r
  end.
Lemma make_layers_chained c acts ks j i ds rs cs ls last : make_layers act c acts j i ks ds rs cs = Ok (ls, last) ->
  chained (c_attentive c) (skipn j (or_default (c_strides c) [1; 2; 2; 2; 1; 2; 1])) i ls.
Proof.
  revert j i ds rs cs ls last.
  assert (D : forall ss (i : Z) (ls : list layer) (last : Z), Ok ([], i) = Ok (ls, last) -> chained (c_attentive c) ss i ls).
  { intros ss i ls last H. apply Ok_inj in H. injection H as <- <-. exact I. }
  set (ss := or_default (c_strides c) [1; 2; 2; 2; 1; 2; 1]) in *.
  induction ks as [|k ks IH]; intros j i ds rs cs ls last; [destruct ds; cbn [make_layers]; apply D|].
  destruct ds as [|d ds]; [cbn [make_layers]; apply D|]. destruct rs as [|r rs]; [cbn [make_layers]; apply D|].
  destruct cs as [|ch cs]; [cbn [make_layers]; apply D|]. cbn [make_layers]. fold ss.
  destruct (item ss j) as [s|] eqn:Es; cbn [bind]; [|intros X; discriminate X].
  destruct (item (or_default (c_se c) _) j) as [se|]; cbn [bind]; [|intros X; discriminate X].
  destruct (item acts j) as [a|] eqn:Ea; cbn [bind]; [|intros X; discriminate X].
  destruct (make_single_layer act c i s se a k d r ch) as [(l, i')|] eqn:El; cbn [bind]; [|intros X; discriminate X].
  destruct (make_layers act c acts (S j) i' ks ds rs cs) as [(t, last')|] eqn:Et; cbn [bind]; [|intros X; discriminate X].
  intros H. apply Ok_inj in H. injection H as <- <-. apply IH in Et.
  assert (Sk : skipn j ss = s :: skipn (S j) ss).
  { unfold item in Es. destruct (nth_error ss j) as [a'|] eqn:En; [|discriminate Es]. apply Ok_inj in Es. subst a'.
    clear - En. clearbody ss. revert ss En. induction j as [|j IH]; intros [|y ss] H; try discriminate H; [injection H as ->; reflexivity | cbn [skipn]; rewrite (IH _ H); reflexivity]. }
  unfold make_single_layer in El. destruct (max_of d) as [n|] eqn:En; cbn [bind] in El; [|discriminate El].
  destruct (max_of k) as [kk|] eqn:Ek; cbn [bind] in El; [|discriminate El].
  destruct (max_of r) as [m|] eqn:Em; cbn [bind] in El; [|discriminate El]. destruct (max_of ch) as [o|] eqn:Eo; cbn [bind] in El; [|discriminate El].
  destruct (all_ok new_block _) as [[]|] eqn:Eb; cbn [bind] in El; [|discriminate El]. apply Ok_inj in El. injection El as <- <-.
  cbn [chained Attentive_Model.l_depths Attentive_Model.l_kernels Attentive_Model.l_ratios Attentive_Model.l_channels Attentive_Model.l_blocks].
  exists s, (skipn (S j) ss), n, kk, m, o, se. repeat split; auto.
  intros Hn. destruct (Z.to_nat n) as [|q] eqn:Eq; [lia|]. unfold single_blocks in Eb. cbn [seq map all_ok fold_right Nat.eqb] in Eb.
  destruct (new_block _) as [[]|] eqn:Enb in Eb; cbn [bind] in Eb; [|discriminate Eb]. unfold new_block in Enb. cbn [new_op b_kernel b_ratio b_se b_attentive b_args a_stride] in Enb.
  destruct (s =? 1) eqn:S1; [left; apply Z.eqb_eq; exact S1|]. destruct (s =? 2) eqn:S2; [right; apply Z.eqb_eq; exact S2|].
  cbn [orb assert_ bind] in Enb. destruct (c_attentive c); discriminate Enb.
Qed.
Lemma init_chained c acts n rest : init act swish widen c acts = (Ok n, rest) ->
  (exists i, max_of (v_first act n) = Ok i /\ chained (c_attentive c) (or_default (c_strides c) [1; 2; 2; 2; 1; 2; 1]) i (v_layers act n))
  /\ v_outs act n = c_outs c /\ v_frozen act n = c_frozen c.
Proof.
  intros H. pose proof (init_ok_checked _ _ _ _ _ _ _ H) as Hc. destruct (init_checked act swish widen c acts Hc) as (ks & ds & rs & cs & E).
  rewrite E in H. cbv zeta in H. destruct (pop_first _) as [(a, l)|]; [|discriminate H]. destruct (pop_last l) as [(z, l')|]; [|discriminate H].
  injection H as Hb _. unfold build in Hb. destruct (pop_first cs) as [(f, cs1)|]; cbn [bind] in Hb; [|discriminate Hb].
  destruct (pop_last cs1) as [(g, cs2)|]; cbn [bind] in Hb; [|discriminate Hb].
  destruct (pop_last rs) as [(h, rs1)|]; cbn [bind] in Hb; [|discriminate Hb].
  destruct (assert_ _); cbn [bind] in Hb; [|discriminate Hb].
  destruct (max_of f) as [i|] eqn:Ef; cbn [bind] in Hb; [|discriminate Hb].
  destruct (make_layers act c l' 0 i ks ds rs1 cs2) as [(ls, last)|] eqn:El; cbn [bind] in Hb; [|discriminate Hb].
  destruct (max_of h); cbn [bind] in Hb; [|discriminate Hb]. destruct (max_of g); cbn [bind] in Hb; [|discriminate Hb].
  apply Ok_inj in Hb. subst n. cbn [v_first v_layers v_outs v_frozen]. split; [|split; reflexivity].
  exists i. split; [exact Ef|]. exact (make_layers_chained _ _ _ _ _ _ _ _ _ _ El).
Qed.
Lemma layer_ok att s ss' n k m o se i (l : layer) p fine I0 x : l_blocks l = single_blocks (Z.to_nat n) I0 o k m s se att ->
  max_of (l_depths l) = Ok n -> max_of (l_ratios l) = Ok m -> max_of (l_channels l) = Ok o ->
  (1 <= n -> s = 1 \/ s = 2) -> allowed_pick act fine l p = true -> sound_pick p -> 1 <= I0 -> ch x = i -> 1 <= i -> 1 <= ht x -> 1 <= wd x ->
  (att = true -> aligned (s :: ss') (ht x) (wd x)) -> (att = false -> s = 1 -> I0 = o -> i = p_out p) ->
  l_blocks l <> [] /\ run_blocks p 0 (Z.to_nat (p_depth p)) i (l_blocks l) x = Ok {| ch := p_out p; ht := up (ht x) s; wd := up (wd x) s |} /\ 1 <= o.
Proof.
  intros El En Em Eo Hs Ha Sp HI Hc Hi Hh Hw Hal Hag. pose proof Sp as (Hd & Hp & Hj).
  unfold allowed_pick in Ha. apply andb_true_iff in Ha as (Ha & Hf). apply andb_true_iff in Ha as (A1 & A2). apply mem_in in A1, A2.
  pose proof (proj2 (max_of_ge _ _ En) _ A1) as Dn. pose proof (proj2 (max_of_ge _ _ Eo) _ A2) as Po.
  assert (Hs' : s = 1 \/ s = 2) by (apply Hs; lia).
  assert (Hr : forall j, (j < Z.to_nat n)%nat -> p_ratio p j <= m).
  { intros j Hjn. rewrite forallb_forall in Hf. rewrite El in Hf. unfold single_blocks in Hf. rewrite map_length, seq_length in Hf.
    specialize (Hf j ltac:(apply in_seq; lia)). apply andb_true_iff in Hf as (Hf & _). apply andb_true_iff in Hf as (_ & Hf). apply mem_in in Hf.
    exact (proj2 (max_of_ge _ _ Em) _ Hf). }
  rewrite El. unfold single_blocks. destruct (Z.to_nat n) as [|q] eqn:Eq; [lia|]. destruct (Z.to_nat (p_depth p)) as [|d] eqn:Edp; [lia|].
  split; [discriminate|]. split; [|lia]. cbn [seq map run_blocks Nat.eqb]. destruct (Hj 0%nat) as (O1 & O2).
  rewrite block_ok; cbn [b_args b_ratio b_attentive a_in a_out a_stride]; auto; try lia.
  - cbn [bind]. pose proof (up_pos (ht x) s ltac:(lia) Hh). pose proof (up_pos (wd x) s ltac:(lia) Hw).
    pose proof (tail_ok p o k m se att (S q) ltac:(lia) (fun _ => or_intror I) Sp d 1 {| ch := p_out p; ht := up (ht x) s; wd := up (wd x) s |}) as T.
    replace (S q - 1)%nat with q in T by lia. 
    etransitivity; [|apply T]; cbn [ch ht wd]; auto; try lia.
    f_equal. apply map_ext_in. intros j Hjq. apply in_seq in Hjq. replace (Nat.eqb j 0) with false by (symmetry; apply Nat.eqb_neq; lia). reflexivity.
  - apply Hr. lia.
  - intros Eat E2. destruct (Hal Eat) as (Ev & _). exact (Ev E2).
Qed.
(** The maps behind the layers and behind the last one, with their indices from [j] on. *)
Definition kept (outs : list Z) (j : nat) (l : list fmap) : list fmap :=
  map snd (filter (fun jx => existsb (Z.eqb (Z.of_nat (fst jx))) outs) (combine (seq j (length l)) l)).
Lemma kept_cons outs j y l : kept outs j (y :: l) = (if mem (Z.of_nat j) outs then [y] else []) ++ kept outs (S j) l.
Proof. unfold kept. cbn [length seq combine filter fst]. fold (mem (Z.of_nat j) outs). destruct (mem _ outs); reflexivity. Qed.
Lemma layers_ok att outs fine r o : forall ls ps ss I0 i j x, chained att ss I0 ls -> length ps = length ls ->
  forallb (fun lp => allowed_pick act fine (fst lp) (snd lp)) (combine ls ps) = true -> Forall sound_pick ps ->
  1 <= I0 -> ch x = i -> 1 <= i -> 1 <= ht x -> 1 <= wd x ->
  (att = true -> aligned (firstn (length ls) ss) (ht x) (wd x)) ->
  (att = false -> agree ss (map (fun l => top (l_channels l)) ls) I0 i (map p_out ps)) ->
  run_layers act outs j i ls ps r o x = Ok (kept outs j (maps (map p_out ps) ss (ht x) (wd x) ++ [{| ch := o; ht := 1; wd := 1 |}])).
Proof.
  induction ls as [|l ls IH]; intros ps ss I0 i j x C L A S0 HI Hc Hi Hh Hw Hal Hag.
  - destruct ps; [|discriminate L]. cbn [run_layers map maps app]. unfold run_last. rewrite conv_point by lia. cbn [bind ch].
    rewrite conv_point by (cbn [ch ht wd]; lia). cbn [bind]. rewrite kept_cons. unfold kept at 1. cbn. rewrite app_nil_r. reflexivity.
  - destruct ps as [|p ps]; [discriminate L|]. cbn [chained] in C. destruct C as (s & ss' & n & k & m & oo & se & -> & En & Ek & Em & Eo & El & Hs & C).
    cbn [combine forallb fst snd] in A. apply andb_true_iff in A as (A1 & A2). inversion S0 as [|? ? Sp Sps]; subst.
    cbn [length firstn] in Hal. cbn [map agree] in Hag.
    destruct (layer_ok att s (firstn (length ls) ss') n k m oo se (ch x) l p fine I0 x El En Em Eo Hs A1 Sp HI eq_refl Hi Hh Hw Hal) as (Ne & Er & Ho).
    { intros F F1 F2. destruct (Hag F) as (G & _). apply G; [exact F1 | rewrite (top_max _ _ Eo); exact F2]. }
    cbn [run_layers]. rewrite Er. cbn [bind]. destruct Sp as (Hd & Hp & _).
    assert (Hs' : 1 <= s).
    { assert (1 <= n); [|destruct Hs; lia]. unfold allowed_pick in A1. apply andb_true_iff in A1 as (A1 & _). apply andb_true_iff in A1 as (A1 & _).
      apply mem_in in A1. pose proof (proj2 (max_of_ge _ _ En) _ A1). lia. }
    pose proof (up_pos (ht x) s Hs' Hh). pose proof (up_pos (wd x) s Hs' Hw).
    assert (Ei : match l_blocks l with [] => ch x | _ :: _ => p_out p end = p_out p) by (destruct (l_blocks l); [contradiction | reflexivity]).
    assert (EI : match l_blocks l with [] => I0 | _ :: _ => oo end = oo) by (destruct (l_blocks l); [contradiction | reflexivity]).
    rewrite EI in C. rewrite Ei.
    rewrite (IH ps ss' oo (p_out p) (S j) {| ch := p_out p; ht := up (ht x) s; wd := up (wd x) s |}); cbn [ch ht wd]; auto.
    + cbn [bind map maps app]. rewrite kept_cons. reflexivity.
    + intros F. destruct (Hal F) as (_ & G). exact G.
    + intros F. destruct (Hag F) as (_ & G). rewrite (top_max _ _ Eo) in G. exact G.
Qed.

(** ** C168: theorems *)
(** Every allowed and sensible choice runs and returns the expected maps: with attentive shortcuts if the sides stay aligned,
    without them if equally wide neighbours agree. *)
Theorem C168_forward_partial : forall c acts n rest s x, init act swish widen c acts = (Ok n, rest) -> allowed act n s = true -> sound s ->
  ch x = 3 -> 1 <= ht x -> 1 <= wd x ->
  let strides := firstn (length (v_layers act n)) (or_default (c_strides c) [1; 2; 2; 2; 1; 2; 1]) in
  (c_attentive c = true -> aligned strides (up (ht x) 2) (up (wd x) 2)) ->
  (c_attentive c = false -> agree strides (map (fun l => top (l_channels l)) (v_layers act n)) (top (v_first act n)) (s_first s) (map p_out (s_picks s))) ->
  run act n s x = Ok (expected (c_outs c) strides s x).
Proof.
  intros c acts n rest s x H A (S1 & S2 & S3 & S4) Hc Hh Hw strides Hal Hag. apply init_chained in H as ((i & Ei & C) & Eo & _).
  unfold allowed in A. apply andb_true_iff in A as (A & A5). apply andb_true_iff in A as (A & A4). apply andb_true_iff in A as (A & A3).
  apply andb_true_iff in A as (A1 & A2). apply mem_in in A1. apply Nat.eqb_eq in A2.
  unfold run. rewrite conv_same by lia. cbn [bind]. pose proof (up_pos (ht x) 2 ltac:(lia) Hh). pose proof (up_pos (wd x) 2 ltac:(lia) Hw).
  pose proof (proj2 (max_of_ge _ _ Ei) _ A1).
  assert (Cs : forall ls ss i0, chained (c_attentive c) ss i0 ls -> chained (c_attentive c) (firstn (length ls) ss) i0 ls).
  { clear. induction ls as [|l ls IH]; intros ss i0 C; [exact I|]. cbn [chained] in *. destruct C as (s & ss' & n & k & m & o & se & -> & C).
    exists s, (firstn (length ls) ss'), n, k, m, o, se. cbn [length firstn]. split; [reflexivity|]. repeat (destruct C as (? & C)). repeat split; auto. }
  apply Cs in C. rewrite Eo. rewrite (layers_ok (c_attentive c) (c_outs c) (v_fine act n) (s_last_ratio s) (s_last s) (v_layers act n) (s_picks s) _ i (s_first s) 0
    {| ch := s_first s; ht := up (ht x) 2; wd := up (wd x) 2 |} C); cbn [ch ht wd]; auto; try lia.
  - intros F. rewrite firstn_firstn, Nat.min_id. apply Hal. exact F.
  - intros F. rewrite (top_max _ _ Ei) in Hag. apply Hag. exact F.
Qed.
(** With attentive shortcuts every sensible choice runs on square inputs. *)
Theorem C168_square : forall c acts n rest s x, init act swish widen c acts = (Ok n, rest) -> c_attentive c = true -> allowed act n s = true -> sound s ->
  ch x = 3 -> 1 <= ht x -> wd x = ht x ->
  run act n s x = Ok (expected (c_outs c) (firstn (length (v_layers act n)) (or_default (c_strides c) [1; 2; 2; 2; 1; 2; 1])) s x).
Proof.
  intros c acts n rest s x H At A S0 Hc Hh Hw. eapply C168_forward_partial; eauto; try lia.
  intros _. rewrite Hw. generalize (up (ht x) 2) as h. induction (firstn _ _) as [|t ss IH]; intros h; [exact I|]. cbn [aligned]. split; [|apply IH].
  intros _. exists 0. lia.
Qed.
(** The widest subnet, which is the one the network is built with, always runs without attentive shortcuts. *)
Theorem C168_widest : forall c acts n rest s x, init act swish widen c acts = (Ok n, rest) -> c_attentive c = false -> allowed act n s = true -> sound s ->
  ch x = 3 -> 1 <= ht x -> 1 <= wd x -> s_first s = top (v_first act n) -> map p_out (s_picks s) = map (fun l => top (l_channels l)) (v_layers act n) ->
  run act n s x = Ok (expected (c_outs c) (firstn (length (v_layers act n)) (or_default (c_strides c) [1; 2; 2; 2; 1; 2; 1])) s x).
Proof.
  intros c acts n rest s x H At A S0 Hc Hh Hw E1 E2. eapply C168_forward_partial; eauto.
  - intros F. rewrite F in At. discriminate At.
  - intros _. rewrite E1, E2. generalize (top (v_first act n)) as m. generalize (map (fun l => top (l_channels l)) (v_layers act n)) as ms.
    induction (firstn _ _) as [|t ss IH]; intros ms m; [exact I|]. destruct ms as [|m' ms]; [exact I|]. cbn [agree]. split; [auto | apply IH].
Qed.
(** Choices that never run: an even kernel, and different widths on both sides of a plain shortcut. *)
Theorem C168_even : forall b i o r k x, k mod 2 = 0 -> exists e, block_forward b i o r k x = Raise e.
Proof.
  intros b i o r k x Hk. unfold block_forward. cbv zeta. destruct (if with_expand_conv b then _ else _) as [y|e]; cbn [bind]; [|eauto].
  unfold get_same_padding. change 1 with (Z.ones 1) at 1. rewrite Z.land_ones by lia. change (2 ^ 1) with 2. rewrite Hk. cbn. eauto.
Qed.
Theorem C168_widths : forall b i o r k x, with_res_shortcut b = true -> ch x = i -> i <> o -> i <> 1 -> o <> 1 -> exists e, block_forward b i o r k x = Raise e.
Proof.
  intros b i o r k x Hres Hc Hne Hi Ho. unfold block_forward. cbv zeta. destruct (if with_expand_conv b then _ else _) as [y|e]; cbn [bind]; [|eauto].
  destruct (get_same_padding k) as [p|e]; cbn [bind]; [|eauto]. destruct (conv _ _ k _ p 1 y) as [z|e]; cbn [bind]; [|eauto].
  destruct (if b_se b then _ else _) as [w|e]; cbn [bind]; [|eauto]. destruct (conv _ o 1 1 0 1 w) as [v|e] eqn:Ev; cbn [bind]; [|eauto].
  rewrite Hres. assert (Cv : ch v = o).
  { unfold conv in Ev. destruct (negb _ || _ || _); [discriminate Ev|]. apply Ok_inj in Ev. rewrite <- Ev. reflexivity. }
  unfold badd, badd1. rewrite Cv, Hc. apply Z.eqb_neq in Hne, Hi, Ho. rewrite Hne, Hi, Ho. cbn. eauto.
Qed.
End Networks.

(** Every allowed choice with sensible channels and odd kernels runs. *)
Definition C168_claim : Prop := forall c acts n rest s x, init nat 0%nat (fun y => y) c acts = (Ok n, rest) -> allowed nat n s = true ->
  1 <= s_first s -> 1 <= s_last_ratio s -> 1 <= s_last s -> Forall (fun p => 1 <= p_out p /\ forall j, odd (p_kernel p j) /\ 1 <= p_ratio p j) (s_picks s) ->
  ch x = 3 -> 1 <= ht x -> 1 <= wd x -> exists l, run nat n s x = Ok l.
Definition two_layers (att : bool) (depth : list Z) : config :=
  {| c_kernels := [[3; 5; 2]; [3; 3; 1]]; c_blocks := [[1; 2; 1]; depth]; c_ratios := [[1; 2; 1]; [2; 2; 1]; [6; 6; 1]];
     c_channels := [[8; 8; 8]; [16; 24; 8]; [16; 24; 8]; [32; 32; 8]];
     c_outs := [0; 1; 2]; c_frozen := -1; c_strides := [2; 1]; c_se := [true; false]; c_fine := true; c_attentive := att |}.
Definition narrow (d2 o2 : Z) : subnet :=
  {| s_first := 8; s_picks := [{| p_depth := 2; p_out := 16; p_kernel := fun j => if Nat.eqb j 0 then 3 else 5; p_ratio := fun j => if Nat.eqb j 0 then 2 else 1 |};
                               {| p_depth := d2; p_out := o2; p_kernel := fun _ => 3; p_ratio := fun _ => 2 |}];
     s_last_ratio := 6; s_last := 32 |}.
Definition image (h w : Z) : fmap := {| ch := 3; ht := h; wd := w |}.
(** Refuted three ways: two widths around a plain shortcut, sides of different parity at an attentive one, and a depth of zero
    behind a layer of another width. *)
Theorem C168_forward_refuted : ~ C168_claim
  /\ (exists n rest, init nat 0%nat (fun y => y) (two_layers false [1; 1; 1]) [] = (Ok n, rest) /\ allowed nat n (narrow 1 24) = true /\ run nat n (narrow 1 24) (image 32 32) = Raise RuntimeError)
  /\ (exists n rest, init nat 0%nat (fun y => y) (two_layers true [1; 1; 1]) [] = (Ok n, rest) /\ allowed nat n (narrow 1 24) = true
                     /\ run nat n (narrow 1 24) (image 32 30) = Raise RuntimeError /\ exists l, run nat n (narrow 1 24) (image 32 32) = Ok l)
  /\ (exists n rest, init nat 0%nat (fun y => y) (two_layers true [0; 1; 1]) [] = (Ok n, rest) /\ allowed nat n (narrow 0 24) = true /\ run nat n (narrow 0 24) (image 32 32) = Raise RuntimeError).
Proof.
  assert (A : exists n rest, init nat 0%nat (fun y => y) (two_layers false [1; 1; 1]) [] = (Ok n, rest) /\ allowed nat n (narrow 1 24) = true /\ run nat n (narrow 1 24) (image 32 32) = Raise RuntimeError).
  { do 2 eexists. split; [vm_compute; reflexivity|]. split; vm_compute; reflexivity. }
  split; [|split; [exact A | split]].
  - intros C. destruct A as (n & rest & H & Al & Rn). destruct (C _ _ _ _ _ (image 32 32) H Al) as (l & E); try (cbn; lia).
    + apply Forall_cons; [|apply Forall_cons; [|apply Forall_nil]]; (split; [cbn; lia|]); intros j; cbn; destruct j; cbn; (split; [|lia]); (exists 1; lia) || (exists 2; lia).
    + rewrite E in Rn. discriminate Rn.
  - do 2 eexists. split; [vm_compute; reflexivity|]. split; [vm_compute; reflexivity|]. split; [vm_compute; reflexivity|]. eexists. vm_compute. reflexivity.
  - do 2 eexists. split; [vm_compute; reflexivity|]. split; vm_compute; reflexivity.
Qed.
(** A subnet of the shipped search space on an image of 128 by 128. *)
Definition ofa_subnet : subnet :=
  {| s_first := 16;
     s_picks := map (fun do_ => {| p_depth := fst do_; p_out := snd do_; p_kernel := fun j => if fst do_ =? 1 then 3 else if Nat.eqb j 1 then 7 else 5;
                                   p_ratio := fun j => if fst do_ =? 1 then 1 else 3 + Z.of_nat j |})
                    [(1, 16); (2, 24); (3, 32); (4, 64); (3, 88); (2, 160)];
     s_last_ratio := 6; s_last := 1024 |}.
Example C168_ofa : exists n, init nat 0%nat (fun y => y) ofa ofa_acts = (Ok n, [2; 2; 2; 1; 1; 1; 1]%nat) /\ allowed nat n ofa_subnet = true /\ sound ofa_subnet
  /\ run nat n ofa_subnet (image 128 100) = Ok [{| ch := 1024; ht := 1; wd := 1 |}]
  /\ expected [6] [1; 2; 2; 2; 1; 2] ofa_subnet (image 128 100) = [{| ch := 1024; ht := 1; wd := 1 |}]
  /\ expected [2; 5] [1; 2; 2; 2; 1; 2] ofa_subnet (image 128 100) = [{| ch := 32; ht := 16; wd := 13 |}; {| ch := 160; ht := 4; wd := 4 |}].
Proof.
  eexists. split; [vm_compute; reflexivity|]. split; [vm_compute; reflexivity|]. split.
  - split; [cbn; lia|]. split; [cbn; lia|]. split; [cbn; lia|]. cbn [ofa_subnet s_picks map].
    repeat (apply Forall_cons; [split; [cbn; lia|]; split; [cbn; lia|]; intros j; cbn [p_kernel p_ratio fst snd Z.eqb Pos.eqb]; (split; [|lia]); (exists 1; lia) || (destruct (Nat.eqb j 1); (exists 3; lia) || (exists 2; lia))|]). apply Forall_nil.
  - split; [vm_compute; reflexivity|]. split; vm_compute; reflexivity.
Qed.

(** ** C169 *)
Section Outputs.
Variable act : Type.
Variable swish : act.
Variable widen : Z -> Z.
(** Only indices of eight layers and stages -1 to 7 are accepted. *)
Theorem C169_range : forall c acts n rest, init act swish widen c acts = (Ok n, rest) -> (forall i, In i (c_outs c) -> 0 <= i < 8) /\ -1 <= c_frozen c < 8.
Proof. intros c acts n rest H. apply init_ok_checked in H as (A & B & _). split; assumption. Qed.
Theorem C169_refused : forall c acts, ((exists i, In i (c_outs c) /\ ~ 0 <= i < 8) \/ ~ -1 <= c_frozen c < 8) ->
  init act swish widen c acts = (Raise ValueError, acts).
Proof.
  intros c acts H. unfold init. destruct (forallb _ (c_outs c)) eqn:F; cbn [negb]; [|reflexivity]. destruct H as [(i & I & N) | N].
  - rewrite forallb_forall in F. specialize (F _ I). apply andb_true_iff in F as (A & B). apply Z.leb_le in A. apply Z.ltb_lt in B. lia.
  - destruct ((-1 <=? c_frozen c) && (c_frozen c <? 8)) eqn:G; [|reflexivity]. apply andb_true_iff in G as (A & B). apply Z.leb_le in A. apply Z.ltb_lt in B. lia.
Qed.
(** An index beyond the last layer returns nothing: the number of maps is the number of layers, counting the last, that are asked for. *)
Theorem C169_count : forall c acts n rest s x l, init act swish widen c acts = (Ok n, rest) -> run act n s x = Ok l ->
  length (s_picks s) = length (v_layers act n) ->
  length l = length (filter (fun j => existsb (Z.eqb (Z.of_nat j)) (c_outs c)) (seq 0 (S (length (v_layers act n))))).
Proof.
  intros c acts n rest s x l H R0 L. apply init_chained in H as (_ & Eo & _). unfold run in R0. destruct (conv 3 _ 3 2 1 1 x) as [y|]; cbn [bind] in R0; [|discriminate R0].
  rewrite Eo in R0. revert R0 L. generalize (s_first s) as i. generalize 0%nat as j. generalize (s_picks s) as ps. revert y l.
  induction (v_layers act n) as [|a ls IH]; intros y l ps j i R0 L.
  - destruct ps; [|discriminate L]. cbn [run_layers] in R0. destruct (run_last _ _ _ y); cbn [bind] in R0; [|discriminate R0]. apply Ok_inj in R0. subst l.
    cbn [length seq filter]. unfold mem. destruct (existsb _ (c_outs c)); reflexivity.
  - destruct ps as [|p ps]; [discriminate L|]. cbn [run_layers] in R0. destruct (run_blocks _ _ _ _ _ y) as [z|]; cbn [bind] in R0; [|discriminate R0].
    destruct (run_layers _ _ _ _ ls ps _ _ z) as [t|] eqn:Et; cbn [bind] in R0; [|discriminate R0]. apply Ok_inj in R0. subst l.
    apply IH in Et; [|cbn in L; lia]. rewrite app_length, Et. cbn [length].
    change (seq j (S (S (length ls)))) with (j :: seq (S j) (S (length ls))). cbn [filter]. unfold mem. destruct (existsb _ (c_outs c)); reflexivity.
Qed.
(** Freezing: as many stages as there are layers can be frozen, more raise when the network is put into a mode. *)
Theorem C169_frozen_partial : forall c acts n rest b ne m, init act swish widen c acts = (Ok n, rest) -> length (b_layers b) = length (v_layers act n) ->
  ((exists b', train_v3 (v_frozen act n) ne m b = Ok b') <-> c_frozen c <= Z.of_nat (length (v_layers act n))).
Proof.
  intros c acts n rest b ne m H L. apply init_chained in H as (_ & _ & ->). unfold train_v3. rewrite <- L. split.
  - intros (b' & E). destruct (Z.le_gt_cases (c_frozen c) (Z.of_nat (length (b_layers b)))) as [G | G]; [exact G|]. exfalso.
    rewrite (C154_missing Mobile (c_frozen c) ne m b ltac:(lia)) in E. discriminate E.
  - intros G. unfold train, freeze_stages. pose proof (C154_train Mobile (c_frozen c) ne [] m b G) as T. cbn [trains app] in T.
    destruct (train Mobile (c_frozen c) ne m b) as [b'|e] eqn:E; [|cbn [bind] in T; discriminate T]. exists b'. exact E.
Qed.
End Outputs.
(** Everything the constructor accepts exists. *)
Definition C169_claim : Prop := forall c acts n rest, init nat 0%nat (fun y => y) c acts = (Ok n, rest) ->
  (forall i, In i (c_outs c) -> i <= Z.of_nat (length (v_layers nat n))) /\ c_frozen c <= Z.of_nat (length (v_layers nat n)).
Definition default_outs : config :=
  {| c_kernels := c_kernels ofa; c_blocks := c_blocks ofa; c_ratios := c_ratios ofa; c_channels := c_channels ofa; c_outs := [7]; c_frozen := 7;
     c_strides := c_strides ofa; c_se := c_se ofa; c_fine := true; c_attentive := false |}.
(** The default index 7 on a search space of six layers returns no map at all, and freezing 7 stages of it raises. *)
Theorem C169_exists_refuted : ~ C169_claim
  /\ exists n rest, init nat 0%nat (fun y => y) default_outs [] = (Ok n, rest) /\ run nat n ofa_subnet (image 128 128) = Ok []
     /\ train_v3 (v_frozen nat n) false true {| b_conv1 := []; b_layers := repeat [] 6; b_tail := [] |} = Raise AttributeError.
Proof.
  assert (A : exists n rest, init nat 0%nat (fun y => y) default_outs [] = (Ok n, rest) /\ run nat n ofa_subnet (image 128 128) = Ok []
     /\ train_v3 (v_frozen nat n) false true {| b_conv1 := []; b_layers := repeat [] 6; b_tail := [] |} = Raise AttributeError
     /\ length (v_layers nat n) = 6%nat).
  { do 2 eexists. split; [vm_compute; reflexivity|]. split; [vm_compute; reflexivity|]. split; vm_compute; reflexivity. }
  destruct A as (n & rest & H & Rn & T & L). split; [|exists n, rest; auto].
  intros C. destruct (C _ _ _ _ H) as (_ & F). rewrite L in F. cbn in F. lia.
Qed.

Example C169_example : exists n, fst (init nat 0%nat (fun y => y) ofa ofa_acts) = Ok n /\ length (v_layers nat n) = 6%nat /\ c_outs ofa = [6] /\
  (exists m, run nat n ofa_subnet (image 128 100) = Ok [m]) /\
  (exists b', train_v3 (v_frozen nat n) false true {| b_conv1 := []; b_layers := repeat [] 6; b_tail := [] |} = Ok b').
Proof. eexists. split; [vm_compute; reflexivity |]. split; [reflexivity |]. split; [reflexivity |]. split; eexists; vm_compute; reflexivity. Qed.
Print Assumptions C168_forward_partial.
Print Assumptions C168_square.
Print Assumptions C168_widest.
Print Assumptions C168_even.
Print Assumptions C168_widths.
Print Assumptions C168_forward_refuted.
Print Assumptions C169_range.
Print Assumptions C169_refused.
Print Assumptions C169_count.
Print Assumptions C169_frozen_partial.
Print Assumptions C169_exists_refuted.
