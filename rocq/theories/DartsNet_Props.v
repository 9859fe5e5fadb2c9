(** C155: the feature maps of the DARTS backbone, whatever architecture is selected. *)
From Coq Require Import List ZArith Bool Lia.
From Verif Require Import Prelude OpShapes_Model OpShapes_Props OpShapes2_Props OpShapes3_Props DartsNet_Model.
Import ListNotations.
Local Open Scope Z_scope.

(** ** Specification *)
(** The cells that reduce, and how many of them there are up to a cell. *)
Definition reducing (L i : nat) : bool := Nat.eqb i (L / 3) || Nat.eqb i (2 * L / 3).
Definition reductions (L n : nat) : nat := length (filter (reducing L) (seq 0 n)).
(** The map behind cell [i]: every reduction so far has doubled the channels and halved the resolution. *)
Definition cell_map (L nodes : nat) (base h w : Z) (i : nat) : fmap :=
  let f := 2 ^ Z.of_nat (reductions L (S i)) in {| ch := base * f * Z.of_nat nodes; ht := h / f; wd := w / f |}.
(** The auxiliary map, taken at one quarter of the resolution (one half if there is a single cell). *)
Definition aux_map (o : Z) (m : fmap) : fmap := {| ch := o; ht := (ht m - 5) / 2; wd := (wd m - 5) / 2 |}.
(** The operations of the DARTS search space. *)
Definition darts_op (o : op) : Prop :=
  match o with
  | DartsPoolBN k => k = 3
  | DartsDilConv k | DartsSepConv k => k = 3 \/ k = 5
  | DartsSkipConnect | DartsZero | IdentityOp => True
  | _ => False
  end.
(** Every node takes at least one of its inputs, and every edge takes candidates. *)
Definition selects (cands : list op) (sel : nat -> nat -> nat -> list op) : Prop :=
  (forall c k, exists i, (i < k + 2)%nat /\ sel c k i <> []) /\ (forall c k i o, In o (sel c k i) -> In o cands).

(** ** Lemmas *)
Definition shape (c h w : Z) : fmap := {| ch := c; ht := h; wd := w |}.
Lemma sum_same x l : l <> [] -> Forall (eq x) l -> sum_maps l = Ok x.
Proof.
  intros Hn H. destruct l as [|y r]; [contradiction|]. apply Forall_cons_iff in H. destruct H as (<- & H). cbn. clear Hn.
  induction r as [|y r IH]; [reflexivity|]. apply Forall_cons_iff in H. destruct H as (<- & H). cbn. rewrite badd_same by reflexivity. apply IH. assumption.
Qed.
Lemma edge_ok ops c x y : ops <> [] -> (forall o, In o ops -> forward_op o c x = Ok y) -> edge ops c x = Ok y.
Proof.
  intros Hn H. unfold edge. assert (E : mapM (fun o => forward_op o c x) ops = Ok (repeat y (length ops))).
  { clear Hn. induction ops as [|o r IH]; [reflexivity|]. cbn. rewrite H by (left; reflexivity). cbn.
    rewrite IH by (intros p Hp; apply H; right; assumption). reflexivity. }
  rewrite E. cbn [bind]. apply sum_same.
  - destruct ops; [contradiction | discriminate].
  - apply Forall_forall. intros z Hz. apply repeat_spec in Hz. auto.
Qed.
Lemma darts_fits o n s h w : darts_op o -> 1 <= n -> 1 <= h -> 1 <= w -> (s = 1 \/ (s = 2 /\ even n /\ even h /\ even w)) ->
  new_op o (at_ n n s) = Ok tt /\ forward_op o (at_ n n s) (shape n h w) = Ok (shape n (up h s) (up w s)).
Proof.
  intros Ho Hn Hh Hw Hs. assert (P : proper (at_ n n s) (shape n h w)) by (unfold proper; cbn; lia).
  apply (C152_shape o _ _ P). destruct o; cbn [darts_op] in Ho; try contradiction; cbn [fits a_in a_out a_stride at_ shape ht wd].
  - exact I.
  - auto.
  - split; [assumption|]. split; [tauto | reflexivity].
  - split; [assumption|]. split; [tauto | apply Z.divide_refl].
  - tauto.
  - reflexivity.
Qed.
(** All edges of a node lead to the same shape: the first [nd] from (h, w), the others from the shape itself. *)
Lemma edges_ok cands sel n nd : forall ts i y, Forall darts_op cands -> (forall i o, In o (sel i) -> In o cands) ->
  (forall j t o, nth_error ts j = Some t -> In o cands -> forward_op o (edge_args n nd (i + j)) t = Ok y) ->
  exists ys, run_edges sel n nd i ts = Ok ys /\ Forall (eq y) ys /\ (forall j, (j < length ts)%nat -> sel (i + j)%nat <> [] -> ys <> []).
Proof.
  induction ts as [|t r IH]; intros i y Hd Hc H.
  - exists []. cbn. repeat split; auto. intros j Hj. cbn in Hj. lia.
  - destruct (IH (S i) y Hd Hc) as (ys & R & F & N).
    { intros j u o Hu Ho. replace (S i + j)%nat with (i + S j)%nat by lia. apply H; assumption. }
    assert (E : exists zs, match sel i with [] => Ok [] | ops => do y <- edge ops (edge_args n nd i) t; Ok [y] end = Ok zs /\ Forall (eq y) zs /\ (sel i <> [] -> zs <> [])).
    { destruct (sel i) as [|o ops] eqn:S1; [exists []; repeat split; auto|]. rewrite (edge_ok (o :: ops) _ t y).
      - exists [y]. repeat split; auto. discriminate.
      - discriminate.
      - intros p Hp. specialize (H O t p eq_refl). rewrite PeanoNat.Nat.add_0_r in H. apply H. apply (Hc i). rewrite S1. assumption. }
    destruct E as (zs & E & Fz & Nz). exists (zs ++ ys). cbn [run_edges]. rewrite E. cbn [bind]. rewrite R. cbn [bind]. split; [reflexivity|]. split.
    + apply Forall_app. auto.
    + intros j Hj Hs Happ. apply app_eq_nil in Happ. destruct Happ as (A & B). destruct j as [|j].
      * rewrite PeanoNat.Nat.add_0_r in Hs. apply Nz; assumption.
      * cbn [length] in Hj. apply (N j ltac:(lia)); [replace (S i + j)%nat with (i + S j)%nat by lia|]; assumption.
Qed.
(** The nodes of a cell. *)
Definition half (red : bool) (h : Z) : Z := if red then up h 2 else h.
Lemma nodes_ok cands sel n red h w : Forall darts_op cands -> (forall k i o, In o (sel k i) -> In o cands) ->
  (forall k, exists i, (i < k + 2)%nat /\ sel k i <> []) -> 1 <= n -> 1 <= h -> 1 <= w -> (red = true -> even n /\ even h /\ even w) ->
  forall todo k, run_nodes sel n (if red then 2 else 0)%nat k todo ([shape n h w; shape n h w] ++ repeat (shape n (half red h) (half red w)) k)
    = Ok ([shape n h w; shape n h w] ++ repeat (shape n (half red h) (half red w)) (k + todo)).
Proof.
  intros Hd Hc Hs Hn Hh Hw Hr. set (a := shape n h w). set (b := shape n (half red h) (half red w)).
  assert (F : forall o i t, In o cands -> ((i < 2)%nat /\ t = a) \/ ((2 <= i)%nat /\ t = b) -> forward_op o (edge_args n (if red then 2 else 0)%nat i) t = Ok b).
  { intros o i t Ho Ht. rewrite Forall_forall in Hd. specialize (Hd _ Ho). unfold edge_args. destruct Ht as [(Hi & ->) | (Hi & ->)].
    - destruct red.
      + replace (Nat.ltb i 2) with true by (symmetry; apply PeanoNat.Nat.ltb_lt; assumption).
        destruct (darts_fits o n 2 h w Hd Hn Hh Hw ltac:(right; split; [reflexivity | auto])) as (_ & G). exact G.
      + cbn [Nat.ltb Nat.leb]. destruct (darts_fits o n 1 h w Hd Hn Hh Hw ltac:(auto)) as (_ & G). rewrite !up_one in G. exact G.
    - replace (Nat.ltb i (if red then 2 else 0)%nat) with false by (symmetry; apply PeanoNat.Nat.ltb_ge; destruct red; lia).
      assert (H1 : 1 <= half red h /\ 1 <= half red w) by (unfold half; destruct red; split; try assumption; apply up_pos; lia).
      destruct (darts_fits o n 1 (half red h) (half red w) Hd Hn) as (_ & G); try tauto. rewrite !up_one in G. exact G. }
  induction todo as [|todo IH]; intros k; [rewrite PeanoNat.Nat.add_0_r; reflexivity|]. cbn [run_nodes].
  destruct (edges_ok cands (sel k) n (if red then 2 else 0)%nat ([a; a] ++ repeat b k) 0 b Hd (Hc k)) as (ys & R & Fy & N).
  { intros j t o Ht Ho. cbn [Nat.add]. apply F; [assumption|]. destruct j as [|[|j]]; cbn [app nth_error] in Ht.
    - injection Ht as <-. left. split; [lia | reflexivity].
    - injection Ht as <-. left. split; [lia | reflexivity].
    - right. split; [lia|]. apply nth_error_In, repeat_spec in Ht. assumption. }
  destruct (Hs k) as (i & Hi & Hsel).
  assert (Ny : ys <> []). { apply (N i); [rewrite app_length, repeat_length; cbn; lia | assumption]. }
  unfold run_node. rewrite R. cbn [bind]. rewrite (sum_same b) by assumption. cbn [bind].
  replace (([a; a] ++ repeat b k) ++ [b]) with ([a; a] ++ repeat b (S k)).
  - rewrite IH. f_equal. f_equal. f_equal. lia.
  - rewrite <- app_assoc. f_equal. clear. induction k as [|k IH]; [reflexivity|]. cbn in *. rewrite IH. reflexivity.
Qed.
Lemma cat_repeat b k : cat_all (repeat b (S k)) = Ok (shape (ch b * Z.of_nat (S k)) (ht b) (wd b)).
Proof.
  cbn [repeat cat_all].
  assert (G : forall k m, fold_left (fun acc y => do a <- acc; cat a y) (repeat b k) (Ok (shape m (ht b) (wd b))) = Ok (shape (m + ch b * Z.of_nat k) (ht b) (wd b))).
  { clear k. induction k as [|k IH]; intros m; cbn [repeat fold_left]; [f_equal; f_equal; lia|].
    cbn [bind]. rewrite cat_same by reflexivity. cbn [ch ht wd shape]. change {| ch := m + ch b; ht := ht b; wd := wd b |} with (shape (m + ch b) (ht b) (wd b)).
    rewrite IH. f_equal. f_equal. lia. }
  specialize (G k (ch b)). destruct b as [c h w]. cbn [ch ht wd] in *. unfold shape in *. rewrite G. f_equal. f_equal. lia.
Qed.
Lemma standard_ok i o h w : 1 <= h -> 1 <= w -> standard_conv i o (shape i h w) = Ok (shape o h w).
Proof. intros. unfold standard_conv. rewrite conv_point by (cbn; assumption || reflexivity). cbn [bind]. rewrite bn_same by reflexivity. reflexivity. Qed.
Lemma up_double h : up (h * 2) 2 = h.
Proof. rewrite up_floor by lia. replace (h * 2 - 1) with (1 + (h - 1) * 2) by lia. rewrite Z.div_add by lia. change (1 / 2) with 0. lia. Qed.
Lemma cell_ok cands sel c h w : Forall darts_op cands -> (forall k i o, In o (sel k i) -> In o cands) ->
  (forall k, exists i, (i < k + 2)%nat /\ sel k i <> []) -> 1 <= c_ch c -> (1 <= c_nodes c)%nat -> 1 <= h -> 1 <= w ->
  (c_red c = true -> even (c_ch c) /\ even h /\ even w) -> (c_pred c = true -> even (c_ch c)) ->
  run_cell sel c (shape (c_pprev c) (if c_pred c then h * 2 else h) (if c_pred c then w * 2 else w)) (shape (c_prev c) h w)
    = Ok (shape (c_ch c * Z.of_nat (c_nodes c)) (half (c_red c) h) (half (c_red c) w)).
Proof.
  intros Hd Hc Hs Hch Hn Hh Hw Hr Hp. unfold run_cell.
  assert (E0 : (if c_pred c then factorized_reduce (c_pprev c) (c_ch c) (shape (c_pprev c) (if c_pred c then h * 2 else h) (if c_pred c then w * 2 else w))
                else standard_conv (c_pprev c) (c_ch c) (shape (c_pprev c) (if c_pred c then h * 2 else h) (if c_pred c then w * 2 else w))) = Ok (shape (c_ch c) h w)).
  { destruct (c_pred c).
    - rewrite reduce_ok; try reflexivity; cbn [shape ht wd]; try lia; [rewrite !up_double; reflexivity | auto | exists h; lia | exists w; lia].
    - apply standard_ok; assumption. }
  rewrite E0. cbn [bind]. rewrite standard_ok by assumption. cbn [bind].
  pose proof (nodes_ok cands sel (c_ch c) (c_red c) h w Hd Hc Hs Hch Hh Hw Hr (c_nodes c) 0) as R. cbn [repeat app Nat.add] in R.
  unfold downsampling. rewrite R. cbn [bind skipn]. destruct (c_nodes c) as [|k]; [lia|]. rewrite cat_repeat. reflexivity.
Qed.
Lemma new_cell_ok cands c : Forall darts_op cands -> 1 <= c_ch c -> (c_red c = true -> even (c_ch c)) -> new_cell cands c = Ok tt.
Proof.
  intros Hd Hch Hr. unfold new_cell. apply new_all. intros depth _. apply new_all. intros i _. apply new_all. intros o Ho.
  rewrite Forall_forall in Hd. specialize (Hd _ Ho). unfold edge_args, downsampling. destruct (c_red c).
  - destruct (Nat.ltb i 2).
    + apply (darts_fits o (c_ch c) 2 2 2 Hd Hch); try lia. right. split; [reflexivity|]. split; [auto|]. split; exists 1; lia.
    + apply (darts_fits o (c_ch c) 1 1 1 Hd Hch); lia.
  - apply (darts_fits o (c_ch c) 1 1 1 Hd Hch); lia.
Qed.
Lemma reductions_S L n : reductions L (S n) = (reductions L n + if reducing L n then 1 else 0)%nat.
Proof. unfold reductions. rewrite seq_S, filter_app, app_length. cbn [filter Nat.add]. destruct (reducing L n); cbn; lia. Qed.
Lemma reductions_bound L n : (reductions L n <= 2)%nat.
Proof.
  unfold reductions. assert (G : incl (filter (reducing L) (seq 0 n)) [L / 3; 2 * L / 3]%nat).
  { intros i Hi. apply filter_In in Hi. destruct Hi as (_ & Hi). unfold reducing in Hi. apply orb_prop in Hi. cbn [In].
    destruct Hi as [Hi | Hi]; apply PeanoNat.Nat.eqb_eq in Hi; auto. }
  apply (NoDup_incl_length (l' := [L / 3; 2 * L / 3]%nat)); [apply NoDup_filter, seq_NoDup | assumption].
Qed.
Definition scale (r : nat) : Z := 2 ^ Z.of_nat r.
Lemma scale_S r : scale (S r) = scale r * 2.
Proof. unfold scale. rewrite Nat2Z.inj_succ, Z.pow_succ_r by lia. lia. Qed.
Lemma scale_pos r : 1 <= scale r.
Proof. unfold scale. pose proof (Z.pow_pos_nonneg 2 (Z.of_nat r) ltac:(lia) ltac:(lia)). lia. Qed.
Lemma quarter p r : (r <= 2)%nat -> 1 <= p -> 1 <= p * 4 / scale r /\ ((r <= 1)%nat -> even (p * 4 / scale r) /\ up (p * 4 / scale r) 2 = p * 4 / scale (S r)).
Proof.
  intros Hr Hp. destruct r as [|[|[|r]]]; [| | |lia].
  - change (scale 0) with 1. change (scale 1) with 2. rewrite Z.div_1_r. replace (p * 4) with (p * 2 * 2) by lia. rewrite Z.div_mul, up_double by lia.
    split; [lia|]. intros _. split; [exists (p * 2); lia | reflexivity].
  - change (scale 1) with 2. change (scale 2) with 4. rewrite Z.div_mul by lia. replace (p * 4) with (p * 2 * 2) by lia. rewrite Z.div_mul, up_double by lia.
    split; [lia|]. intros _. split; [exists p; lia | reflexivity].
  - change (scale 2) with 4. rewrite Z.div_mul by lia. split; [lia | intros; lia].
Qed.
Lemma run_aux_ok i a o x : ch x = i -> 7 <= ht x -> 7 <= wd x -> run_aux i a o x = Ok (aux_map o x).
Proof.
  intros Hc Hh Hw. unfold run_aux, pool. cbn [Z.ltb Z.compare Z.mul]. rewrite !Z.add_0_r. cbv zeta.
  assert (A : 1 <= (ht x - 5) / 2) by (clear - Hh; Z.div_mod_to_equations; lia). assert (B : 1 <= (wd x - 5) / 2) by (clear - Hw; Z.div_mod_to_equations; lia).
  replace ((ht x - 5) / 2 + 1 <? 1) with false by (symmetry; apply Z.ltb_ge; lia). replace ((wd x - 5) / 2 + 1 <? 1) with false by (symmetry; apply Z.ltb_ge; lia).
  cbn [orb bind]. rewrite conv_point by (cbn [ch ht wd]; lia). cbn [bind ht wd]. rewrite bn_same by reflexivity. cbn [bind].
  unfold conv. cbn [ch ht wd]. rewrite Z.eqb_refl. cbn [negb orb].
  replace ((ht x - 5) / 2 + 1 + 2 * 0 <? 1 * (2 - 1) + 1) with false by (symmetry; apply Z.ltb_ge; lia).
  replace ((wd x - 5) / 2 + 1 + 2 * 0 <? 1 * (2 - 1) + 1) with false by (symmetry; apply Z.ltb_ge; lia). cbn [orb bind].
  rewrite bn_same by reflexivity. unfold aux_map. rewrite !Z.div_1_r. apply fmap_eq; lia.
Qed.
(** What the auxiliary module puts in front. *)
Definition front_at (K L nodes : nat) (base h w : Z) (aux : option (Z * Z)) (training : bool) : list fmap :=
  match aux with Some (_, o) => if training then [aux_map o (cell_map L nodes base h w K)] else [] | None => [] end.
Definition hook_at (K L nodes : nat) (base : Z) (aux : option (Z * Z)) : option (nat * (Z * Z * Z)) :=
  match aux with Some (a, o) => Some (K, (base * scale (reductions L (S K)) * Z.of_nat nodes, a, o)) | None => None end.
Definition roomy_at (K L nodes : nat) (base h w : Z) : Prop := 7 <= ht (cell_map L nodes base h w K) /\ 7 <= wd (cell_map L nodes base h w K).
Definition front (L : nat) := front_at (2 * L / 3) L.
Definition hook (L : nat) := hook_at (2 * L / 3) L.
Definition roomy (L : nat) := roomy_at (2 * L / 3) L.
Lemma cells_ok K cands sel outs aux training L nodes base p q : Forall darts_op cands -> selects cands sel -> 1 <= base -> (1 <= nodes)%nat -> 1 <= p -> 1 <= q ->
  (training = true -> aux <> None -> roomy_at K L nodes base (p * 4) (q * 4)) ->
  forall m i pprev prev out (last : bool) h w acc,
    out = base * scale (reductions L i) -> h = p * 4 / scale (reductions L i) -> w = q * 4 / scale (reductions L i) ->
    (last = true -> (1 <= reductions L i)%nat) ->
    all_ok (new_cell cands) (make_cells L nodes (seq i m) pprev prev out last) = Ok tt
    /\ run_cells (fun c => sel c) outs (hook_at K L nodes base aux) training i (make_cells L nodes (seq i m) pprev prev out last)
         (shape pprev (if last then h * 2 else h) (if last then w * 2 else w)) (shape prev h w) acc
       = Ok ((if Nat.leb i K && Nat.ltb K (i + m) then front_at K L nodes base (p * 4) (q * 4) aux training else [])
             ++ acc ++ chosen_from i outs (map (cell_map L nodes base (p * 4) (q * 4)) (seq i m))).
Proof.
  intros Hd (Hs & Hc) Hb Hn Hp Hq Ha. induction m as [|m IH]; intros i pprev prev out last h w acc Eo Eh Ew El.
  - cbn [seq map make_cells run_cells]. split; [reflexivity|]. change (chosen_from i outs []) with (@nil fmap). rewrite app_nil_r. rewrite PeanoNat.Nat.add_0_r.
    destruct (Nat.leb i K) eqn:A; [|reflexivity]. cbn [andb]. apply PeanoNat.Nat.leb_le in A.
    replace (Nat.ltb K i) with false by (symmetry; apply PeanoNat.Nat.ltb_ge; assumption). reflexivity.
  - cbn [seq make_cells]. fold (reducing L i). set (r := reductions L i) in *. set (red := reducing L i) in *.
    assert (Er : reductions L (S i) = (r + if red then 1 else 0)%nat) by apply reductions_S.
    assert (Br : (r + (if red then 1 else 0) <= 2)%nat) by (rewrite <- Er; apply reductions_bound).
    remember (reductions L (S i)) as r' eqn:Dr. symmetry in Dr. clearbody r red.
    assert (Br2 : (r <= 2)%nat) by (clear - Br; destruct red; lia).
    destruct (quarter p r Br2 Hp) as (P1 & P2). destruct (quarter q r Br2 Hq) as (Q1 & Q2). rewrite <- Eh in *. rewrite <- Ew in *.
    pose proof (scale_pos r) as Sp. set (out' := if red then out * 2 else out).
    assert (Eo' : out' = base * scale r').
    { rewrite Er. unfold out'. destruct red; [rewrite PeanoNat.Nat.add_1_r, scale_S; clear - Eo; lia | rewrite PeanoNat.Nat.add_0_r; assumption]. }
    assert (O1 : 1 <= out') by (rewrite Eo'; pose proof (scale_pos r') as Sp'; clear - Sp' Hb; nia).
    assert (Hev : red = true -> even out') by (intros X; unfold out'; rewrite X; exists out; clear; lia).
    assert (Hel : last = true -> even out').
    { intros X. specialize (El X). exists (base * scale (r' - 1)). rewrite Eo'.
      replace r' with (S (r' - 1)) at 1 by (rewrite Er; clear - El; lia). rewrite scale_S. clear. lia. }
    assert (Hh : half red h = p * 4 / scale r').
    { rewrite Er. unfold half. destruct red; [rewrite PeanoNat.Nat.add_1_r; apply P2; clear - Br; lia | rewrite PeanoNat.Nat.add_0_r; assumption]. }
    assert (Hw : half red w = q * 4 / scale r').
    { rewrite Er. unfold half. destruct red; [rewrite PeanoNat.Nat.add_1_r; apply Q2; clear - Br; lia | rewrite PeanoNat.Nat.add_0_r; assumption]. }
    set (c := {| c_nodes := nodes; c_ch := out'; c_prev := prev; c_pprev := pprev; c_red := red; c_pred := last |}).
    assert (Rc : run_cell (sel i) c (shape pprev (if last then h * 2 else h) (if last then w * 2 else w)) (shape prev h w) = Ok (cell_map L nodes base (p * 4) (q * 4) i)).
    { pose proof (cell_ok cands (sel i) c h w Hd (Hc i) (Hs i) O1 Hn P1 Q1) as G. cbn [c_ch c_red c_pred c_nodes c_pprev c_prev c] in G. rewrite G.
      - unfold cell_map. fold (scale (reductions L (S i))). rewrite Dr, Hh, Hw, Eo'. reflexivity.
      - intros X. split; [auto|]. rewrite X in Br. split; [apply P2 | apply Q2]; clear - Br; lia.
      - assumption. }
    assert (Em : cell_map L nodes base (p * 4) (q * 4) i = shape (out' * Z.of_nat nodes) (half red h) (half red w)).
    { unfold cell_map. fold (scale (reductions L (S i))). rewrite Dr, Hh, Hw, Eo'. reflexivity. }
    assert (Hup : red = true -> h = half red h * 2 /\ w = half red w * 2).
    { intros X. unfold half. rewrite X. rewrite X in Br. destruct (proj1 (P2 ltac:(clear - Br; lia))) as (a & Ea). destruct (proj1 (Q2 ltac:(clear - Br; lia))) as (b & Eb).
      rewrite Ea, Eb. rewrite (Z.mul_comm 2 a), (Z.mul_comm 2 b), !up_double. auto. }
    assert (Es : shape prev h w = shape prev (if red then half red h * 2 else half red h) (if red then half red w * 2 else half red w)).
    { destruct red; [destruct (Hup eq_refl) as (<- & <-); reflexivity | reflexivity]. }
    specialize (fun a => IH (S i) prev (out' * Z.of_nat nodes) out' red (half red h) (half red w) a ltac:(rewrite Dr; exact Eo') ltac:(rewrite Dr; exact Hh) ltac:(rewrite Dr; exact Hw)).
    assert (El' : red = true -> (1 <= reductions L (S i))%nat) by (intros X; rewrite Dr, Er, X; clear; lia).
    split.
    + cbn [all_ok fold_right]. rewrite (new_cell_ok cands c Hd O1 Hev). cbn [bind]. apply (IH [] El').
    + cbn [run_cells]. rewrite Rc. cbn [bind]. cbv zeta.
      assert (Nx : forall acc', run_cells (fun c => sel c) outs (hook_at K L nodes base aux) training (S i)
                     (make_cells L nodes (seq (S i) m) prev (out' * Z.of_nat nodes) out' red) (shape prev h w) (cell_map L nodes base (p * 4) (q * 4) i) acc'
                   = Ok ((if Nat.leb (S i) K && Nat.ltb K (S i + m) then front_at K L nodes base (p * 4) (q * 4) aux training else [])
                         ++ acc' ++ chosen_from (S i) outs (map (cell_map L nodes base (p * 4) (q * 4)) (seq (S i) m)))).
      { intros acc'. rewrite Em, Es. apply (IH acc' El'). }
      assert (Ch : chosen_from i outs (map (cell_map L nodes base (p * 4) (q * 4)) (seq i (S m)))
                   = keep outs i (cell_map L nodes base (p * 4) (q * 4) i) ++ chosen_from (S i) outs (map (cell_map L nodes base (p * 4) (q * 4)) (seq (S i) m))).
      { rewrite keep_chosen. reflexivity. }
      change (i :: seq (S i) m) with (seq i (S m)). rewrite Ch. unfold hook_at, front_at. destruct aux as [[a o]|].
      * destruct (Nat.eqb i K) eqn:Ei.
        -- apply PeanoNat.Nat.eqb_eq in Ei.
           replace (Nat.leb i K) with true by (symmetry; apply PeanoNat.Nat.leb_le; clear - Ei; lia).
           replace (Nat.ltb K (i + S m)) with true by (symmetry; apply PeanoNat.Nat.ltb_lt; clear - Ei; lia).
           assert (B2 : Nat.leb (S i) K = false) by (apply PeanoNat.Nat.leb_gt; clear - Ei; lia).
           destruct training; cbn [andb].
           ++ destruct (Ha eq_refl ltac:(discriminate)) as (R1 & R2). rewrite <- Ei in *. rewrite run_aux_ok; try assumption; [|reflexivity]. cbn [bind].
              unfold hook_at, front_at in Nx. rewrite Nx. rewrite B2. cbn [andb app]. rewrite <- app_assoc. reflexivity.
           ++ cbn [bind]. unfold hook_at, front_at in Nx. rewrite Nx. rewrite B2. cbn [andb app]. rewrite <- app_assoc. reflexivity.
        -- cbn [andb bind]. unfold hook_at, front_at in Nx. rewrite Nx. apply PeanoNat.Nat.eqb_neq in Ei.
           assert (B1 : Nat.leb (S i) K = Nat.leb i K).
           { destruct (Nat.leb i K) eqn:X; [apply PeanoNat.Nat.leb_le in X; apply PeanoNat.Nat.leb_le; clear - Ei X; lia | apply PeanoNat.Nat.leb_gt in X; apply PeanoNat.Nat.leb_gt; clear - Ei X; lia]. }
           rewrite B1. replace (S i + m)%nat with (i + S m)%nat by (clear; lia). rewrite <- app_assoc. reflexivity.
      * cbn [bind]. unfold hook_at, front_at in Nx. rewrite Nx. rewrite <- app_assoc. destruct (_ && _), (_ && _); reflexivity.
Qed.
Lemma make_cells_nth L nodes base : forall m i j pprev prev out last, out = base * scale (reductions L i) -> (j < m)%nat ->
  behind_cell (make_cells L nodes (seq i m) pprev prev out last) j = base * scale (reductions L (S (i + j))) * Z.of_nat nodes.
Proof.
  induction m as [|m IH]; intros i j pprev prev out last E Hj; [lia|]. cbn [seq make_cells]. fold (reducing L i).
  assert (E' : (if reducing L i then out * 2 else out) = base * scale (reductions L (S i))).
  { rewrite reductions_S, E. destruct (reducing L i); [rewrite PeanoNat.Nat.add_1_r, scale_S; lia | rewrite PeanoNat.Nat.add_0_r; reflexivity]. }
  destruct j as [|j].
  - unfold behind_cell. cbn [nth_error c_ch c_nodes]. rewrite PeanoNat.Nat.add_0_r, E'. reflexivity.
  - unfold behind_cell. cbn [nth_error]. specialize (IH (S i) j prev ((if reducing L i then out * 2 else out) * Z.of_nat nodes) _ (reducing L i) E' ltac:(lia)).
    unfold behind_cell in IH. rewrite IH. do 4 f_equal. lia.
Qed.

(** ** Theorems *)
(** For images with sides divisible by 4, every selection of edges and operations runs and yields the maps of the selected
    cells, with the auxiliary map in front during training. *)
Theorem C155_forward : forall cands i base stem L nodes outs outs' aux,
  Forall darts_op cands -> 1 <= base -> 1 <= stem -> (1 <= nodes)%nat -> (1 <= L)%nat -> outs = outs' ++ [(L - 1)%nat] ->
  exists n, build_darts cands i base stem L nodes outs aux = Ok n /\
    forall sel training h w, selects cands sel -> 1 <= h -> 1 <= w -> (4 | h) -> (4 | w) ->
      (training = true -> aux <> None -> roomy L nodes base h w) ->
      run_darts n sel training {| ch := i; ht := h; wd := w |}
        = Ok (front L nodes base h w aux training ++ chosen outs (map (cell_map L nodes base h w) (seq 0 L))).
Proof.
  intros cands i base stem L nodes outs outs' aux Hd Hb Hst Hn HL Eo. unfold build_darts. rewrite Eo, rev_app_distr. cbn [rev app].
  replace (Z.of_nat (L - 1) =? Z.of_nat L - 1) with true by (symmetry; apply Z.eqb_eq; lia). cbn [assert_ bind].
  set (sb := stem * base). assert (R0 : reductions L 0 = 0%nat) by reflexivity.
  assert (N : all_ok (new_cell cands) (make_cells L nodes (seq 0 L) sb sb base false) = Ok tt).
  { destruct cands as [|o cs].
    - apply new_all. intros c _. apply new_all. intros d _. apply new_all. intros k _. reflexivity.
    - assert (Se : selects (o :: cs) (fun _ _ _ => [o])).
      { split; [intros c k; exists 0%nat; split; [lia | discriminate] | intros c k j p [<- | []]; left; reflexivity]. }
      destruct (cells_ok 0 (o :: cs) (fun _ _ _ => [o]) outs None false L nodes base 1 1 Hd Se Hb Hn ltac:(lia) ltac:(lia) ltac:(discriminate)
                  L 0 sb sb base false 4 4 []) as (A & _); try discriminate; try reflexivity; [|exact A]. rewrite R0. change (scale 0) with 1. lia. }
  rewrite N. cbn [bind]. eexists. split; [reflexivity|]. intros sel training h w Hsel Hh Hw (p & Ep) (q & Eq) Hro.
  unfold run_darts. cbn [d_in d_stem d_cells d_outs d_aux]. rewrite conv_same by (cbn [ch ht wd]; lia). cbn [bind ht wd]. rewrite !up_one.
  assert (L3 : (2 * L / 3 < L)%nat) by (apply PeanoNat.Nat.div_lt_upper_bound; lia).
  rewrite (make_cells_nth L nodes base L 0 (2 * L / 3) sb sb base false) by (assumption || (rewrite R0; change (scale 0) with 1; lia)).
  cbn [Nat.add].
  change (match aux with Some (a, o) => Some ((2 * L / 3)%nat, (base * scale (reductions L (S (2 * L / 3))) * Z.of_nat nodes, a, o)) | None => None end) with (hook L nodes base aux).
  subst h w. destruct (cells_ok (2 * L / 3) cands sel (outs' ++ [(L - 1)%nat]) aux training L nodes base p q Hd Hsel Hb Hn ltac:(lia) ltac:(lia) Hro L 0 sb sb base false (p * 4) (q * 4) []) as (_ & R).
  - rewrite R0. change (scale 0) with 1. lia.
  - rewrite R0. change (scale 0) with 1. rewrite Z.div_1_r. reflexivity.
  - rewrite R0. change (scale 0) with 1. rewrite Z.div_1_r. reflexivity.
  - discriminate.
  - unfold shape in R at 1 2. replace (Nat.leb 0 (2 * L / 3) && Nat.ltb (2 * L / 3) (0 + L)) with true in R; [exact R|].
    symmetry. apply andb_true_intro. split; [apply PeanoNat.Nat.leb_le; lia | apply PeanoNat.Nat.ltb_lt; assumption].
Qed.
(** The last map has four times the channels and a quarter of the resolution; with a single cell, twice and a half. *)
Lemma reductions_all L : (2 <= L)%nat -> reductions L L = 2%nat.
Proof.
  intros H. apply PeanoNat.Nat.le_antisymm; [apply reductions_bound|]. unfold reductions.
  change 2%nat with (length [L / 3; 2 * L / 3]%nat).
  assert (A : (L / 3 < 2 * L / 3)%nat).
  { pose proof (PeanoNat.Nat.div_mod L 3 ltac:(lia)). pose proof (PeanoNat.Nat.mod_upper_bound L 3 ltac:(lia)).
    apply PeanoNat.Nat.lt_le_trans with (S (L / 3)); [lia|]. apply PeanoNat.Nat.div_le_lower_bound; lia. }
  assert (B : (2 * L / 3 < L)%nat) by (apply PeanoNat.Nat.div_lt_upper_bound; lia).
  apply NoDup_incl_length.
  - constructor; [intros [E | []]; lia|]. constructor; [intros [] | constructor].
  - intros i [<- | [<- | []]]; apply filter_In; (split; [apply in_seq; lia|]); unfold reducing; rewrite PeanoNat.Nat.eqb_refl, ?orb_true_r; reflexivity.
Qed.
Theorem C155_last : forall L nodes base h w, (1 <= L)%nat ->
  cell_map L nodes base h w (L - 1) = (let f := if Nat.eqb L 1 then 2 else 4 in {| ch := base * f * Z.of_nat nodes; ht := h / f; wd := w / f |}).
Proof.
  intros L nodes base h w H. unfold cell_map. replace (S (L - 1)) with L by lia. destruct (PeanoNat.Nat.eq_dec L 1) as [-> | Ne].
  - reflexivity.
  - rewrite reductions_all by lia. replace (Nat.eqb L 1) with false by (symmetry; apply PeanoNat.Nat.eqb_neq; assumption). reflexivity.
Qed.
(** The last index must name the last cell. *)
Theorem C155_index : forall cands i base stem L nodes outs k aux, k <> (L - 1)%nat \/ L = 0%nat ->
  build_darts cands i base stem L nodes (outs ++ [k]) aux = Raise AssertionError
  /\ build_darts cands i base stem L nodes [] aux = Raise IndexError.
Proof.
  intros cands i base stem L nodes outs k aux H. unfold build_darts. rewrite rev_app_distr. cbn [rev app].
  replace (Z.of_nat k =? Z.of_nat L - 1) with false by (symmetry; apply Z.eqb_neq; lia). split; reflexivity.
Qed.

(** Images of every size pass, as they do through the other backbones. *)
Definition C155_claim : Prop := forall cands i base stem L nodes outs n sel h w,
  Forall darts_op cands -> selects cands sel -> 1 <= h -> 1 <= w ->
  build_darts cands i base stem L nodes outs None = Ok n -> exists ys, run_darts n sel false {| ch := i; ht := h; wd := w |} = Ok ys.
Definition pools (c k i : nat) : list op := if Nat.ltb i 2 then [DartsPoolBN 3] else [].
Lemma pools_selects : selects [DartsPoolBN 3] pools.
Proof. split; [intros c k; exists 0%nat; split; [lia | discriminate]|]. intros c k i o. unfold pools. destruct (Nat.ltb i 2); [auto | intros []]. Qed.
(** 30 x 30 works up to the first reduction only: the cell behind the second one cannot halve 15 x 15. *)
Theorem C155_size_refuted : ~ C155_claim.
Proof.
  intros H. destruct (H [DartsPoolBN 3] 3 4 3 8%nat 4%nat [7]%nat _ pools 30 30 ltac:(repeat constructor) pools_selects ltac:(lia) ltac:(lia) eq_refl) as (ys & E).
  vm_compute in E. discriminate.
Qed.
(** The auxiliary map is 1 x 1, as its comments say, for maps of 7 or 8 pixels only. *)
Theorem C155_aux_partial : forall o m, aux_map o m = {| ch := o; ht := 1; wd := 1 |} <-> (7 <= ht m <= 8 /\ 7 <= wd m <= 8).
Proof.
  intros o m. unfold aux_map. split.
  - intros E. injection E as E1 E2. clear - E1 E2. Z.div_mod_to_equations. lia.
  - intros (A & B). f_equal; [clear - A | clear - B]; Z.div_mod_to_equations; lia.
Qed.
(** Small images train without the auxiliary module, and only without it. *)
Theorem C155_aux_refuted : exists n n', build_darts [DartsPoolBN 3] 3 4 3 8 4 [7]%nat (Some (16, 32)) = Ok n /\ build_darts [DartsPoolBN 3] 3 4 3 8 4 [7]%nat None = Ok n'
  /\ run_darts n pools true {| ch := 3; ht := 24; wd := 24 |} = Raise RuntimeError
  /\ run_darts n pools false {| ch := 3; ht := 24; wd := 24 |} = Ok [{| ch := 64; ht := 6; wd := 6 |}]
  /\ run_darts n' pools true {| ch := 3; ht := 24; wd := 24 |} = Ok [{| ch := 64; ht := 6; wd := 6 |}].
Proof. eexists. eexists. repeat split; vm_compute; reflexivity. Qed.
(** A node without inputs is rejected. *)
Theorem C155_empty : forall channels nd ts sel, (forall i, sel i = []) -> run_node sel channels nd ts = Raise TypeError.
Proof.
  intros channels nd ts sel H. unfold run_node. assert (E : forall i, run_edges sel channels nd i ts = Ok []).
  { induction ts as [|t r IH]; intros i; [reflexivity|]. cbn [run_edges]. rewrite H. cbn [bind]. rewrite IH. reflexivity. }
  rewrite E. reflexivity.
Qed.

Definition space : list op := [DartsZero; DartsSkipConnect; DartsPoolBN 3; DartsDilConv 5; DartsSepConv 3].
(** A supernet: all edges, all operations. *)
Example C155_example : Forall darts_op space /\ selects space (fun _ _ _ => space) /\ roomy 8 4 16 32 32
  /\ exists n, build_darts space 3 16 3 8 4 [3; 7]%nat (Some (128, 768)) = Ok n
     /\ run_darts n (fun _ _ _ => space) true {| ch := 3; ht := 32; wd := 32 |}
        = Ok [{| ch := 768; ht := 1; wd := 1 |}; {| ch := 128; ht := 16; wd := 16 |}; {| ch := 256; ht := 8; wd := 8 |}].
Proof.
  split; [|split; [|split]].
  - repeat (apply Forall_cons; [cbn; auto|]). apply Forall_nil.
  - split; [intros c k; exists 0%nat; split; [lia | discriminate] | auto].
  - unfold roomy, roomy_at. vm_compute. split; discriminate.
  - eexists. split; [reflexivity|]. vm_compute. reflexivity.
Qed.
Print Assumptions C155_forward.
Print Assumptions C155_last.
Print Assumptions C155_size_refuted.
Print Assumptions C155_aux_partial.
Print Assumptions C155_aux_refuted.
