(** * C164: fused convolutions, C165: the temperature of DCFF *)
From Coq Require Import Reals Lra.
From Verif Require Import Prelude Dynamic_Model Fuse_Model Fuse_Props.
Local Open Scope R_scope.

(** ** Specification *)
(** The number of channels in use: all without a mutable, and all if none is kept. *)
Definition in_use (m : option (list bool)) (all used : nat) : Prop :=
  match m with
  | None => used = all
  | Some m => (existsb (fun b => b) m = false /\ used = all) \/ (existsb (fun b => b) m = true /\ used = count_true m)
  end.
(** One group, or as many groups as inputs and outputs. *)
Definition supported (c : fconv) : Prop := f_groups c = 1%nat \/ (f_groups c = f_in c /\ f_in c = f_out c).
(** [p] holds the mixtures given by the rows of [choice] of the filters of [c], cut to the first
    [used] inputs. *)
Definition mixes (c : fconv) (choice : list (list R)) (used : nat) (p : params) : Prop :=
  let cin := Nat.min used (f_cin c) in
  let n := (cin * f_kh c * f_kw c)%nat in
  p_out p = length choice /\ p_cin p = cin /\ p_kh p = f_kh c /\ p_kw p = f_kw c /\
  length (p_rows p) = length choice /\ (forall r, In r (p_rows p) -> length r = n) /\
  (forall r q, (r < length choice)%nat -> (q < n)%nat ->
     entry (p_rows p) r q = Sum (f_out c) (fun j => entry choice r j * entry (f_rows c) j q)) /\
  match f_bias c, p_bias p with
  | None, None => True
  | Some b, Some b' => length b' = length choice /\
      forall r, (r < length choice)%nat -> nth r b' 0 = Sum (f_out c) (fun j => entry choice r j * nth j b 0)
  | _, _ => False
  end.

(** Full claim: with a channel out of use, a supported convolution runs with the mixtures. *)
Definition C164_claim : Prop := forall c choice uin uout,
  shaped c -> supported c -> (forall r, In r choice -> length r = f_out c) ->
  (0 < f_cin c)%nat -> (0 < f_kh c)%nat -> (0 < f_kw c)%nat ->
  in_use (f_in_mut c) (f_in c) uin -> in_use (f_out_mut c) (f_out c) uout -> (0 < uin)%nat -> uin <> f_in c \/ uout <> f_out c ->
  exists p, fuse c choice = Ok p /\ mixes c choice uin p.

(** ** Lemmas *)
Lemma active_spec m all used : in_use m all used -> active m all = used.
Proof.
  destruct m as [m|]; cbn; [|auto]. intros [[H ->]|[H ->]].
  - replace (count_true m) with 0%nat; [reflexivity|]. unfold count_true.
    induction m as [|[|] m IH]; cbn in *; [reflexivity|discriminate|apply IH; exact H].
  - destruct (Nat.eqb (count_true m) 0) eqn:E; [|reflexivity]. exfalso. apply Nat.eqb_eq in E. unfold count_true in E.
    induction m as [|[|] m IH]; cbn in *; [discriminate|discriminate|apply IH; assumption].
Qed.
Lemma chunks_concat (rows : list (list R)) n : (forall r, In r rows -> length r = n) -> chunks (length rows) n (concat rows) = rows.
Proof.
  induction rows as [|r rows IH]; intros H; [reflexivity|]. cbn [length chunks concat].
  assert (L : length r = n) by (apply H; left; reflexivity).
  rewrite <- L at 1. rewrite firstn_app, firstn_all, Nat.sub_diag. cbn [firstn]. rewrite app_nil_r.
  rewrite <- L at 2. rewrite skipn_app, skipn_all, Nat.sub_diag. cbn [skipn app]. rewrite IH; [reflexivity|]. intros x Hx. apply H. right. exact Hx.
Qed.
Lemma mm_row_nth a b n q : (q < n)%nat -> length a = length b ->
  nth q (mm_row a b n) 0 = Sum (length b) (fun j => nth j a 0 * entry b j q).
Proof.
  intros Hq L. unfold mm_row. rewrite (nth_map _ 0%nat) by (rewrite seq_length; exact Hq). rewrite seq_nth by exact Hq. cbn [plus].
  rewrite (rsum_map _ (0, [])), combine_length, L, Nat.min_id. apply Sum_ext. intros j Hj. rewrite nth_combine by exact L. reflexivity.
Qed.
Lemma mm_ok a b n : (forall r, In r a -> length r = length b) -> mm a b n = Ok (map (fun r => mm_row r b n) a).
Proof. intros H. unfold mm. replace (forallb _ a) with true; [reflexivity|]. symmetry. apply forallb_forall. intros r Hr. apply Nat.eqb_eq. apply H. exact Hr. Qed.
Lemma mm_entry a b n r q : (forall x, In x a -> length x = length b) -> (r < length a)%nat -> (q < n)%nat ->
  entry (map (fun x => mm_row x b n) a) r q = Sum (length b) (fun j => entry a r j * entry b j q).
Proof.
  intros H Hr Hq. unfold entry at 1. rewrite (nth_map _ []) by exact Hr. rewrite mm_row_nth; [reflexivity|exact Hq|]. apply H, nth_In. exact Hr.
Qed.
Lemma mm_row_length a b n : length (mm_row a b n) = n.
Proof. unfold mm_row. rewrite map_length, seq_length. reflexivity. Qed.
Lemma nth_firstn_lt {A} (d : A) : forall n i l, (i < n)%nat -> nth i (firstn n l) d = nth i l d.
Proof. induction n as [|n IH]; intros i [|x l] H; cbn; try lia; try reflexivity; destruct i; cbn; try reflexivity. apply IH. lia. Qed.

(** ** Mixing *)
(** What does hold: the claim for square kernels. *)
Theorem C164_fuse_partial : forall c choice uin uout,
  f_kh c = f_kw c ->
  shaped c -> supported c -> (forall r, In r choice -> length r = f_out c) ->
  (0 < f_cin c)%nat -> (0 < f_kh c)%nat -> (0 < f_kw c)%nat ->
  in_use (f_in_mut c) (f_in c) uin -> in_use (f_out_mut c) (f_out c) uout -> (0 < uin)%nat -> uin <> f_in c \/ uout <> f_out c ->
  exists p, fuse c choice = Ok p /\ mixes c choice uin p.
Proof.
  intros c choice uin uout Hk (L & Hrows & Hb) Hsup Hch Hc Hkh Hkw Hin Hout Hu Hne.
  unfold fuse. cbv zeta. rewrite (active_spec _ _ _ Hin), (active_spec _ _ _ Hout).
  replace (Nat.eqb uin (f_in c) && Nat.eqb uout (f_out c)) with false.
  2: { symmetry. apply andb_false_iff. rewrite !Nat.eqb_neq. tauto. }
  replace (Nat.eqb (f_groups c) 1 || (Nat.eqb (f_groups c) (f_in c) && Nat.eqb (f_in c) (f_out c))) with true.
  2: { symmetry. apply orb_true_iff. rewrite andb_true_iff, !Nat.eqb_eq. exact Hsup. }
  set (cin := Nat.min uin (f_cin c)). set (n := (cin * f_kh c * f_kw c)%nat).
  set (w := map (firstn n) (f_rows c)). assert (Lw : length w = f_out c) by (unfold w; rewrite map_length; exact L).
  assert (Hch' : forall r, In r choice -> length r = length w) by (intros r Hr; rewrite Lw; apply Hch; exact Hr).
  rewrite (mm_ok choice w n Hch'). cbn [bind]. set (fused := map (fun r => mm_row r w n) choice).
  assert (Hf : forall r, In r fused -> length r = n) by (intros r Hr; apply in_map_iff in Hr as (x & <- & _); apply mm_row_length).
  assert (Lf : length fused = length choice) by (unfold fused; apply map_length).
  assert (Pn : (0 < n)%nat) by (unfold n, cin; repeat apply Nat.mul_pos_pos; lia).
  assert (En : (cin * f_kh c * f_kh c)%nat = n) by (unfold n; rewrite <- Hk; reflexivity).
  unfold reshape_k. rewrite En. replace (Nat.eqb n 0) with false by (symmetry; apply Nat.eqb_neq; lia).
  rewrite Nat.mod_mul by lia. cbn [Nat.eqb]. rewrite Nat.div_mul by lia. rewrite chunks_concat by exact Hf. cbn [bind].
  assert (Hent : forall r q, (r < length choice)%nat -> (q < n)%nat -> entry fused r q = Sum (f_out c) (fun j => entry choice r j * entry (f_rows c) j q)).
  { intros r q Hr Hq. unfold fused. rewrite mm_entry by assumption. rewrite Lw. apply Sum_ext. intros j Hj. f_equal.
    unfold entry, w. rewrite (nth_map _ []) by lia. apply nth_firstn_lt. exact Hq. }
  destruct (f_bias c) as [b|] eqn:Eb.
  - assert (Lb : length b = f_out c) by (apply Hb; reflexivity).
    assert (Hch2 : forall r, In r choice -> length r = length (map (fun x => [x]) b)) by (intros r Hr; rewrite map_length, Lb; apply Hch; exact Hr).
    rewrite (mm_ok choice _ 1 Hch2). cbn [bind]. eexists. split; [reflexivity|].
    unfold mixes. fold cin. fold n. cbn [p_out p_cin p_kh p_kw p_rows p_bias]. rewrite Eb, Lf. repeat (split; [first [reflexivity|exact Hk|assumption]|]).
    split; [rewrite !map_length; reflexivity|]. intros r Hr.
    rewrite (nth_map _ []) by (rewrite map_length; exact Hr). rewrite (nth_map _ []) by exact Hr.
    rewrite mm_row_nth by (try lia; apply Hch2, nth_In; exact Hr). rewrite map_length, Lb. apply Sum_ext. intros j Hj.
    f_equal. unfold entry. rewrite (nth_map _ 0) by lia. reflexivity.
  - eexists. split; [reflexivity|]. unfold mixes. fold cin. fold n. cbn [p_out p_cin p_kh p_kw p_rows p_bias]. rewrite Eb, Lf.
    repeat (split; [first [reflexivity|exact Hk|assumption]|]). exact I.
Qed.
Print Assumptions C164_fuse_partial.

(** A 1x3 kernel: one filter of two is kept, but three 1x1 filters come out. *)
Theorem C164_fuse_refuted : ~ C164_claim.
Proof.
  intros H.
  destruct (H {| f_in := 1; f_out := 2; f_groups := 1; f_cin := 1; f_kh := 1; f_kw := 3; f_rows := [[0; 0; 0]; [0; 0; 0]]; f_bias := None;
                 f_in_mut := None; f_out_mut := Some [true; false] |} [[1; 0]] 1%nat 1%nat) as (p & E & M).
  - split; [reflexivity|]. split; [intros r [<-|[<-|[]]]; reflexivity|discriminate].
  - left. reflexivity.
  - intros r [<-|[]]. reflexivity.
  - cbn. lia.
  - cbn. lia.
  - cbn. lia.
  - reflexivity.
  - right. split; reflexivity.
  - lia.
  - right. cbn. lia.
  - apply Ok_inj in E. subst p. destruct M as (M & _). cbn in M. discriminate.
Qed.
Print Assumptions C164_fuse_refuted.

(** Mixed filters are always square with the height of the kernel, whatever its width: a kernel that is [k] times as wide as high
    comes out as [k] times as many filters. *)
Theorem C164_square : forall c choice p, fuse c choice = Ok p -> p = own_params c \/
  (p_kh p = f_kh c /\ p_kw p = f_kh c /\ (p_out p = length choice * (p_cin p * f_kh c * f_kw c) / (p_cin p * f_kh c * f_kh c))%nat).
Proof.
  intros c choice p. unfold fuse. cbv zeta. destruct (_ && _); [intros H; left; apply Ok_inj in H; congruence|].
  destruct (_ || _); [|intros H; discriminate H]. unfold mm. set (cin := Nat.min _ _).
  destruct (forallb _ choice) eqn:Ef; cbn [bind]; [|intros H; discriminate H].
  unfold reshape_k. destruct (Nat.eqb (cin * f_kh c * f_kh c) 0); cbn [bind]; [intros H; discriminate H|]. rewrite map_length.
  destruct (Nat.eqb _ 0); cbn [bind]; [|intros H; discriminate H]. intros H. right.
  assert (L : forall n k (l : list R), length (chunks n k l) = n) by (intros n; induction n as [|n IH]; intros k l; cbn [chunks length]; [reflexivity | f_equal; apply IH]).
  destruct (f_bias c) as [b|]; cbn [bind] in H.
  - destruct (forallb _ choice) eqn:Eb in H; cbn [bind] in H; [|discriminate H]. apply Ok_inj in H. subst p. cbn [p_kh p_kw p_out p_cin]. rewrite L. auto.
  - apply Ok_inj in H. subst p. cbn [p_kh p_kw p_out p_cin]. rewrite L. auto.
Qed.
Print Assumptions C164_square.
Example C164_square_example :
  fuse {| f_in := 1; f_out := 2; f_groups := 1; f_cin := 1; f_kh := 1; f_kw := 3; f_rows := [[0; 0; 0]; [0; 0; 0]]; f_bias := None;
          f_in_mut := None; f_out_mut := Some [true; false] |} [[1; 0]] <> Raise RuntimeError.
Proof. cbn. discriminate. Qed.

(** With all channels in use the own weights are used. *)
Theorem C164_all : forall c choice,
  in_use (f_in_mut c) (f_in c) (f_in c) -> in_use (f_out_mut c) (f_out c) (f_out c) -> fuse c choice = Ok (own_params c).
Proof. intros c choice Hi Ho. unfold fuse. cbv zeta. rewrite (active_spec _ _ _ Hi), (active_spec _ _ _ Ho), !Nat.eqb_refl. reflexivity. Qed.
Print Assumptions C164_all.
Example C164_all_example : fuse ex_conv [[1]] <> Ok (own_params ex_conv) /\
  fuse {| f_in := 2; f_out := 1; f_groups := 1; f_cin := 2; f_kh := 1; f_kw := 1; f_rows := [[3; 4]]; f_bias := None;
          f_in_mut := Some [false; false]; f_out_mut := Some [true] |} [[7]]
  = Ok {| p_out := 1; p_cin := 2; p_kh := 1; p_kw := 1; p_rows := [[3; 4]]; p_bias := None |}.
Proof. split; [cbn; discriminate|reflexivity]. Qed.

(** Other grouped convolutions are refused as soon as a channel is out of use. *)
Theorem C164_groups : forall c choice uin uout,
  ~ supported c -> in_use (f_in_mut c) (f_in c) uin -> in_use (f_out_mut c) (f_out c) uout -> uin <> f_in c \/ uout <> f_out c ->
  fuse c choice = Raise NotImplementedError.
Proof.
  intros c choice uin uout Hsup Hin Hout Hne. unfold fuse. cbv zeta. rewrite (active_spec _ _ _ Hin), (active_spec _ _ _ Hout).
  replace (Nat.eqb uin (f_in c) && Nat.eqb uout (f_out c)) with false.
  2: { symmetry. apply andb_false_iff. rewrite !Nat.eqb_neq. tauto. }
  replace (Nat.eqb (f_groups c) 1 || (Nat.eqb (f_groups c) (f_in c) && Nat.eqb (f_in c) (f_out c))) with false; [reflexivity|].
  symmetry. apply not_true_iff_false. rewrite orb_true_iff, andb_true_iff, !Nat.eqb_eq. exact Hsup.
Qed.
Print Assumptions C164_groups.
Example C164_groups_example :
  fuse {| f_in := 4; f_out := 2; f_groups := 2; f_cin := 2; f_kh := 1; f_kw := 1; f_rows := [[1; 2]; [3; 4]]; f_bias := None;
          f_in_mut := None; f_out_mut := Some [true; false] |} [[1; 0]] = Raise NotImplementedError.
Proof. reflexivity. Qed.

(** ** Pruning with DCFF *)
(** After [calc_information] a square convolution whose outputs are pruned to [k] channels runs
    with [k] filters, each the mixture for one of the [k] best scored filters; every weight and
    bias lies between the smallest and the largest of the filters mixed. *)
Theorem C164_dcff : forall topk c tau m choice uin,
  is_topk topk -> 0 < tau -> shaped c -> supported c -> f_kh c = f_kw c ->
  (0 < f_cin c)%nat -> (0 < f_kh c)%nat -> in_use (f_in_mut c) (f_in c) uin -> (0 < uin)%nat ->
  f_out_mut c = Some m -> length m = f_out c -> (0 < count_true m < f_out c)%nat ->
  exists ids p, best c tau (count_true m) ids /\
    (do ms <- calc_information topk tau [[FConv c choice]];
     match ms with [[FConv c' (Some ch)]] => fuse c' ch | _ => Raise TypeError end) = Ok p /\
    p_out p = count_true m /\ p_kh p = f_kh c /\ p_kw p = f_kw c /\ p_cin p = Nat.min uin (f_cin c) /\
    (forall r q lo hi, (r < count_true m)%nat -> (q < p_cin p * p_kh p * p_kw p)%nat ->
       entry (p_rows p) r q = mixed c tau (nth r ids 0%nat) (fun j => entry (f_rows c) j q) /\
       ((forall j, (j < f_out c)%nat -> lo <= entry (f_rows c) j q <= hi) -> lo <= entry (p_rows p) r q <= hi)) /\
    (forall b, f_bias c = Some b -> exists b', p_bias p = Some b' /\
       forall r lo hi, (r < count_true m)%nat -> nth r b' 0 = mixed c tau (nth r ids 0%nat) (fun j => nth j b 0) /\
         ((forall j, (j < f_out c)%nat -> lo <= nth j b 0 <= hi) -> lo <= nth r b' 0 <= hi)).
Proof.
  intros topk c tau m choice uin Ht Htau Hs Hsup Hk Hc Hkh Hin Hu Hm Lm Hcount.
  destruct (C163_pooled topk c tau m Ht Hs Hm Lm) as (ids & Hbest & E). exists ids.
  pose proof Hbest as (Nd & Lids & Hr & _).
  set (ch := map (fun i => map (share c tau i) (seq 0 (f_out c))) ids) in *.
  assert (Lch : length ch = count_true m) by (unfold ch; rewrite map_length; exact Lids).
  assert (Hch : forall r, In r ch -> length r = f_out c).
  { intros r Hr'. apply in_map_iff in Hr' as (i & <- & _). rewrite map_length, seq_length. reflexivity. }
  destruct (C164_fuse_partial c ch uin (count_true m)) as (p & Ep & M1 & M2 & M3 & M4 & M5 & M6 & M7 & M8); try assumption; try lia.
  { rewrite Hm. cbn. right. split; [|reflexivity]. destruct (existsb (fun b => b) m) eqn:X; [reflexivity|exfalso].
    assert (Z : count_true m = 0%nat); [|lia]. clear - X. unfold count_true. induction m as [|[|] m IH]; cbn in *; [reflexivity|discriminate|auto]. }
  exists p. split; [exact Hbest|]. split; [cbn; rewrite E; cbn; exact Ep|].
  split; [lia|]. split; [exact M3|]. split; [exact M4|]. split; [exact M2|].
  assert (Hids : forall r, (r < count_true m)%nat -> (nth r ids 0 < f_out c)%nat) by (intros r Hr'; apply Hr, nth_In; lia).
  assert (Hmix : forall r v, (r < count_true m)%nat -> Sum (f_out c) (fun j => entry ch r j * v j) = mixed c tau (nth r ids 0%nat) v).
  { intros r v Hr'. unfold mixed. apply Sum_ext. intros j Hj. f_equal. unfold entry, ch. rewrite (nth_map _ 0%nat) by lia. apply nth_shares. exact Hj. }
  split.
  - intros r q lo hi Hr' Hq. rewrite M2, M3, M4 in Hq.
    assert (X : entry (p_rows p) r q = mixed c tau (nth r ids 0%nat) (fun j => entry (f_rows c) j q)) by (rewrite M7 by (rewrite ?Lch; assumption); apply Hmix; exact Hr').
    split; [exact X|]. intros Hb. rewrite X. apply C163_convex; [exact Htau|apply Hids; exact Hr'|exact Hb].
  - intros b Hb. rewrite Hb in M8. destruct (p_bias p) as [b'|]; [|destruct M8]. destruct M8 as [_ M8]. exists b'. split; [reflexivity|].
    intros r lo hi Hr'.
    assert (X : nth r b' 0 = mixed c tau (nth r ids 0%nat) (fun j => nth j b 0)) by (rewrite M8 by (rewrite Lch; exact Hr'); apply Hmix; exact Hr').
    split; [exact X|]. intros H. rewrite X. apply C163_convex; [exact Htau|apply Hids; exact Hr'|exact H].
Qed.
Print Assumptions C164_dcff.
(** The example of C163 with any choice of topk: one of three filters is kept. *)
Example C164_dcff_example : forall topk, is_topk topk -> exists p,
  (do ms <- calc_information topk 1 [[FConv ex_conv None]];
   match ms with [[FConv c' (Some ch)]] => fuse c' ch | _ => Raise TypeError end) = Ok p /\
  p_out p = 1%nat /\ p_cin p = 2%nat /\ 0 <= entry (p_rows p) 0 1 <= 4.
Proof.
  intros topk Ht.
  destruct (C164_dcff topk ex_conv 1 [true; false; false] None 2%nat) as (ids & p & _ & E & P1 & P3 & P4 & P2 & P5 & _);
    try assumption; try reflexivity; try (cbn; lia); try lra; [apply C163_example_shaped|left; reflexivity|].
  exists p. split; [exact E|]. split; [exact P1|]. split; [exact P2|]. apply P5; [cbn; lia| |].
  - rewrite P2, P3, P4. cbn. lia.
  - intros [|[|[|j]]] Hj; cbn in *; try lia; lra.
Qed.

(** ** Export *)
(** Exporting a fixed layer keeps what it computes, for inputs with the channels in use. *)
Theorem C164_static : forall X channels conv2d c choice s x,
  fuse_static c true choice = Ok s ->
  (supported c -> f_groups c = f_in c -> f_in c = f_out c -> in_use (f_in_mut c) (f_in c) (channels x)) ->
  static_forward X conv2d s x = fuse_forward X channels conv2d c choice x.
Proof.
  intros X channels conv2d c choice s x E Hx. unfold fuse_static in E. unfold fuse_forward, static_forward.
  destruct (fuse c choice) as [p|e] eqn:Ef; cbn [bind] in E |- *; [|discriminate].
  set (g := match f_in_mut c with Some m => if depthwise c then count_true m else f_groups c | None => f_groups c end) in E.
  destruct (Nat.eqb g 0) eqn:G0; [discriminate|]. destruct (Nat.eqb (p_out p mod g) 0); [|discriminate].
  apply Ok_inj in E. subst s. cbn. f_equal.
  unfold g in *. clear g. unfold depthwise in *. destruct (Nat.eqb (f_groups c) (f_in c) && Nat.eqb (f_in c) (f_out c)) eqn:D.
  - apply andb_true_iff in D as [D1 D2]. apply Nat.eqb_eq in D1, D2.
    specialize (Hx (or_intror (conj D1 D2)) D1 D2). destruct (f_in_mut c) as [m|]; cbn in Hx.
    + destruct Hx as [[Hz _]|[_ ->]]; [|reflexivity]. exfalso. apply Nat.eqb_neq in G0. apply G0.
      clear - Hz. unfold count_true. induction m as [|[|] m IH]; cbn in *; [reflexivity|discriminate|auto].
    + rewrite Hx. exact D1.
  - destruct (f_in_mut c); reflexivity.
Qed.
Print Assumptions C164_static.
(** When export works, for pruned layers with one group and for depthwise layers. *)
Theorem C164_exports : forall c choice fixed p,
  fuse c choice = Ok p -> supported c -> (0 < f_groups c)%nat ->
  ((exists s, fuse_static c fixed choice = Ok s) <->
   fixed = true /\ ((f_groups c = f_in c /\ f_in c = f_out c) ->
     match f_in_mut c with
     | Some m => (0 < count_true m)%nat /\ Nat.divide (count_true m) (p_out p)
     | None => Nat.divide (f_in c) (p_out p)
     end)).
Proof.
  intros c choice fixed p Ef Hsup Hg. unfold fuse_static. destruct fixed.
  2: { split; [intros [s H]; discriminate|intros [H _]; discriminate]. }
  rewrite Ef. cbn [bind]. unfold depthwise.
  assert (Q : forall g, (exists s, (if Nat.eqb g 0 then Raise ValueError else if Nat.eqb (p_out p mod g) 0 then Ok {| k_in := p_cin p * g; k_out := p_out p; k_groups := g; k_params := p |} else Raise ValueError) = Ok s) <-> (0 < g)%nat /\ Nat.divide g (p_out p)).
  { intros g. destruct (Nat.eqb g 0) eqn:G.
    - apply Nat.eqb_eq in G. split; [intros [s H]; discriminate|lia].
    - apply Nat.eqb_neq in G. destruct (Nat.eqb (p_out p mod g) 0) eqn:Mo.
      + apply Nat.eqb_eq in Mo. apply Nat.mod_divide in Mo; [|exact G]. split; [intros _; split; [lia|exact Mo]|intros _; eexists; reflexivity].
      + apply Nat.eqb_neq in Mo. split; [intros [s H]; discriminate|intros [_ H]; exfalso; apply Mo, Nat.mod_divide; assumption]. }
  rewrite Q. clear Q.
  destruct (Nat.eqb (f_groups c) (f_in c) && Nat.eqb (f_in c) (f_out c)) eqn:D.
  - apply andb_true_iff in D as [D1 D2]. apply Nat.eqb_eq in D1, D2. destruct (f_in_mut c) as [m|].
    + tauto.
    + rewrite D1 in *. tauto.
  - assert (N : ~ (f_groups c = f_in c /\ f_in c = f_out c)) by (intros [A B]; rewrite A, B, !Nat.eqb_refl in D; discriminate).
    destruct Hsup as [H1|H1]; [|contradiction].
    assert (Nat.divide 1 (p_out p)) by (exists (p_out p); lia).
    destruct (f_in_mut c); rewrite H1; split; intros _; repeat split; try lia; try assumption; rewrite <- H1; tauto.
Qed.
Print Assumptions C164_exports.
(** A depthwise layer with two of three channels kept on both sides. *)
Definition ex_depthwise : fconv :=
  {| f_in := 3; f_out := 3; f_groups := 3; f_cin := 1; f_kh := 1; f_kw := 1; f_rows := [[1]; [2]; [3]]; f_bias := None;
     f_in_mut := Some [true; true; false]; f_out_mut := Some [true; true; false] |}.
Example C164_static_example : exists s, fuse_static ex_depthwise true [[1; 0; 0]; [0; 1; 0]] = Ok s /\ k_in s = 2%nat /\ k_out s = 2%nat /\ k_groups s = 2%nat.
Proof. eexists. split; [reflexivity|]. auto. Qed.
Example C164_exports_example : fuse_static ex_depthwise false [[1; 0; 0]; [0; 1; 0]] = Raise RuntimeError /\
  fuse_static ex_depthwise true [[1; 0; 0]] = Raise ValueError.
Proof. split; reflexivity. Qed.

(** * C165: the temperature falls from 1 to 1/10000 *)
Lemma exp_lt_1 n : (0 < n)%nat -> exp (- (1) * INR n) < 1.
Proof. intros H. apply Rlt_le_trans with (exp 0); [|rewrite exp_0; lra]. apply exp_increasing. assert (0 < INR n) by (apply lt_0_INR; exact H). lra. Qed.
Theorem C165_temperature : forall max, (0 < max)%nat ->
  calc_temperature 0 max = Ok 1 /\ calc_temperature max max = Ok (1 / 10000) /\
  forall cur cur', (cur < cur')%nat -> exists t t', calc_temperature cur max = Ok t /\ calc_temperature cur' max = Ok t' /\ 0 < t' < t.
Proof.
  intros max Hm. unfold calc_temperature. replace (Nat.eqb max 0) with false by (symmetry; apply Nat.eqb_neq; lia). cbv zeta.
  set (e := exp (- (1) * INR max)). assert (E : 0 < e < 1) by (split; [apply exp_pos|apply exp_lt_1; exact Hm]).
  set (A := 2 * (10000 - 1) * (1 + e) / (1 - e)).
  assert (PA : 0 < A) by (apply Rdiv_lt_0_compat; [apply Rmult_lt_0_compat; lra|lra]).
  split; [|split].
  - cbn [INR]. rewrite Rmult_0_r, exp_0. f_equal. field. lra.
  - fold e. f_equal. replace (A / (1 + e) + 1 - A / 2) with 10000; [reflexivity|]. unfold A. field. lra.
  - intros cur cur' H. eexists. eexists. split; [reflexivity|]. split; [reflexivity|].
    assert (X : exp (- (1) * INR cur') < exp (- (1) * INR cur)) by (apply exp_increasing; apply lt_INR in H; lra).
    pose proof (exp_pos (- (1) * INR cur')) as P'.
    assert (X1 : exp (- (1) * INR cur) <= 1).
    { apply Rle_trans with (exp 0); [|rewrite exp_0; lra]. pose proof (pos_INR cur) as PI. destruct PI as [PI|PI]; [left; apply exp_increasing; lra|right; f_equal; rewrite <- PI; ring]. }
    set (u := exp (- (1) * INR cur)) in *. set (u' := exp (- (1) * INR cur')) in *.
    assert (T0 : 1 <= A / (1 + u) + 1 - A / 2).
    { assert (A / 2 <= A / (1 + u)) by (apply Rmult_le_compat_l; [lra|apply Rinv_le_contravar; lra]). lra. }
    assert (T1 : A / (1 + u) < A / (1 + u')) by (apply Rmult_lt_compat_l; [exact PA|apply Rinv_lt_contravar; [apply Rmult_lt_0_compat; lra|lra]]).
    split; [apply Rdiv_lt_0_compat; lra|]. unfold Rdiv. apply Rmult_lt_compat_l; [lra|]. apply Rinv_lt_contravar; [apply Rmult_lt_0_compat; lra|lra].
Qed.
Print Assumptions C165_temperature.
Theorem C165_no_iterations : forall cur, calc_temperature cur 0 = Raise ZeroDivisionError.
Proof. reflexivity. Qed.
Print Assumptions C165_no_iterations.
Example C165_example : exists t, calc_temperature 3 10 = Ok t /\ 1 / 10000 < t < 1.
Proof.
  destruct (C165_temperature 10 ltac:(lia)) as (A & B & C).
  destruct (C 0%nat 3%nat ltac:(lia)) as (t0 & t1 & E0 & E1 & H1). destruct (C 3%nat 10%nat ltac:(lia)) as (t2 & t3 & E2 & E3 & H2).
  exists t1. split; [exact E1|]. rewrite A in E0. rewrite B in E3. rewrite E1 in E2. apply Ok_inj in E0, E2, E3. subst. lra.
Qed.
