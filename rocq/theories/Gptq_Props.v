(** C48, C49, C72-C75: GPTQ and quantization schemes. *)
From Coq Require Import Qround Qminmax Qabs Lqa Permutation.
From Verif Require Import Prelude SparseGpt_Lemmas Gptq_Model Gptq_Lemmas.
Open Scope Z_scope.

(** * C48: the quantizer *)
(** The full claim. *)
Definition C48_claim : Prop :=
  forall pow bits sym x v, (1 <= bits)%nat -> In v x ->
    let m := maxq_of bits false in
    let p := find_row pow m sym None x in
    (0 < scale p)%Q /\ (Qabs (quantize1 m p v - v) <= scale p)%Q /\
    (forall y, (quantize1 m p (quantize1 m p y) == quantize1 m p y)%Q).
(** Symmetric mode, all-positive data: the upper half of the range saturates. *)
Theorem C48_sym_positive_refuted : ~ C48_claim.
Proof.
  intros H. destruct (H (fun q => q) 4%nat true [1; 15]%Q 15%Q ltac:(lia) ltac:(right; left; reflexivity)) as (_ & E & _).
  vm_compute in E. apply E. reflexivity.
Qed.
Lemma quantize_near m p z x : 0 <= m -> (0 < scale p)%Q -> (zero p == inject_Z z)%Q -> 0 <= z <= m ->
  (- (1 # 2) <= x / scale p + inject_Z z)%Q -> (x / scale p - inject_Z (m - z) <= 1 # 2)%Q ->
  (Qabs (quantize1 m p x - x) <= scale p / 2)%Q.
Proof.
  intros M S Z0 B L U. rewrite (quantize_grid m p x z M Z0). set (t := (x / scale p)%Q) in *.
  assert (X : (x == scale p * t)%Q) by (unfold t; field; lra). destruct (rnd_near t) as [R1 R2]. rewrite Z0.
  set (k := Z.min (Z.max (rnd t + z) 0) m).
  assert (K : (inject_Z k - inject_Z z - t <= 1 # 2)%Q /\ (- (1 # 2) <= inject_Z k - inject_Z z - t)%Q).
  { unfold k. destruct (Z_lt_le_dec (rnd t + z) 0) as [A|A].
    - rewrite Z.max_r, Z.min_l by lia. change (inject_Z 0) with 0%Q.
      assert (A' : (inject_Z (rnd t + z) <= -1)%Q) by (change (-1)%Q with (inject_Z (-1)); rewrite <- Zle_Qle; lia). rewrite inject_Z_plus in A'. split; lra.
    - rewrite Z.max_l by lia. destruct (Z_lt_le_dec m (rnd t + z)) as [C|C].
      + rewrite Z.min_r by lia. assert (C' : (inject_Z m + 1 <= inject_Z (rnd t + z))%Q) by (rewrite <- inj_plus1, <- Zle_Qle; lia). rewrite inject_Z_plus in C'.
        unfold Z.sub in U. rewrite inject_Z_plus, inject_Z_opp in U. split; lra.
      + rewrite Z.min_l by lia. rewrite inject_Z_plus. split; lra. }
  assert (E : (scale p * (inject_Z k - inject_Z z) - x == scale p * (inject_Z k - inject_Z z - t))%Q).
  { transitivity (scale p * (inject_Z k - inject_Z z) - scale p * t)%Q; [rewrite <- X; reflexivity|ring]. }
  rewrite E. apply Qabs_Qle_condition. destruct K as [K1 K2]. set (d := (inject_Z k - inject_Z z - t)%Q) in *. set (u := scale p) in *.
  assert (HU : (u / 2 == u * (1 # 2))%Q) by field. rewrite HU. clear - S K1 K2. split; nra.
Qed.
(** Asymmetric mode: half a step. *)
Theorem C48_asym_partial :
  forall pow bits x v, (1 <= bits)%nat -> In v x ->
    let m := maxq_of bits false in
    let p := find_row pow m false None x in
    (0 < scale p)%Q /\ (Qabs (quantize1 m p v - v) <= scale p / 2)%Q.
Proof.
  intros pow bits x v H I m p. assert (M := maxq_pos bits H). fold m in M. destruct (range_spec false x) as (A & B & D & V & _).
  pose proof (params_good bits false x H) as G. fold m in G. cbn zeta in G. unfold p, find_row in *. destruct (V v I) as [V1 V2]. clear V.
  destruct (xrange false x) as [a b]. cbn [fst snd] in *. destruct G as [S _]. split; [exact S|].
  unfold params_of in *. destruct (Z.ltb_spec m 0); [lia|]. cbn [fst snd] in *. set (s := ((b - a) / inject_Z m)%Q) in *. cbn [scale] in S.
  assert (MP := inj_pos m M).
  assert (ZR : 0 <= rnd (- a / s) <= m) by (apply (zero_range m a b); try assumption; reflexivity).
  destruct (rnd_near (- a / s)) as [R1 R2].
  apply (quantize_near m _ (rnd (- a / s))); cbn [scale zero]; [lia|exact S|reflexivity|exact ZR| |].
  - assert (X : (a / s <= v / s)%Q) by (apply Qmult_le_compat_r; [exact V1|apply Qlt_le_weak, Qinv_lt_0_compat; exact S]).
    assert (Y : (- a / s == - (a / s))%Q) by (field; lra). clearbody s. lra.
  - assert (X : (v / s <= b / s)%Q) by (apply Qmult_le_compat_r; [exact V2|apply Qlt_le_weak, Qinv_lt_0_compat; exact S]).
    assert (Y : (- a / s == - (a / s))%Q) by (field; lra). assert (W : (b / s == inject_Z m + a / s)%Q).
    { unfold s. field. split; lra. }
    unfold Z.sub. rewrite inject_Z_plus, inject_Z_opp. clearbody s. lra.
Qed.
Example C48_asym_ex :
  let p := find_row (fun q => q) 15 false None [-(7#2); 1; 4]%Q in
  (scale p == 1 # 2)%Q /\ (zero p == 7)%Q /\ (quantize1 15 p (-(7#2)) == -(7#2))%Q /\ (quantize1 15 p 4 == 4)%Q.
Proof. vm_compute. auto. Qed.
(** Symmetric mode with a negative value: half a step. *)
Theorem C48_sym_partial :
  forall pow bits x v, (1 <= bits)%nat -> In v x -> (exists w, In w x /\ (w < 0)%Q) ->
    let m := maxq_of bits false in
    let p := find_row pow m true None x in
    (0 < scale p)%Q /\ (Qabs (quantize1 m p v - v) <= scale p / 2)%Q.
Proof.
  intros pow bits x v H I Ng m p. assert (M := maxq_pos bits H). fold m in M. destruct (range_spec true x) as (A & B & D & V & Sy & Ngr).
  specialize (Ngr eq_refl Ng). specialize (Sy eq_refl Ngr).
  pose proof (params_good bits true x H) as G. fold m in G. cbn zeta in G. unfold p, find_row in *. destruct (V v I) as [V1 V2]. clear V.
  destruct (xrange true x) as [a b]. cbn [fst snd] in *. destruct G as [S _]. split; [exact S|].
  unfold params_of in *. destruct (Z.ltb_spec m 0); [lia|]. cbn [fst snd] in *. set (s := ((b - a) / inject_Z m)%Q) in *. cbn [scale] in S.
  assert (MP := inj_pos m M). destruct (sym_zero_int bits H) as [E R]. fold m in E, R. set (h := 2 ^ (Z.of_nat bits - 1)) in *.
  assert (Mh : m = 2 * h - 1).
  { unfold m, h, maxq_of. replace (2 ^ Z.of_nat bits) with (2 * 2 ^ (Z.of_nat bits - 1)); [reflexivity|]. rewrite <- Z.pow_succ_r by lia. f_equal. lia. }
  assert (Mq : (inject_Z m == 2 * inject_Z h - 1)%Q).
  { rewrite Mh. unfold Z.sub. rewrite inject_Z_plus, inject_Z_mult. reflexivity. }
  assert (B2 : (b / s == inject_Z m / 2)%Q) by (unfold s; rewrite Sy; field; split; lra).
  apply (quantize_near m _ h); cbn [scale zero]; [lia|exact S|exact E|lia| |].
  - assert (X : (a / s <= v / s)%Q) by (apply Qmult_le_compat_r; [exact V1|apply Qlt_le_weak, Qinv_lt_0_compat; exact S]).
    assert (Y : (a / s == - (b / s))%Q) by (rewrite Sy; field; lra). rewrite B2, Mq in Y.
    assert (Y' : (a / s == - inject_Z h + (1 # 2))%Q) by (rewrite Y; field). lra.
  - assert (X : (v / s <= b / s)%Q) by (apply Qmult_le_compat_r; [exact V2|apply Qlt_le_weak, Qinv_lt_0_compat; exact S]).
    rewrite B2, Mq in X. assert (X' : (v / s <= inject_Z h - (1 # 2))%Q) by (eapply Qle_trans; [exact X|]; apply Qle_lteq; right; field).
    unfold Z.sub. rewrite inject_Z_plus, inject_Z_opp, Mq. lra.
Qed.
Example C48_sym_ex :
  let p := find_row (fun q => q) 15 true None [-1; 15]%Q in
  (scale p == 2)%Q /\ (zero p == 8)%Q /\ (quantize1 15 p 15 == 14)%Q /\ (quantize1 15 p (-1) == 0)%Q.
Proof. vm_compute. auto. Qed.
(** In every mode, also with the search over shrunk ranges: a positive step, at most 2^bits
    levels, and quantized values are not changed by a second quantization. *)
Theorem C48_grid :
  forall pow bits sym mse x, (1 <= bits)%nat -> mse_ok mse ->
    let m := maxq_of bits false in
    let p := find_row pow m sym mse x in
    (0 < scale p)%Q /\
    (forall y, exists k, 0 <= k < 2 ^ Z.of_nat bits /\ (quantize1 m p y == scale p * (inject_Z k - zero p))%Q) /\
    (forall y, (quantize1 m p (quantize1 m p y) == quantize1 m p y)%Q) /\
    (quantize1 m p 0 == 0)%Q.
Proof.
  intros pow bits sym mse x H O m p. pose proof (find_row_good pow bits sym mse x H O) as G. fold m in G. fold p in G. assert (M := maxq_pos bits H). fold m in M.
  split; [apply G|]. split; [|split].
  - intros y. destruct (quantize_on_grid m p y ltac:(lia) G) as (k & K & E). exists k. split; [unfold m, maxq_of in K; lia|exact E].
  - intros y. apply quantize_fixes; [lia|exact G|apply quantize_on_grid; [lia|exact G]].
  - apply quantize_fixes; [lia|exact G|]. destruct G as (_ & z & Z0 & B). exists z. split; [exact B|]. rewrite Z0. ring.
Qed.
Example C48_grid_ex : mse_ok (Some (100, 80)%nat) /\
  let p := find_row (fun q => q * q)%Q 3 false (Some (4, 3)%nat) [-1; 0; 0; 1; 8]%Q in (0 < scale p)%Q /\ (quantize1 3 p 0 == 0)%Q.
Proof. split; [apply Nat.leb_le; reflexivity|]. vm_compute. auto. Qed.
(** The search never makes the summed error larger. *)
Theorem C48_mse :
  forall pow bits sym grid steps x, (forall a b, (a == b)%Q -> (pow a == pow b)%Q) -> (1 <= bits)%nat -> (0 < steps <= grid)%nat ->
    let m := maxq_of bits false in
    (err pow m x (find_row pow m sym (Some (grid, steps)) x) <= err pow m x (find_row pow m sym None x))%Q /\
    forall i, (i < steps)%nat -> (err pow m x (find_row pow m sym (Some (grid, steps)) x) <= err pow m x (shrunk m sym (xrange sym x) grid i))%Q.
Proof.
  intros pow bits sym grid steps x Pw H G m. assert (M := maxq_pos bits H). fold m in M. unfold find_row.
  destruct (mse_fold pow m sym x grid (params_of m sym (xrange sym x)) steps) as [[E _]|(i & L & _ & _ & Mn)]; [lia|].
  split; [|exact Mn]. eapply Qle_trans; [apply (Mn 0%nat); lia|]. apply Qle_lteq. right.
  set (r := xrange sym x). assert (GP : (0 < inject_Z (Z.of_nat grid))%Q) by (apply inj_pos; lia).
  set (c := (1 - inject_Z (Z.of_nat 0) / inject_Z (Z.of_nat grid))%Q).
  assert (C1 : (c == 1)%Q) by (unfold c; change (inject_Z (Z.of_nat 0)) with 0%Q; field; lra).
  assert (S : (scale (shrunk m sym r grid 0) == scale (params_of m sym r))%Q).
  { unfold shrunk, params_of. fold c. destruct (Z.ltb_spec m 0); [lia|]. cbn [scale fst snd]. rewrite C1. apply Qmult_comp; [ring|reflexivity]. }
  assert (Z : zero (shrunk m sym r grid 0) = zero (params_of m sym r)).
  { pose proof S as S'. unfold shrunk, params_of in *. fold c in S' |- *. destruct (Z.ltb_spec m 0); [lia|]. cbn [zero scale fst snd] in *. destruct sym; [reflexivity|]. f_equal. apply rnd_comp. rewrite S', C1. apply Qmult_comp; [ring|reflexivity]. }
  assert (QE : forall v, (quantize1 m (shrunk m sym r grid 0) v == quantize1 m (params_of m sym r) v)%Q).
  { intros v. unfold quantize1. destruct (Z.ltb_spec m 0); [lia|]. rewrite Z.
    assert (RC : rnd (v / scale (shrunk m sym r grid 0)) = rnd (v / scale (params_of m sym r))) by (apply rnd_comp; rewrite S; reflexivity).
    rewrite RC. apply Qmult_comp; [exact S|reflexivity]. }
  unfold err. induction x as [|v l IH]; [reflexivity|]. clear IH L Mn. clearbody r. revert QE. generalize (v :: l) as l'. intros l' QE.
  induction l' as [|u l' IH]; [reflexivity|]. cbn [map fold_right]. rewrite IH. apply Qplus_comp; [|reflexivity]. apply Pw. rewrite QE. reflexivity.
Qed.
Example C48_mse_ex :
  let x := [-1; 0; 0; 0; 0; 0; 0; 8]%Q in let sq := (fun q => q * q)%Q in
  (err sq 1 x (find_row sq 1 false (Some (4, 3)%nat) x) < err sq 1 (-1 :: x) (find_row sq 1 false None (-1 :: x)))%Q.
Proof. vm_compute. reflexivity. Qed.

(** Ternary mode: three levels, and never more than half of the larger side away. *)
Theorem C48_trits :
  forall pow bits sym x v, In v x ->
    let m := maxq_of bits true in
    let p := find_row pow m sym None x in
    exists lo hi, (lo <= 0)%Q /\ (0 <= hi)%Q /\ (forall w, In w x -> (lo <= w)%Q /\ (w <= hi)%Q) /\
      ((quantize1 m p v == lo)%Q \/ (quantize1 m p v == 0)%Q \/ (quantize1 m p v == hi)%Q) /\
      ((Qabs (quantize1 m p v - v) <= hi / 2)%Q \/ (Qabs (quantize1 m p v - v) <= - lo / 2)%Q).
Proof.
  intros pow bits sym x v I m p. destruct (range_spec sym x) as (A & B & D & V & _). exists (fst (xrange sym x)), (snd (xrange sym x)).
  split; [exact A|]. split; [exact B|]. split; [exact V|]. destruct (V v I) as [V1 V2]. unfold p, find_row, params_of, m, maxq_of, quantize1. change (-1 <? 0) with true. cbn [scale zero].
  set (lo := fst (xrange sym x)) in *. set (hi := snd (xrange sym x)) in *. clearbody lo hi. clear p V I.
  assert (H2 : (hi / 2 == hi * (1 # 2))%Q) by field. assert (L2 : (lo / 2 == lo * (1 # 2))%Q) by field. assert (L3 : (- lo / 2 == - lo * (1 # 2))%Q) by field.
  destruct (Qlt_le_dec (hi / 2) v) as [C|C].
  - assert (E1 : Qle_bool v (hi / 2) = false) by (apply Bool.not_true_iff_false; intros E; apply Qle_bool_iff in E; lra).
    assert (E2 : Qle_bool (lo / 2) v = true) by (apply Qle_bool_iff; lra). rewrite E1, E2. cbn [negb].
    split; [right; right; ring|]. left. apply Qabs_Qle_condition. split; lra.
  - assert (E1 : Qle_bool v (hi / 2) = true) by (apply Qle_bool_iff; exact C). rewrite E1. destruct (Qlt_le_dec v (lo / 2)) as [G|G].
    + assert (E2 : Qle_bool (lo / 2) v = false) by (apply Bool.not_true_iff_false; intros E; apply Qle_bool_iff in E; lra). rewrite E2. cbn [negb].
      split; [left; ring|]. right. apply Qabs_Qle_condition. split; lra.
    + assert (E2 : Qle_bool (lo / 2) v = true) by (apply Qle_bool_iff; exact G). rewrite E2. cbn [negb]. split; [right; left; ring|].
      destruct (Qlt_le_dec v 0); [right|left]; apply Qabs_Qle_condition; split; lra.
Qed.
Example C48_trits_ex :
  let p := find_row (fun q => q) (maxq_of 4 true) false None [-4; 1; 3; 5]%Q in
  map (fun v => Qred (quantize1 (-1) p v)) [-4; 1; 3; 5]%Q = [-4; 0; 5; 5]%Q.
Proof. vm_compute. reflexivity. Qed.

(** * C49: ranges of the quantization schemes *)
Lemma get_put {A} k (v : A) k' : forall l, get k' (put k v l) = if String.eqb k k' then Some v else get k' l.
Proof.
  induction l as [|[k1 v1] l IH]; cbn [put get]; [reflexivity|]. destruct (String.eqb_spec k1 k) as [->|N]; cbn [get].
  - destruct (String.eqb k k'); reflexivity.
  - rewrite IH. destruct (String.eqb_spec k1 k') as [->|N']; [|reflexivity]. destruct (String.eqb_spec k k') as [->|_]; [contradiction|reflexivity].
Qed.
Lemma params_get h k : get k (to_observer_params h) = match get k (naive_para h) with Some v => Some v | None => get k (h_kwargs h) end.
Proof.
  unfold to_observer_params, naive_para. destruct (h_per_channel h); cbn [app fold_left fst snd]; rewrite !get_put; cbn [get];
  repeat match goal with |- context [String.eqb ?a k] => destruct (String.eqb_spec a k) as [<-|?]; [reflexivity|] end; reflexivity.
Qed.
Definition is_naive (k : string) : bool := existsb (String.eqb k) ["dtype"; "quant_min"; "quant_max"; "qscheme"; "reduce_range"; "ch_axis"; "is_symmetric_range"]%string.
Theorem C49_range :
  forall dtype bit sym per_channel kwargs h, 1 <= bit -> new_handler dtype bit sym per_channel kwargs = Ok h ->
    exists lo hi, get "quant_min" (to_observer_params h) = Some (PInt lo) /\ get "quant_max" (to_observer_params h) = Some (PInt hi) /\
      (dtype = "quint8"%string -> lo = 0 /\ hi = 2 ^ bit - 1) /\
      (dtype = "qint8"%string ->
         match get "is_symmetric_range" kwargs with
         | Some v => if truthy v then lo = - hi /\ hi - lo + 1 = 2 ^ bit - 1 else lo = - hi - 1 /\ hi - lo + 1 = 2 ^ bit
         | None => lo = - hi - 1 /\ hi - lo + 1 = 2 ^ bit
         end).
Proof.
  intros dtype bit sym pc kwargs h B E. unfold new_handler in E.
  assert (P : 2 ^ bit = 2 * 2 ^ (bit - 1)) by (rewrite <- Z.pow_succ_r by lia; f_equal; lia).
  destruct (String.eqb_spec dtype "quint8") as [->|N]; [|destruct (String.eqb_spec dtype "qint8") as [->|N2]]; cbn [bind] in E; try discriminate; apply Ok_inj in E; subst h;
    rewrite !params_get; cbn [naive_para app get String.eqb Ascii.eqb Bool.eqb]; do 2 eexists; (split; [reflexivity|]); (split; [reflexivity|]); split; intros D; try discriminate D;
    unfold quant_range; cbn [h_dtype h_bit h_symrange fst snd].
  - lia.
  - destruct (get "is_symmetric_range" kwargs) as [v|]; [destruct (truthy v)|]; lia.
Qed.
(** The scheme itself cannot be overridden either, and all other arguments are passed on. *)
Theorem C49_arguments :
  forall dtype bit sym per_channel kwargs h, new_handler dtype bit sym per_channel kwargs = Ok h ->
    get "qscheme" (to_observer_params h) = Some (PScheme per_channel sym) /\
    get "reduce_range" (to_observer_params h) = Some (PBool false) /\
    (per_channel = true -> get "ch_axis" (to_observer_params h) = Some (PInt 0)) /\
    get "dtype" (to_observer_params h) = Some (PDtype (if String.eqb dtype "quint8" then Quint8 else Qint8)) /\
    (forall k, is_naive k = false -> get k (to_observer_params h) = get k kwargs).
Proof.
  intros dtype bit sym pc kwargs h E. unfold new_handler in E.
  assert (F : forall k l, k <> "is_symmetric_range"%string -> get k (filter (fun p : string * pval => negb (String.eqb (fst p) "is_symmetric_range")) l) = get k l).
  { intros k l N. induction l as [|[k' v] l IH]; [reflexivity|]. cbn [filter fst]. destruct (String.eqb_spec k' "is_symmetric_range") as [->|N']; cbn [negb get].
    - destruct (String.eqb_spec "is_symmetric_range" k) as [<-|_]; [contradiction|exact IH].
    - rewrite IH. reflexivity. }
  destruct (String.eqb_spec dtype "quint8") as [->|N]; [|destruct (String.eqb_spec dtype "qint8") as [->|N2]]; cbn [bind] in E; try discriminate; apply Ok_inj in E; subst h;
    rewrite !params_get; (split; [reflexivity|]); (split; [reflexivity|]); (split; [intros ->; reflexivity|]); (split; [reflexivity|]); intros k K; rewrite params_get;
    unfold is_naive in K; cbn [existsb] in K; rewrite !Bool.orb_false_iff in K; destruct K as (K1 & K2 & K3 & K4 & K5 & K6 & K7 & _); rewrite String.eqb_sym in K1, K2, K3, K4, K5, K6;
    unfold naive_para; cbn [h_per_channel h_kwargs]; (destruct pc; cbn [app get]; rewrite ?K1, ?K2, ?K3, ?K4, ?K5, ?K6; apply F; intros ->; discriminate K7).
Qed.
Example C49_ex :
  exists h, new_handler "qint8" 4 true true [("quant_max"%string, PInt 300); ("is_symmetric_range"%string, PBool true); ("averaging_constant"%string, POther "0.1")] = Ok h /\
    to_observer_params h = [("quant_max"%string, PInt 7); ("averaging_constant"%string, POther "0.1"); ("dtype"%string, PDtype Qint8); ("quant_min"%string, PInt (-7));
                            ("qscheme"%string, PScheme true true); ("reduce_range"%string, PBool false); ("ch_axis"%string, PInt 0)].
Proof. eexists. split; vm_compute; reflexivity. Qed.

(** * C73: deployment *)
(** The deployed fake quantizer gets the naive parameters of the scheme and nothing else. *)
Lemma get_filter {A} (f : string -> bool) k : forall l : list (string * A), get k (filter (fun p => f (fst p)) l) = if f k then get k l else None.
Proof.
  induction l as [|[k' v] l IH]; cbn [filter get fst]; [destruct (f k); reflexivity|]. destruct (String.eqb_spec k' k) as [->|N].
  - destruct (f k) eqn:E; [cbn [get]; rewrite String.eqb_refl; reflexivity|rewrite IH; reflexivity].
  - destruct (f k'); [cbn [get]; destruct (String.eqb_spec k' k); [contradiction|exact IH]|exact IH].
Qed.
Theorem C73_deploy :
  forall dtype bit sym per_channel kwargs h, new_handler dtype bit sym per_channel kwargs = Ok h ->
    fst (deploy_args h) = (if per_channel then "PerChannelMinMaxObserver" else "MinMaxObserver")%string /\
    forall k, get k (snd (deploy_args h)) =
      if existsb (String.eqb k) (["dtype"; "qscheme"; "quant_min"; "quant_max"; "reduce_range"]%string ++ if per_channel then ["ch_axis"%string] else [])
      then get k (to_observer_params h) else None.
Proof.
  intros dtype bit sym pc kwargs h E. destruct (C49_arguments dtype bit sym pc kwargs h E) as (Q & _). unfold deploy_args. rewrite Q. cbn [fst snd].
  split; [destruct pc; reflexivity|]. intros k. rewrite (get_filter (fun a => existsb (String.eqb a) (retained pc))). reflexivity.
Qed.
Example C73_deploy_ex :
  exists h, new_handler "quint8" 8 true false [("ch_axis"%string, PInt 1); ("averaging_constant"%string, POther "0.1")] = Ok h /\
    deploy_args h = ("MinMaxObserver"%string, [("dtype"%string, PDtype Quint8); ("quant_min"%string, PInt 0); ("quant_max"%string, PInt 255);
                            ("qscheme"%string, PScheme false true); ("reduce_range"%string, PBool false)]).
Proof. eexists. split; vm_compute; reflexivity. Qed.
Theorem C73_check :
  forall c, check_qconfig c = true <-> forall a, In a ["w_qscheme"; "a_qscheme"; "w_fake_quant"; "a_fake_quant"; "w_observer"; "a_observer"]%string -> get a c = Some true.
Proof.
  intros c. unfold check_qconfig. change ["w_qscheme"; "a_qscheme"; "w_fake_quant"; "a_fake_quant"; "w_observer"; "a_observer"]%string with required.
  induction required as [|a r IH]; [split; [intros _ a []|reflexivity]|]. cbn [check_args]. split.
  - destruct (get a c) as [[|]|] eqn:E; try discriminate. intros H b [<-|Hb]; [exact E|]. apply IH; assumption.
  - intros H. rewrite (H a (or_introl eq_refl)). apply IH. intros b Hb. apply H. right. exact Hb.
Qed.
Example C73_check_ex : check_qconfig (map (fun a => (a, true)) required) = true /\ check_qconfig (("a_observer"%string, false) :: map (fun a => (a, true)) required) = false.
Proof. split; reflexivity. Qed.

(** * C72: packed weights *)
(** The layer's weights and parameters fit together: one column of n entries per input, each on
    the grid of its group. *)
Definition nop : qparams := {| scale := 0; zero := 0 |}.
Definition fits (bits : Z) (n : nat) (weight : list (list Q)) (grp : list (list qparams)) (g_idx : list nat) : Prop :=
  length g_idx = length weight /\ Forall (fun ps => length ps = n /\ Forall (good (2 ^ bits - 1)) ps) grp /\ Forall (fun g => (g < length grp)%nat) g_idx /\
  Forall (fun c => length c = n) weight /\
  forall k r, (k < length weight)%nat -> (r < n)%nat -> on_grid (2 ^ bits - 1) (nth r (nth (nth k g_idx 0%nat) grp []) nop) (nth r (nth k weight []) 0%Q).
(** The full claim: the packed layer multiplies with the quantized weights. *)
Definition C72_claim : Prop :=
  forall bits n weight grp g_idx p, supported bits = true -> fits bits n weight grp g_idx -> pack bits n weight grp g_idx = Ok p ->
    exists f, triton_weight bits p = Ok f /\ forall k r, (k < length weight)%nat -> (r < n)%nat -> (f r k == nth r (nth k weight []) 0)%Q.
Definition unit_params (z : Z) : qparams := {| scale := 1; zero := inject_Z z |}.
Lemma fits_const bits n ins z q : 0 < bits -> 0 <= z <= 2 ^ bits - 1 -> 0 <= q <= 2 ^ bits - 1 ->
  fits bits n (repeat (repeat (inject_Z q - inject_Z z)%Q n) ins) [repeat (unit_params z) n] (repeat 0%nat ins).
Proof.
  intros B Hz Hq. split; [rewrite !repeat_length; reflexivity|]. split.
  { constructor; [|constructor]. split; [apply repeat_length|]. apply Forall_forall. intros p I. apply repeat_spec in I. subst. split; [reflexivity|]. exists z. split; [reflexivity|lia]. }
  split; [apply Forall_forall; intros g I; apply repeat_spec in I; subst; cbn; lia|]. split; [apply Forall_forall; intros c I; apply repeat_spec in I; subst; apply repeat_length|].
  intros k r Hk Hr. rewrite repeat_length in Hk.
  assert (NR : forall A (x d : A) m i, (i < m)%nat -> nth i (repeat x m) d = x) by (intros A x d m; induction m as [|m IH]; intros [|i] Hi; cbn; try lia; [reflexivity|apply IH; lia]).
  rewrite (NR nat), (NR (list Q)) by exact Hk. cbn [nth]. rewrite (NR qparams), (NR Q) by exact Hr. exists q. split; [exact Hq|]. cbn [scale zero unit_params]. ring.
Qed.
(** A zero point of 0 is stored as -1: it is decoded as 2^bits and spoils its neighbours. *)
Theorem C72_zero_refuted : ~ C72_claim.
Proof.
  intros H. set (w := repeat (repeat (inject_Z 3 - inject_Z 0)%Q 32) 32).
  destruct (H 4 32%nat w [repeat (unit_params 0) 32] (repeat 0%nat 32) _ eq_refl ltac:(apply fits_const; lia) eq_refl) as (f & E & V).
  specialize (V 0%nat 0%nat ltac:(apply Nat.ltb_lt; reflexivity) ltac:(lia)).
  unfold triton_weight in E. match type of E with (if ?c then _ else _) = _ => assert (C : c = false) by (vm_compute; reflexivity); rewrite C in E end.
  apply Ok_inj in E. subst f. vm_compute in V. discriminate V.
Qed.
(** Sixteen inputs: nothing is stored at all, and the layer cannot be called any more. *)
Theorem C72_small_refuted : ~ C72_claim.
Proof.
  intros H. destruct (H 4 32%nat _ _ _ _ eq_refl ltac:(apply (fits_const 4 32 16 8 3); lia) eq_refl) as (f & E & _). vm_compute in E. discriminate E.
Qed.
(** Weights that are all at the lower end: the packed words are all zero, which is taken for
    an unpacked layer. *)
Theorem C72_all_zero_refuted : ~ C72_claim.
Proof.
  intros H. destruct (H 4 32%nat _ _ _ _ eq_refl ltac:(apply (fits_const 4 32 32 15 0); lia) eq_refl) as (f & E & _). vm_compute in E. discriminate E.
Qed.
Lemma nth_map_seq {A} (f : nat -> A) d m i : (i < m)%nat -> nth i (map f (seq 0 m)) d = f i.
Proof. intros H. rewrite (nth_indep _ d (f 0%nat)) by (rewrite map_length, seq_length; exact H). rewrite map_nth, seq_nth by exact H. reflexivity. Qed.
Lemma nth_map' {A B} (f : A -> B) d d' l i : (i < length l)%nat -> nth i (map f l) d = f (nth i l d').
Proof. intros H. rewrite (nth_indep _ d (f d')) by (rewrite map_length; exact H). apply map_nth. Qed.
(** If the dimensions are multiples of 32 and no zero point is 0, the decoded weights are the
    quantized ones; the layer can be called as soon as one entry is not at the lower end. *)
Theorem C72_packed_partial :
  forall bits n weight grp g_idx p, supported bits = true -> fits bits n weight grp g_idx -> pack bits n weight grp g_idx = Ok p ->
    (length weight mod 32 = 0)%nat -> (n mod 32 = 0)%nat -> Forall (Forall (fun q => (1 <= zero q)%Q)) grp ->
    (forall k r, (k < length weight)%nat -> (r < n)%nat -> (kernel_weight bits p r k == nth r (nth k weight []) 0)%Q) /\
    ((exists k r, (k < length weight)%nat /\ (r < n)%nat /\ let q := nth r (nth (nth k g_idx 0%nat) grp []) nop in ~ (nth r (nth k weight []) 0 == - zero q * scale q)%Q) ->
     triton_weight bits p = Ok (kernel_weight bits p)).
Proof.
  intros bits n weight grp g_idx p S (Lg & Fg & Gi & Fw & OG) E Mw Mn Z1. unfold pack in E. rewrite S in E. cbn [negb] in E. apply Ok_inj in E. subst p.
  assert (B : bits = 2 \/ bits = 4 \/ bits = 8) by (unfold supported in S; rewrite !Bool.orb_true_iff, !Z.eqb_eq in S; tauto).
  set (ints := map _ (combine g_idx weight)).
  assert (Li : length ints = length weight) by (unfold ints; rewrite map_length, combine_length; lia).
  assert (INT : forall k r, (k < length weight)%nat -> (r < n)%nat -> let q := nth r (nth (nth k g_idx 0%nat) grp []) nop in
    (0 <= nth r (nth k ints []) 0 <= 2 ^ bits - 1) /\ (nth r (nth k weight []) 0 == scale q * (inject_Z (nth r (nth k ints []) 0%Z) - zero q))%Q /\ good (2 ^ bits - 1) q /\ (1 <= zero q)%Q).
  { intros k r Hk Hr q. unfold ints. rewrite (nth_map' _ [] (0%nat, [])) by (rewrite combine_length; lia). rewrite combine_nth by exact Lg. cbn [fst snd].
    set (g := nth k g_idx 0%nat) in *. assert (Hg : (g < length grp)%nat) by (rewrite Forall_forall in Gi; apply Gi; apply nth_In; lia).
    assert (Fq : length (nth g grp []) = n /\ Forall (good (2 ^ bits - 1)) (nth g grp [])) by (rewrite Forall_forall in Fg; apply Fg; apply nth_In; exact Hg).
    destruct Fq as [Lq Gq]. assert (Lc : length (nth k weight []) = n) by (rewrite Forall_forall in Fw; apply Fw; apply nth_In; exact Hk).
    rewrite (nth_map' _ 0 (nop, 0%Q)) by (rewrite combine_length; lia). rewrite combine_nth by lia. cbn [fst snd]. fold q.
    assert (Gd : good (2 ^ bits - 1) q) by (rewrite Forall_forall in Gq; apply Gq; apply nth_In; lia).
    assert (Zq : (1 <= zero q)%Q) by (rewrite Forall_forall in Z1; specialize (Z1 (nth g grp []) (nth_In _ _ Hg)); rewrite Forall_forall in Z1; apply Z1; apply nth_In; lia).
    destruct (OG k r Hk Hr) as (j & J & EJ). fold g in EJ. fold q in EJ.
    assert (R : rnd ((nth r (nth k weight []) 0 + zero q * scale q) / scale q)%Q = j).
    { rewrite (rnd_comp _ (inject_Z j)); [apply rnd_int|]. rewrite EJ. destruct Gd as [Sp _]. field. lra. }
    rewrite R. auto. }
  assert (UW : forall k r, (k < length weight)%nat -> (r < n)%nat -> unpack bits (pack_words bits (map (fun c => nth r c 0) ints)) k = nth r (nth k ints []) 0).
  { intros k r Hk Hr. rewrite unpack_pack; [|exact S| |rewrite map_length, Li; exact Mw|rewrite map_length, Li; exact Hk].
    - apply (nth_map' (fun c => nth r c 0) 0 []). lia.
    - apply Forall_map, Forall_forall. intros c I. apply (In_nth _ _ []) in I. destruct I as (j & Hj & <-). destruct (INT j r ltac:(lia) Hr) as ((I1 & I2) & _). lia. }
  assert (KW : forall k r, (k < length weight)%nat -> (r < n)%nat -> (kernel_weight bits {| qweight := map (fun r => pack_words bits (map (fun c => nth r c 0%Z) ints)) (seq 0 n);
        qzeros := map (fun ps => pack_words bits (map (fun p => (Qfloor (zero p) - 1)%Z) ps)) grp; p_scales := map (map scale) grp; p_gidx := g_idx |} r k == nth r (nth k weight []) 0)%Q).
  { intros k r Hk Hr. unfold kernel_weight. cbn [qweight qzeros p_scales p_gidx]. rewrite nth_map_seq by exact Hr. rewrite UW by assumption.
    destruct (INT k r Hk Hr) as (IR & EV & Gd & Zq). set (g := nth k g_idx 0%nat) in *. set (q := nth r (nth g grp []) nop) in *.
    assert (Hg : (g < length grp)%nat) by (rewrite Forall_forall in Gi; apply Gi; apply nth_In; lia).
    assert (Fq : length (nth g grp []) = n /\ Forall (good (2 ^ bits - 1)) (nth g grp [])) by (rewrite Forall_forall in Fg; apply Fg; apply nth_In; exact Hg). destruct Fq as [Lq Gq].
    rewrite (nth_map' _ [] []) by exact Hg. rewrite (nth_map' (map scale) [] []) by exact Hg. rewrite (nth_map' scale 0%Q nop) by lia. fold q.
    rewrite unpack_pack; [|exact S| |rewrite map_length, Lq; exact Mn|rewrite map_length; lia].
    - rewrite (nth_map' (fun p => Qfloor (zero p) - 1) 0 nop) by lia. fold q. rewrite EV. destruct Gd as (Sp & z & Z0 & ZB). rewrite (Qfloor_comp _ _ Z0), Qfloor_Z.
      replace (z - 1 + 1) with z by lia. unfold Z.sub. rewrite inject_Z_plus, inject_Z_opp, Z0. ring.
    - apply Forall_map, Forall_forall. intros q' I. rewrite Forall_forall in Gq, Z1. destruct (Gq q' I) as (_ & z & Z0 & ZB). specialize (Z1 _ (nth_In grp [] Hg)). rewrite Forall_forall in Z1. specialize (Z1 q' I).
      rewrite (Qfloor_comp _ _ Z0), Qfloor_Z. rewrite Z0 in Z1. change 1%Q with (inject_Z 1) in Z1. rewrite <- Zle_Qle in Z1. lia. }
  split; [exact KW|]. intros (k & r & Hk & Hr & NZ). unfold triton_weight. cbn [qweight].
  destruct (forallb _ _) eqn:AZ; [|reflexivity]. exfalso. rewrite forallb_forall in AZ.
  specialize (AZ (pack_words bits (map (fun c => nth r c 0) ints)) ltac:(apply in_map_iff; exists r; split; [reflexivity|apply in_seq; lia])). rewrite forallb_forall in AZ.
  pose proof (UW k r Hk Hr) as U. unfold unpack in U.
  assert (W0 : nth (k / Z.to_nat (32 / bits)) (pack_words bits (map (fun c => nth r c 0) ints)) 0 = 0).
  { match goal with |- nth ?i ?l 0 = 0 => destruct (nth_in_or_default i l 0) as [I|I]; [apply AZ in I; apply Z.eqb_eq in I; exact I|exact I] end. }
  rewrite W0, Z.shiftr_0_l, Z.land_0_l in U. apply NZ. destruct (INT k r Hk Hr) as (_ & EV & _). rewrite EV, <- U. change (inject_Z 0) with 0%Q. ring.
Qed.
Example C72_packed_ex :
  fits 4 32 (repeat (repeat (inject_Z 3 - inject_Z 8)%Q 32) 32) [repeat (unit_params 8) 32] (repeat 0%nat 32) /\
  exists p, pack 4 32 (repeat (repeat (inject_Z 3 - inject_Z 8)%Q 32) 32) [repeat (unit_params 8) 32] (repeat 0%nat 32) = Ok p /\
    (kernel_weight 4 p 5 7 == -5)%Q /\ nth 0 (nth 0 (qzeros p) []) 0 = 2004318071.
Proof. split; [apply fits_const; lia|]. eexists. split; [vm_compute; reflexivity|]. split; vm_compute; reflexivity. Qed.

(** * C74: after quantization every weight is on the grid of its group *)
Lemma index_of_nth : forall perm i, NoDup perm -> (i < length perm)%nat -> index_of (nth i perm 0%nat) perm = i.
Proof.
  induction perm as [|x perm IH]; intros i N Hi; [cbn in Hi; lia|]. inversion N; subst. destruct i as [|i]; cbn [nth index_of]; [rewrite Nat.eqb_refl; reflexivity|]. cbn in Hi.
  destruct (Nat.eqb_spec x (nth i perm 0%nat)) as [->|_]; [exfalso; apply H1; apply nth_In; lia|]. f_equal. apply IH; [assumption|lia].
Qed.
Lemma index_of_lt : forall perm x, In x perm -> (index_of x perm < length perm)%nat.
Proof.
  induction perm as [|y perm IH]; intros x I; [destruct I|]. cbn. destruct (Nat.eqb_spec y x); [lia|]. destruct I as [|I]; [congruence|]. specialize (IH x I). lia.
Qed.
Theorem C74_on_grid :
  forall pow cf bits n gs blocksize dead perm hv alias W,
    (1 <= bits)%nat -> q_maxq cf = maxq_of bits false -> mse_ok (q_mse cf) -> (0 < blocksize)%nat -> (forall g, gs = Some g -> (0 < g)%nat) ->
    W <> [] -> Forall (fun c => length c = n) W -> length dead = length W -> tri (length W) hv ->
    (forall p, perm = Some p -> Permutation p (seq 0 (length W))) ->
    exists W' grp g_idx, quant pow cf n gs blocksize dead perm (Some hv) alias true W = (W', Ok (grp, g_idx)) /\
      length W' = length W /\ length g_idx = length W /\
      length grp = match gs with Some g => S ((length W - 1) / g) | None => 1%nat end /\
      forall k r, (k < length W)%nat -> (r < n)%nat ->
        (nth k g_idx 0 < length grp)%nat /\
        let q := nth r (nth (nth k g_idx 0%nat) grp []) nop in
        (0 < scale q)%Q /\ exists j, 0 <= j < 2 ^ Z.of_nat bits /\ (nth r (nth k W' []) 0 == scale q * (inject_Z j - zero q))%Q.
Proof.
  intros pow cf bits n gs bs dead perm hv alias W Hb Hm Hs Hbs Hg NE FW LD T HP. unfold quant. cbn [negb].
  set (W0 := kill dead W). assert (L0 : length W0 = length W) by (unfold W0, kill; rewrite map_length, combine_length; lia).
  assert (F0 : Forall (fun c => length c = n) W0).
  { unfold W0, kill. apply Forall_map, Forall_forall. intros [b c] I. apply in_combine_r in I. rewrite Forall_forall in FW. cbn [fst snd]. destruct b; [rewrite map_length|]; apply FW; exact I. }
  set (W1 := match perm with Some p => take_cols [] p W0 | None => W0 end).
  assert (L1 : length W1 = length W).
  { unfold W1. destruct perm as [p|]; [|exact L0]. unfold take_cols. rewrite map_length. rewrite (Permutation_length (HP p eq_refl)), seq_length. reflexivity. }
  assert (F1 : Forall (fun c => length c = n) W1).
  { unfold W1. destruct perm as [p|]; [|exact F0]. unfold take_cols. apply Forall_map, Forall_forall. intros i I. rewrite Forall_forall in F0. apply F0. apply nth_In. rewrite L0.
    apply (Permutation_in _ (HP p eq_refl)) in I. apply in_seq in I. lia. }
  set (s0 := {| cur := find_params pow cf (rows_of n W); now_idx := 1; groups := [] |}).
  assert (Hg' : match gs with Some g => (0 < g)%nat | None => True end) by (destruct gs as [g|]; [apply Hg; reflexivity|exact I]).
  assert (G0 : ginv cf n gs 0 s0).
  { unfold ginv. split; [|split; [constructor|destruct gs; [split; reflexivity|reflexivity]]]. cbn [cur s0].
    destruct (find_params_good pow bits cf (rows_of n W) Hb Hm Hs) as [A B]. split; [rewrite A; apply rows_of_length|exact B]. }
  pose proof (blocks_spec' pow cf n bits gs Hb Hm Hs Hg' (block_sizes (length W) bs) [] hv W1 s0) as BS. rewrite L1 in BS. cbn [length Nat.add] in BS.
  specialize (BS (sizes_sum (length W) bs Hbs) T F1 G0).
  destruct (quant_blocks pow cf n gs (block_sizes (length W) bs) [] hv W1 s0) as [[Qc W2] s]. destruct BS as (B1 & B2 & _ & _ & B5).
  set (g := match gs with Some g => g | None => length W end). set (g_idx := map (fun i => (i / g)%nat) (seq 0 (length W))).
  set (grp := match groups s with [] => [cur s] | l => l end).
  assert (LG : length g_idx = length W) by (unfold g_idx; rewrite map_length, seq_length; reflexivity).
  assert (POS : (0 < length W)%nat) by (destruct W; [contradiction|cbn; lia]).
  unfold ginv in B2. cbn [length Nat.add] in B2. destruct B2 as (BF & BG & BI). assert (EW : length W = S (length W - 1)) by lia. rewrite EW in BI.
  assert (LR : length grp = match gs with Some g => S ((length W - 1) / g) | None => 1%nat end).
  { unfold grp. destruct gs as [g'|]; [|rewrite BI; reflexivity]. destruct BI as (_ & BL & _). destruct (groups s); [discriminate|exact BL]. }
  assert (PA : forall i, (i < length W)%nat -> (i / g < length grp)%nat /\ params_at gs s i = nth (i / g) grp []).
  { intros i Hi. rewrite LR. unfold params_at, g. destruct gs as [g'|].
    - destruct BI as (_ & BL & _). split; [apply Nat.lt_succ_r, Nat.div_le_mono; lia|]. unfold grp. destruct (groups s); [discriminate|reflexivity].
    - rewrite Nat.div_small by exact Hi. split; [lia|]. unfold grp. rewrite BI. reflexivity. }
  assert (FG : Forall (fun ps => length ps = n /\ Forall (good (q_maxq cf)) ps) grp) by (unfold grp; destruct (groups s); [constructor; [exact BF|constructor]|exact BG]).
  assert (MAIN : forall i r, (i < length W)%nat -> (r < n)%nat -> let q := nth r (nth (i / g) grp []) nop in
    (0 < scale q)%Q /\ exists j, 0 <= j < 2 ^ Z.of_nat bits /\ (nth r (nth i Qc []) 0 == scale q * (inject_Z j - zero q))%Q).
  { intros i r Hi Hr q. destruct (PA i Hi) as [P1 P2]. destruct (B5 i Hi) as (w & Lw & E). rewrite P2 in E.
    assert (Fq : length (nth (i / g) grp []) = n /\ Forall (good (q_maxq cf)) (nth (i / g) grp [])) by (rewrite Forall_forall in FG; apply FG; apply nth_In; exact P1). destruct Fq as [Lq Gq].
    assert (Gd : good (q_maxq cf) q) by (rewrite Forall_forall in Gq; apply Gq; apply nth_In; lia). split; [apply Gd|].
    rewrite E. unfold quantize_col. rewrite (good_ready cf _ Gq). rewrite (nth_map' _ 0%Q (nop, 0%Q)) by (rewrite combine_length; lia). rewrite combine_nth by lia. cbn [fst snd]. fold q.
    pose proof (maxq_pos bits Hb) as M. rewrite <- Hm in M. destruct (quantize_on_grid (q_maxq cf) q (nth r w 0%Q) ltac:(lia) Gd) as (j & J & EJ). exists j. split; [rewrite Hm in J; unfold maxq_of in J; lia|exact EJ]. }
  destruct perm as [p|].
  - specialize (HP p eq_refl). assert (LP : length p = length W) by (rewrite (Permutation_length HP), seq_length; reflexivity).
    assert (LI : length (inverse p) = length W) by (unfold inverse; rewrite map_length, seq_length; exact LP).
    exists (take_cols [] (inverse p) Qc), grp, (take_cols 0%nat (inverse p) g_idx). split; [reflexivity|]. unfold take_cols. rewrite !map_length.
    split; [exact LI|]. split; [exact LI|]. split; [exact LR|]. intros k r Hk Hr.
    rewrite (nth_map' _ 0%nat 0%nat) by lia. rewrite (nth_map' _ [] 0%nat) by lia. set (i := nth k (inverse p) 0%nat).
    assert (Hi : (i < length W)%nat).
    { unfold i, inverse. rewrite nth_map_seq by lia. rewrite <- LP. apply index_of_lt. apply (Permutation_in _ (Permutation_sym HP)). apply in_seq. lia. }
    unfold g_idx. rewrite nth_map_seq by exact Hi. split; [apply PA; exact Hi|]. apply MAIN; assumption.
  - exists Qc, grp, g_idx. split; [reflexivity|]. split; [exact B1|]. split; [exact LG|]. split; [exact LR|]. intros k r Hk Hr. unfold g_idx. rewrite nth_map_seq by exact Hk.
    split; [apply PA; exact Hk|]. apply MAIN; assumption.
Qed.
Definition upper (n : nat) : list (list Q) := map (fun k => 1%Q :: repeat (1 # 2)%Q (n - 1 - k)) (seq 0 n).
Definition ex_conf : qconfig := {| q_maxq := 3; q_perchannel := true; q_sym := false; q_mse := None |}.
Example C74_ex :
  tri 4 (upper 4) /\
  match quant (fun q => q) ex_conf 2 (Some 2%nat) 3 [false; false; false; true] (Some [2; 0; 3; 1]%nat) (Some (upper 4)) true true [[1; 2]; [3; -4]; [5; 6]; [7; 8]]%Q with
  | (W', Ok (grp, g_idx)) => g_idx = [0; 1; 0; 1]%nat /\ length grp = 2%nat /\ map (map Qred) W' = [[5 # 3; 2]; [3; -4]; [5; 6]; [0; 0]]%Q
  | _ => False
  end.
Proof. split; [cbn; repeat split|]. vm_compute. auto. Qed.

(** * C75: failures *)
(** The full claim: a layer that cannot be quantized keeps its weight. *)
Definition C75_claim : Prop :=
  forall pow cf n gs blocksize dead perm hv alias cuda W W' e,
    quant pow cf n gs blocksize dead perm hv alias cuda W = (W', Raise e) -> W' = W.
(** Without CUDA a float weight is left with the updates of the algorithm, unquantized. *)
Theorem C75_in_place_refuted : ~ C75_claim.
Proof.
  intros H. specialize (H (fun q => q) ex_conf 1%nat None 1%nat [false; false] None (Some (upper 2)) true false [[5]; [2]]%Q _ _ eq_refl).
  apply (f_equal (fun W => nth 0 (nth 1 W []) 0%Q)) in H. vm_compute in H. discriminate H.
Qed.
(** Without CUDA no layer is ever quantized, whatever the device asked for. *)
Theorem C75_cpu_fails :
  forall pow cf n gs blocksize dead perm hv alias W, exists e, snd (quant pow cf n gs blocksize dead perm hv alias false W) = Raise e.
Proof. intros. unfold quant. destruct hv as [hv|]; [|eexists; reflexivity]. destruct (quant_blocks _ _ _ _ _ _ _ _ _) as [[Q W2] s]. eexists. reflexivity. Qed.
Example C75_cpu_ex : snd (quant (fun q => q) ex_conf 1%nat None 1%nat [false; false] None (Some (upper 2)) true false [[5]; [2]]%Q) = Raise AssertionError
  /\ fst (quant (fun q => q) ex_conf 1%nat None 1%nat [false; false] None (Some (upper 2)) true false [[5]; [-5]]%Q) <> fst (quant (fun q => q) ex_conf 1%nat None 1%nat [false; false] None (Some (upper 2)) true true [[5]; [-5]]%Q).
Proof. split; [reflexivity|]. vm_compute. discriminate. Qed.
Theorem C75_copies_partial :
  forall pow cf n gs blocksize dead perm hv cuda W W' e, quant pow cf n gs blocksize dead perm hv false cuda W = (W', Raise e) -> W' = W.
Proof.
  intros pow cf n gs bs dead perm hv cuda W W' e. unfold quant. destruct hv as [hv|]; [|intros H; inversion H; reflexivity].
  destruct (quant_blocks _ _ _ _ _ _ _ _ _) as [[Q W2] s]. destruct cuda; cbn [negb]; [|intros H; inversion H; reflexivity]. destruct perm; intros H; inversion H.
Qed.
Example C75_copies_ex : quant (fun q => q) ex_conf 1%nat None 1%nat [false; true] None None false true [[5]; [2]]%Q = ([[5]; [2]]%Q, Raise RuntimeError).
Proof. reflexivity. Qed.

Print Assumptions C48_sym_positive_refuted.
Print Assumptions C48_asym_partial.
Print Assumptions C48_sym_partial.
Print Assumptions C48_grid.
Print Assumptions C48_mse.
Print Assumptions C48_trits.
Print Assumptions C49_range.
Print Assumptions C49_arguments.
Print Assumptions C73_deploy.
Print Assumptions C73_check.
Print Assumptions C72_zero_refuted.
Print Assumptions C72_small_refuted.
Print Assumptions C72_all_zero_refuted.
Print Assumptions C72_packed_partial.
Print Assumptions C74_on_grid.
Print Assumptions C75_in_place_refuted.
Print Assumptions C75_cpu_fails.
Print Assumptions C75_copies_partial.
