(** C112 - the subnets of a SlimmableChannelMutator. *)
From Verif Require Import Prelude PyNum Channel_Model Channel_Lemmas Divisible_Model Divisible_Props Mutator_Model Mutator_Lemmas Mutator3_Props Mutator4_Props Mutator5_Props.
From Coq Require Import Sorting.Permutation Sorting.Sorted.

(** ** Specification *)
(** Subnet [i] takes the [i]-th candidate of every unit. *)
Definition subnet_at (rows : list (uname * list num)) (i : nat) : list (uname * num) :=
  map (fun kv => (fst kv, nth i (snd kv) (NInt 0))) rows.
Definition even_rows (n : nat) (rows : list (uname * list num)) : Prop := forall k vs, In (k, vs) rows -> length vs = n.
(** Every subnet can be set. *)
Definition C112_settable_claim : Prop :=
  forall units default ts p subnets m' us s,
    slimmable_subnets units = Ok subnets ->
    prepare_from_supernet (new_mutator CSlim default false units p) ts = Ok m' ->
    NoDup (names (mt_units m')) -> Forall neat (mt_units m') -> incl (map fst units) (names (mt_units m')) ->
    reach (mt_units m') us -> In s subnets -> exists us', set_choices us s = (us', Ok tt).
(** The candidates written in the config need no rounding. *)
Definition aligned (u : munit) (v : num) : Prop :=
  exists k, v = NInt k /\ (u_div (m_cfg u) | k) /\ u_div (m_cfg u) <= k /\ u_min (m_cfg u) <= k.

(** ** Theorems *)
Lemma put_row_new : forall (subnets : list (list (uname * num))) k vs,
  length vs = length subnets -> (forall s, In s subnets -> ~ In k (map fst s)) ->
  put_row subnets k vs = map (fun sv => fst sv ++ [(k, snd sv)]) (combine subnets vs).
Proof.
  induction subnets as [|s l IH]; intros k [|v vs] L H; try discriminate; [reflexivity|]. cbn [put_row combine map fst snd].
  rewrite d_put_new by (apply H; left; reflexivity). rewrite IH; [reflexivity|cbn in L; lia|]. intros s' Hs. apply H. right. exact Hs.
Qed.
Lemma table_snoc rows k vs n : length vs = n ->
  map (fun sv => fst sv ++ [(k, snd sv)]) (combine (map (subnet_at rows) (seq 0 n)) vs) = map (subnet_at (rows ++ [(k, vs)])) (seq 0 n).
Proof.
  intros L. set (f := fun sv : list (uname * num) * num => fst sv ++ [(k, snd sv)]). apply nth_ext with (d := []) (d' := []).
  - rewrite !map_length, combine_length, map_length, seq_length. lia.
  - intros i Hi. rewrite map_length, combine_length, map_length, seq_length in Hi. assert (I : (i < n)%nat) by lia.
    rewrite (nth_indep _ [] (f ([], NInt 0))) by (rewrite map_length, combine_length, map_length, seq_length; lia).
    rewrite map_nth, combine_nth by (rewrite map_length, seq_length; lia). unfold f. cbn [fst snd].
    rewrite (nth_indep _ [] (subnet_at rows 0)) by (rewrite map_length, seq_length; lia).
    rewrite (nth_indep _ [] (subnet_at (rows ++ [(k, vs)]) 0)) by (rewrite map_length, seq_length; lia).
    rewrite !map_nth, !seq_nth by lia. cbn [Nat.add]. unfold subnet_at. rewrite map_app. reflexivity.
Qed.
Lemma fill_ok n rows : forall done,
  NoDup (map fst (done ++ rows)) -> even_rows n rows ->
  fill_subnets n rows (map (subnet_at done) (seq 0 n)) = Ok (map (subnet_at (done ++ rows)) (seq 0 n)).
Proof.
  induction rows as [|[k vs] rows IH]; intros done N E; cbn [fill_subnets]; [rewrite app_nil_r; reflexivity|].
  pose proof (E k vs (or_introl eq_refl)) as L. rewrite L, Nat.eqb_refl. cbn [assert_ bind].
  rewrite put_row_new; [|rewrite map_length, seq_length; exact L|].
  - rewrite table_snoc by exact L. rewrite IH; [rewrite <- app_assoc; reflexivity|rewrite <- app_assoc; exact N|intros k' vs' H; apply (E k'); right; exact H].
  - intros s Hs X. apply in_map_iff in Hs. destruct Hs as (i & <- & _). unfold subnet_at in X. rewrite map_map in X. cbn [fst] in X.
    rewrite map_app in N. cbn [map fst] in N. apply NoDup_remove_2 in N. apply N, in_or_app. left. exact X.
Qed.

Lemma empty_table n : repeat [] n = map (subnet_at []) (seq 0 n).
Proof. generalize 0%nat. induction n as [|n IH]; intros a; [reflexivity|]. cbn. rewrite <- IH. reflexivity. Qed.
(** The subnets are the transposed table of candidates; uneven rows are refused. *)
Theorem C112_transposed k0 vs0 rows :
  NoDup (map fst ((k0, vs0) :: rows)) ->
  let n := length vs0 in
  (even_rows n rows -> prepare_subnets ((k0, vs0) :: rows) = Ok (map (subnet_at ((k0, vs0) :: rows)) (seq 0 n))) /\
  (~ even_rows n rows -> prepare_subnets ((k0, vs0) :: rows) = Raise AssertionError).
Proof.
  intros N n. split; intros E.
  - unfold prepare_subnets. cbv zeta. fold n. 
    rewrite empty_table. apply (fill_ok n ((k0, vs0) :: rows) []); [exact N|]. intros k vs [H|H]; [inversion H; subst; reflexivity|exact (E k vs H)].
  - unfold prepare_subnets. cbv zeta. fold n. cbn [fill_subnets]. rewrite Nat.eqb_refl. cbn [assert_ bind]. clear N. generalize (put_row (repeat [] n) k0 vs0). clearbody n.
    induction rows as [|[k vs] rows IH]; intros sn; [exfalso; apply E; intros k vs []|]. cbn [fill_subnets]. destruct (Nat.eqb n (length vs)) eqn:En; [|reflexivity]. cbn [assert_ bind]. apply IH.
    intros H. apply E. intros k' vs' [X|X]; [inversion X; subst; symmetry; apply Nat.eqb_eq, En|exact (H k' vs' X)].
Qed.
Print Assumptions C112_transposed.
Example C112_transposed_case :
  prepare_subnets [(UGiven 0, [NInt 8; NInt 16]); (UGiven 1, [NInt 4; NInt 6])] = Ok [[(UGiven 0, NInt 8); (UGiven 1, NInt 4)]; [(UGiven 0, NInt 16); (UGiven 1, NInt 6)]] /\
  prepare_subnets [(UGiven 0, [NInt 8; NInt 16]); (UGiven 1, [NInt 4])] = Raise AssertionError.
Proof. split; reflexivity. Qed.

(** Candidates 5 and 16 with divisor 8: the unit takes 8 and 16, subnet 0 asks for 5. *)
Definition ex_slim (a b : Z) : list (uname * ucfg) :=
  [(UAuto 2 0 16 16, {| c_args := Some {| a_n := None; a_num := None; a_div := Some 8; a_min := None; a_ratio := None; a_cands := Some [NInt a; NInt b] |}; c_channels := None; c_choice := None |})].
Definition ex_p : parse_cfg := {| p_type := PAnalyzer; p_from_cfg := false |}.
Theorem C112_settable_refuted : ~ C112_settable_claim.
Proof.
  intros H. destruct (prepare_from_supernet (new_mutator CSlim no_args false (ex_slim 5 16) ex_p) ex_named) as [m'|] eqn:E; [|vm_compute in E; discriminate].
  specialize (H (ex_slim 5 16) no_args ex_named ex_p _ m' (mt_units m') [(UAuto 2 0 16 16, NInt 5)] eq_refl E).
  vm_compute in E. apply Ok_inj in E. subst m'. cbn [mt_units] in H.
  assert (X : exists us', set_choices [{| m_cls := CSlim; m_cfg := {| u_n := 16; u_num := true; u_div := 8; u_min := 1; u_ratio := 9 # 10 |}; m_cands := [NInt 8; NInt 16];
     m_in := [{| ch_name := 3; ch_start := 0; ch_end := 16; ch_out := false |}]; m_out := [{| ch_name := 2; ch_start := 0; ch_end := 16; ch_out := true |}]; m_name := None; m_ch := new_seq 16 true |}] [(UAuto 2 0 16 16, NInt 5)] = (us', Ok tt)).
  { apply H.
    - vm_compute. constructor; [intros []|constructor].
    - constructor; [|constructor]. constructor; cbn [m_cfg m_cands u_num u_div u_min u_ratio u_n]; [reflexivity|lia|split; discriminate|exists 2; reflexivity|lia|lia|right; lia|intros k [Hk|[Hk|[]]]; inversion Hk; lia].
    - intros x Hx. exact Hx.
    - apply reach_start.
    - left. reflexivity. }
  destruct X as [us' X]. vm_compute in X. discriminate X.
Qed.
Print Assumptions C112_settable_refuted.

(** Which arguments a unit was made with. *)
Definition with_args (default : iargs) (units : list (uname * ucfg)) (u : munit) : Prop :=
  forall g a vs, d_get units (name_of u) = Some g -> c_args g = Some a -> a_cands a = Some vs ->
    oneshot_unit_candidates (m_cfg u) vs = Ok (m_cands u).
Definition same_cands (units units' : list (uname * ucfg)) : Prop :=
  forall k, option_map (fun g => option_map a_cands (c_args g)) (d_get units k) = option_map (fun g => option_map a_cands (c_args g)) (d_get units' k).
Lemma init_cands c a vs u : c <> CSeq -> init_unit c a = Ok u -> a_cands a = Some vs -> oneshot_unit_candidates (m_cfg u) vs = Ok (m_cands u).
Proof.
  intros C E A. unfold init_unit in E. destruct (a_n a) as [n|]; [|discriminate]. rewrite A in E. cbv zeta in E. cbn [get_or] in E. set (w := {| u_n := n; u_num := _; u_div := _; u_min := _; u_ratio := _ |}) in E.
  destruct c; [congruence| |]; (destruct (oneshot_unit_candidates w vs) as [cs|] eqn:Ec; [|discriminate]); cbn [bind] in E; apply Ok_inj in E; subst u; exact Ec.
Qed.
Lemma convert_args c default units cfg t r : c <> CSeq -> same_cands units cfg -> convert_unit c default cfg t = Ok r ->
  with_args default units (fst r) /\ same_cands units (snd r).
Proof.
  intros C S E. split.
  - destruct t as [n [i o]]. unfold convert_unit in E. set (nm := auto_name _ _ n) in E. pose proof (S nm) as Sn. intros g a vs G A V.
    destruct (d_get cfg nm) as [[[a'|] cs ch]|] eqn:G'.
    + destruct (init_unit c (set_n a' n)) as [u|] eqn:Eu; [|discriminate]. cbn [bind] in E. apply Ok_inj in E. subst r. cbn [fst] in *.
      assert (Nm : name_of (with_related u (related n false i) (related n true o)) = nm).
      { unfold name_of, nm. cbn [with_related m_name m_in m_out m_cfg]. unfold init_unit in Eu. cbn [set_n a_n] in Eu. cbv zeta in Eu. destruct (match c with CSeq => _ | _ => _ end); [|discriminate]. cbn [bind] in Eu. apply Ok_inj in Eu. subst u. reflexivity. }
      rewrite Nm in G. rewrite G in Sn. cbn [option_map c_args] in Sn. rewrite A in Sn. cbn [option_map] in Sn. inversion Sn as [V']. rewrite V in V'.
      apply (init_cands c (set_n a' n) vs u C Eu). cbn [set_n a_cands]. auto.
    + destruct (init_unit c (set_n default n)) as [u|] eqn:Eu; [|discriminate]. cbn [bind] in E. apply Ok_inj in E. subst r. cbn [fst] in *.
      assert (Nm : name_of (with_related u (related n false i) (related n true o)) = nm).
      { unfold name_of, nm. cbn [with_related m_name m_in m_out m_cfg]. unfold init_unit in Eu. cbn [set_n a_n] in Eu. cbv zeta in Eu. destruct (match c with CSeq => _ | _ => _ end); [|discriminate]. cbn [bind] in Eu. apply Ok_inj in Eu. subst u. reflexivity. }
      rewrite Nm in G. rewrite G in Sn. cbn [option_map c_args] in Sn. rewrite A in Sn. discriminate Sn.
    + destruct (init_unit c (set_n default n)) as [u|] eqn:Eu; [|discriminate]. cbn [bind] in E. apply Ok_inj in E. subst r. cbn [fst] in *.
      assert (Nm : name_of (with_related u (related n false i) (related n true o)) = nm).
      { unfold name_of, nm. cbn [with_related m_name m_in m_out m_cfg]. unfold init_unit in Eu. cbn [set_n a_n] in Eu. cbv zeta in Eu. destruct (match c with CSeq => _ | _ => _ end); [|discriminate]. cbn [bind] in Eu. apply Ok_inj in Eu. subst u. reflexivity. }
      rewrite Nm in G. rewrite G in Sn. discriminate Sn.
  - destruct (convert_after c default cfg t r E) as [->|(nm & a & cs & ch & n & G & ->)]; [exact S|].
    intros k. rewrite d_put_get. destruct (uname_eqb nm k) eqn:Ek; [|apply S]. apply uname_eqb_eq in Ek. subst k. rewrite (S nm), G. reflexivity.
Qed.
Lemma tracer_args c default units ts : c <> CSeq -> forall cfg r, same_cands units cfg -> from_tracer c default cfg ts = Ok r -> Forall (with_args default units) (fst r).
Proof.
  intros C. induction ts as [|[k t] ts IH]; intros cfg r S E; cbn [from_tracer] in E; [apply Ok_inj in E; subst; constructor|].
  destruct (convert_unit c default cfg t) as [x|] eqn:Ex; [|discriminate]. cbn [bind] in E. destruct (from_tracer c default (snd x) ts) as [y|] eqn:Ey; [|discriminate]. cbn [bind] in E. apply Ok_inj in E. subst r. cbn [fst].
  destruct (convert_args c default units cfg t x C S Ex) as [A B]. constructor; [exact A|]. eapply IH; [exact B|exact Ey].
Qed.
Lemma tracer_cls c default ts : forall cfg r, from_tracer c default cfg ts = Ok r -> Forall (fun u => m_cls u = c) (fst r).
Proof.
  induction ts as [|[k t] ts IH]; intros cfg r E; cbn [from_tracer] in E; [apply Ok_inj in E; subst; constructor|].
  destruct (convert_unit c default cfg t) as [x|] eqn:Ex; [|discriminate]. cbn [bind] in E. destruct (from_tracer c default (snd x) ts) as [y|] eqn:Ey; [|discriminate]. cbn [bind] in E. apply Ok_inj in E. subst r. cbn [fst].
  constructor; [|eapply IH; exact Ey]. destruct t as [n [i o]]. unfold convert_unit in Ex.
  assert (X : forall a u, init_unit c a = Ok u -> m_cls u = c). { intros a u Eu. unfold init_unit in Eu. destruct (a_n a); [|discriminate]. cbv zeta in Eu. destruct (match c with CSeq => _ | _ => _ end); [|discriminate]. cbn [bind] in Eu. apply Ok_inj in Eu. subst u. reflexivity. }
  destruct (d_get cfg _) as [[[a'|] cs ch]|]; (destruct (init_unit c _) as [u|] eqn:Eu; [|discriminate]); cbn [bind] in Ex; apply Ok_inj in Ex; subst x; cbn [fst with_related m_cls]; exact (X _ _ Eu).
Qed.
Lemma prep_same u u' : prepare_unit u = Ok u' -> exists c, u' = with_ch u c.
Proof. unfold prepare_unit. destruct (m_cls u); [intros W2; apply Ok_inj in W2; subst; exists (m_ch u'); destruct u'; reflexivity| |]; (destruct (max_choice u) as [v|]; [|discriminate]; exact (set_same _ _ _)). Qed.
Lemma aligned_in u vs v : neat u -> oneshot_unit_candidates (m_cfg u) vs = Ok (m_cands u) -> In v vs -> aligned u v -> In v (m_cands u).
Proof.
  intros N E I (k & -> & D & L1 & L2). unfold oneshot_unit_candidates in E. destruct vs as [|x l] eqn:Ev; [destruct I|]. rewrite <- Ev in *. clear Ev x l.
  unfold prepare_candidates in E. destruct (mapM (prepare_candidate (m_cfg u)) vs) as [ys|] eqn:Em; [|discriminate]. cbn [bind] in E. apply Ok_inj in E.
  assert (Iy : In (NInt k) ys).
  { apply mapM_each in Em. clear E. induction Em as [|a b l l' H Em IH]; [destruct I|]. destruct I as [->|I]; [left|right; apply IH, I].
    unfold prepare_candidate in H. rewrite (n_num u N) in H. unfold u_make_divisible in H. rewrite md_fix in H; [cbn [bind] in H; apply Ok_inj in H; auto|apply N|apply N|exact D|unfold eff_min; lia]. }
  unfold init_candidates in E. assert (Is : In (NInt k) (num_sort (num_sort ys))) by (apply sort_in, sort_in, Iy). destruct (num_sort (num_sort ys)); [destruct Is|]. rewrite <- E. exact Is.
Qed.

(** Candidates that need no rounding: from any state every subnet can be set, and gives every unit
    its candidate. *)
Theorem C112_settable_partial units default ts m' rows subnets us i s :
  mapM subnet_row units = Ok rows -> slimmable_subnets units = Ok subnets ->
  prepare_from_supernet (new_mutator CSlim default false units {| p_type := PAnalyzer; p_from_cfg := false |}) ts = Ok m' ->
  NoDup (names (mt_units m')) -> Forall neat (mt_units m') -> NoDup (map fst units) -> incl (map fst units) (names (mt_units m')) ->
  (forall u vs v, In u (mt_units m') -> In (name_of u, vs) rows -> In v vs -> aligned u v) ->
  reach (mt_units m') us -> nth_error subnets i = Some s ->
  exists us', set_choices us s = (us', Ok tt) /\
    Forall2 (fun u u' => match d_get rows (name_of u) with
                         | Some vs => exists v, nth_error vs i = Some v /\ get_choice u' = Ok v
                         | None => u' = u
                         end) us us'.
Proof.
  intros Er Es P Dn N Dk Ik Al R Hi.
  assert (Rk : map fst rows = map fst units).
  { apply mapM_each in Er. clear -Er. induction Er as [|[k g] [k' vs] l l' H Er IH]; [reflexivity|]. cbn [map fst]. rewrite IH. f_equal. unfold subnet_row in H. cbn [fst snd] in H. destruct (c_args g) as [a|]; [|discriminate]. destruct (a_cands a); [|discriminate]. apply Ok_inj in H. inversion H. reflexivity. }
  assert (Rs : map fst (subnet_at rows i) = map fst units) by (rewrite <- Rk; unfold subnet_at; rewrite map_map; reflexivity).
  assert (Rg : forall k vs, In (k, vs) rows -> exists g a, In (k, g) units /\ c_args g = Some a /\ a_cands a = Some vs).
  { apply mapM_each in Er. clear -Er. intros k vs. induction Er as [|[k1 g] [k' vs'] l l' H Er IH]; intros I; [destruct I|]. destruct I as [I|I].
    - inversion I; subst. unfold subnet_row in H. cbn [fst snd] in H. destruct (c_args g) as [a|] eqn:A; [|discriminate]. destruct (a_cands a) eqn:C; [|discriminate]. apply Ok_inj in H. inversion H; subst. exists g, a. split; [left; reflexivity|]. auto.
    - destruct (IH I) as (g' & a & X & Y). exists g', a. split; [right; exact X|exact Y]. }
  unfold slimmable_subnets in Es. rewrite Er in Es. cbn [bind] in Es.
  (* the subnet *)
  assert (Sub : even_rows (length subnets) rows /\ s = subnet_at rows i /\ (i < length subnets)%nat).
  { destruct rows as [|[k0 vs0] rows]; [cbn in Es; apply Ok_inj in Es; subst subnets; destruct i; discriminate|].
    destruct (C112_transposed k0 vs0 rows) as [T1 T2]; [rewrite Rk; exact Dk|]. cbv zeta in T1, T2.
    assert (E : even_rows (length vs0) rows \/ ~ even_rows (length vs0) rows).
    { clear. induction rows as [|[k vs] rows IH]; [left; intros k vs []|]. destruct (Nat.eq_dec (length vs) (length vs0)) as [E|E]; [|right; intros H; apply E; apply (H k vs); left; reflexivity].
      destruct IH as [IH|IH]; [left; intros k' vs' [X|X]; [inversion X; subst; exact E|exact (IH k' vs' X)]|right; intros H; apply IH; intros k' vs' X; apply (H k' vs'); right; exact X]. }
    destruct E as [E|E]; [|rewrite (T2 E) in Es; discriminate]. rewrite (T1 E) in Es. apply Ok_inj in Es. subst subnets. rewrite map_length, seq_length.
    assert (I : (i < length vs0)%nat) by (assert (X : nth_error (map (subnet_at ((k0, vs0) :: rows)) (seq 0 (length vs0))) i <> None) by congruence; apply nth_error_Some in X; rewrite map_length, seq_length in X; exact X).
    split; [intros k vs [X|X]; [inversion X; subst; reflexivity|exact (E k vs X)]|]. split; [|exact I].
    rewrite nth_error_map in Hi. rewrite (nth_error_nth' _ 0%nat) in Hi by (rewrite seq_length; exact I). rewrite seq_nth in Hi by exact I. cbn in Hi. inversion Hi. reflexivity. }
  destruct Sub as (Ev & -> & Li).
  (* the units *)
  pose proof (prepared_good _ _ _ P N) as G0. destruct (reach_good _ _ G0 R) as [G1 S1].
  assert (Wa : Forall (fun u => with_args default units u /\ m_cls u = CSlim) (mt_units m')).
  { destruct (prepare_units _ _ _ P) as (r & A & B). cbn [new_mutator mt_parse p_type p_from_cfg mt_cls mt_default mt_units_cfg] in A.
    destruct (from_tracer CSlim default units ts) as [x|] eqn:Ex; [|discriminate]. cbn [bind] in A. apply Ok_inj in A. subst r.
    pose proof (tracer_args CSlim default units ts ltac:(discriminate) units x (fun k => eq_refl) Ex) as W. pose proof (tracer_cls CSlim default ts units x Ex) as Wc. apply mapM_each in B. clear -B W Wc.
    induction B as [|a b l l' H B IH]; [constructor|]. inversion W; subst. inversion Wc; subst. constructor; [|apply IH; assumption]. destruct (prep_same a b H) as [c ->]. split; assumption. }
  assert (St : forall u0 u, In u0 (mt_units m') -> same u0 u -> good u -> exists u', chosen (subnet_at rows i) u = Ok u' /\
    match d_get rows (name_of u) with Some vs => exists v, nth_error vs i = Some v /\ get_choice u' = Ok v | None => u' = u end).
  { intros u0 u I0 Su Gu. assert (Nm : name_of u = name_of u0) by (apply same_name, Su). unfold chosen.
    destruct (d_get rows (name_of u)) as [vs|] eqn:Gr.
    - assert (Gs : d_get (subnet_at rows i) (name_of u) = Some (nth i vs (NInt 0))).
      { apply d_get_nodup; [rewrite Rs; exact Dk|]. apply d_get_in in Gr. unfold subnet_at. apply (in_map (fun kv : uname * list num => (fst kv, nth i (snd kv) (NInt 0)))) in Gr. exact Gr. }
      rewrite Gs. apply d_get_in in Gr as Ir. destruct (Rg _ _ Ir) as (g & a & Ig & Ea & Ec). rewrite Nm in Ir, Ig.
      pose proof (Ev _ _ Ir) as Lv. assert (Iv : In (nth i vs (NInt 0)) vs) by (apply nth_In; lia). pose proof (Al u0 vs _ I0 Ir Iv) as Av.
      rewrite Forall_forall in Wa, N. destruct (Wa u0 I0) as [Wu Cu].
      assert (Iu : In (nth i vs (NInt 0)) (m_cands u0)).
      { apply (aligned_in u0 vs); [apply N, I0| |exact Iv|exact Av]. apply (Wu g a vs); [apply d_get_nodup; [exact Dk|exact Ig]|exact Ea|exact Ec]. }
      destruct Gu as [k0 Gu]. destruct Su as [mk Su]. assert (Cn : m_cands u = m_cands u0) by (subst u; reflexivity). rewrite <- Cn in Iu.
      destruct (b_cands u (proj1 Gu) _ Iu) as (k & Ek & Fk). rewrite Ek in *. destruct (set_fine u k (proj1 Gu) Fk (fun _ => Iu)) as (u' & E & _ & A & _). exists u'. split; [exact E|].
      exists (NInt k). split; [|apply at_get, A]. rewrite <- Ek. apply nth_error_nth'. lia.
    - assert (Gs : d_get (subnet_at rows i) (name_of u) = None) by (apply d_get_none; apply d_get_none in Gr; unfold subnet_at; rewrite map_map; exact Gr). rewrite Gs. exists u. auto. }
  assert (exists us', Forall2 (fun u u' => chosen (subnet_at rows i) u = Ok u' /\ match d_get rows (name_of u) with Some vs => exists v, nth_error vs i = Some v /\ get_choice u' = Ok v | None => u' = u end) us us') as [us' F].
  { clear -S1 G1 St. revert St. induction S1 as [|a b l l' H S1 IH]; intros St; [exists []; constructor|]. inversion G1; subst. destruct (St a b (or_introl eq_refl) H H2) as (b' & B). destruct (IH H3) as [us' F]; [intros u0 u I0; apply (St u0 u); right; exact I0|]. exists (b' :: us'). constructor; assumption. }
  exists us'. split; [|revert F; apply Forall2_imp; intros a b H; exact (proj2 H)].
  apply C107_effect; [rewrite (same_names _ _ S1); exact Dn|rewrite Rs; exact Dk|]. split.
  - rewrite Rs, (same_names _ _ S1). exact Ik.
  - apply each_mapM. revert F. apply Forall2_imp. intros a b H. exact (proj1 H).
Qed.
Print Assumptions C112_settable_partial.
Example C112_case :
  exists m', prepare_from_supernet (new_mutator CSlim no_args false (ex_slim 8 16) ex_p) ex_named = Ok m' /\
    slimmable_subnets (ex_slim 8 16) = Ok [[(UAuto 2 0 16 16, NInt 8)]; [(UAuto 2 0 16 16, NInt 16)]] /\
    Forall neat (mt_units m') /\ (forall u v, In u (mt_units m') -> In v [NInt 8; NInt 16] -> aligned u v) /\
    map get_choice (fst (set_choices (mt_units m') [(UAuto 2 0 16 16, NInt 8)])) = [Ok (NInt 8)].
Proof.
  eexists. split; [vm_compute; reflexivity|]. split; [reflexivity|]. split.
  - constructor; [|constructor]. constructor; cbn [m_cfg m_cands u_num u_div u_min u_ratio u_n]; [reflexivity|lia|split; discriminate|exists 2; reflexivity|lia|lia|right; lia|intros k [Hk|[Hk|[]]]; inversion Hk; lia].
  - split; [|vm_compute; reflexivity]. intros u v [<-|[]] [<-|[<-|[]]]; eexists; (split; [reflexivity|]); cbn; repeat split; try lia; [exists 1|exists 2]; reflexivity.
Qed.
