(** C121 - exporting a fake-quantized graph for TensorRT. *)
From Coq Require Import String Permutation Ascii.
From Verif Require Import Prelude Onnx_Model Onnx_Lemmas Onnx_Props Onnx2_Props Onnx3_Props Export_Model.
Local Open Scope string_scope.
Local Open Scope list_scope.
Local Open Scope Z_scope.

(** ** Specification *)
Section Trt.
Variable V : Type.
Variable exec : string -> nat -> list V -> list V.
Variable attr_range : onode -> option (outcome (V * V)).
Variable eight_bit : V -> V -> bool.
Variable symmetric : V -> bool.
Implicit Type m : omodel V.
(** A fake-quantize node. *)
Definition quantizer (n : onode) : Prop := In (o_op n) ["FakeQuantizeLearnablePerchannelAffine"; "FixedPerChannelAffine"; "LearnablePerTensorAffine"; "FixedPerTensorAffine"].
(** The quantize-related inputs of a fake-quantize node are constants (scale, zero point, further
    values such as the axis, range), of 8 bits and symmetric. *)
Definition exportable (data : string -> option V) (n : onode) (ws wz : V) (mid : list V) (wlo whi : V) : Prop :=
  exists x s z lo hi rest, o_in n = x :: s :: z :: rest ++ [lo; hi] /\
    data s = Some ws /\ data z = Some wz /\ known V data rest = Some mid /\ data lo = Some wlo /\ data hi = Some whi /\ eight_bit wlo whi = true /\ symmetric wz = true.
(** Names of the form made by the exporter are not in use. *)
Definition unused m : Prop := forall n, In n (m_node _ m) -> quantizer n ->
  ~ In (o_name n ++ "_quantized_out")%string (m_in _ m ++ flat_map o_out (m_node _ m) ++ map fst (m_init _ m)) /\
  ~ In (o_name n ++ "_quantized")%string (m_in _ m ++ map o_name (m_node _ m)) /\
  ~ In (o_name n ++ "_dequantized")%string (m_in _ m ++ map o_name (m_node _ m)).
(** Quantizing and dequantizing does what the fake-quantize node does. *)
Definition same_quantizer (n : onode) (ws wz : V) (mid : list V) (wlo whi : V) : Prop := forall x,
  exists q, exec "QuantizeLinear" 0 [x; ws; wz] = [q] /\ exec "DequantizeLinear" 0 [q; ws; wz] = exec (o_op n) (o_attr n) (x :: ws :: wz :: mid ++ [wlo; whi]).
Definition expressible (data : string -> option V) (n : onode) : Prop := exists ws wz mid wlo whi, exportable data n ws wz mid wlo whi /\ same_quantizer n ws wz mid wlo whi.
(** An output of the graph comes from a fake-quantize node or from a node fed by another node. *)
Definition attached m (o : string) : Prop := exists n, In n (m_node _ m) /\ In o (o_out n) /\ (quantizer n \/ exists i, In i (o_in n) /\ produced V m i).

(** ** Proof *)
Lemma chars_app a b : list_ascii_of_string (a ++ b)%string = list_ascii_of_string a ++ list_ascii_of_string b.
Proof. induction a as [|c a IH]; [reflexivity|]. cbn. rewrite IH. reflexivity. Qed.
Lemma chars_inj a b : list_ascii_of_string a = list_ascii_of_string b -> a = b.
Proof. intros H. rewrite <- (string_of_list_ascii_of_string a), <- (string_of_list_ascii_of_string b), H. reflexivity. Qed.
Lemma suffix_inj a b s : (a ++ s)%string = (b ++ s)%string -> a = b.
Proof. intros H. apply (f_equal list_ascii_of_string) in H. rewrite !chars_app in H. apply app_inv_tail in H. apply chars_inj. exact H. Qed.
Lemma suffix_apart a b : (a ++ "_quantized")%string <> (b ++ "_dequantized")%string.
Proof. intros H. apply (f_equal list_ascii_of_string) in H. rewrite !chars_app in H. apply (f_equal (@rev ascii)) in H. rewrite !rev_app_distr in H. cbn in H. discriminate H. Qed.
Lemma symbolic_iff n : is_symbolic n = true <-> quantizer n.
Proof. unfold is_symbolic, quantizer. rewrite mem_in. reflexivity. Qed.
Lemma trt_ok data ns : (forall n, In n ns -> exists ws wz mid wlo whi, exportable (get data) n ws wz mid wlo whi) -> trt_nodes V attr_range eight_bit symmetric data ns = Ok (flat_map trt_backend ns).
Proof.
  induction ns as [|n ns IH]; intros H; [reflexivity|]. cbn [trt_nodes flat_map]. destruct (H n (or_introl eq_refl)) as (vs & vz & mid & vlo & vhi & x & s & z & lo & hi & rest & Ei & Es & Ez & Em & El & Eh & B & Sy).
  unfold parse_qparams. rewrite Ei. unfold lookup. rewrite Es, Ez. cbn [bind]. destruct (rest ++ [lo; hi]) as [|y r] eqn:Er; [destruct rest; discriminate Er|]. rewrite <- Er. cbn [length].
  assert (N2 : nth (S (S (S (length (rest ++ [lo; hi])))) - 2) (x :: s :: z :: rest ++ [lo; hi]) "" = lo).
  { change (x :: s :: z :: rest ++ [lo; hi]) with ((x :: s :: z :: rest) ++ [lo; hi]). rewrite app_length. cbn [length]. rewrite app_nth2 by (cbn [length]; lia). cbn [length]. replace (S (S (S (length rest + 2))) - 2 - S (S (S (length rest))))%nat with 0%nat by lia. reflexivity. }
  assert (N1 : nth (S (S (S (length (rest ++ [lo; hi])))) - 1) (x :: s :: z :: rest ++ [lo; hi]) "" = hi).
  { change (x :: s :: z :: rest ++ [lo; hi]) with ((x :: s :: z :: rest) ++ [lo; hi]). rewrite app_length. cbn [length]. rewrite app_nth2 by (cbn [length]; lia). cbn [length]. replace (S (S (S (length rest + 2))) - 1 - S (S (S (length rest))))%nat with 1%nat by lia. reflexivity. }
  rewrite N2, N1, El, Eh. cbn [bind]. rewrite B, Sy. cbn [assert_ bind]. rewrite IH by (intros n' I; apply H; right; exact I). reflexivity.
Qed.
(** Every fake-quantize node replaced where it is. *)
Definition swap (n : onode) : list onode := if is_symbolic n then trt_backend n else [n].
Lemma swap_perm l : Permutation (flat_map swap l) (filter (fun n => negb (is_symbolic n)) l ++ flat_map trt_backend (filter is_symbolic l)).
Proof.
  induction l as [|n l IH]; [constructor|]. cbn [flat_map filter]. unfold swap at 1. destruct (is_symbolic n); cbn [negb app flat_map].
  - rewrite IH. apply Permutation_app_swap_app.
  - constructor. exact IH.
Qed.
(** Inputs of a node are not produced by it or a later node. *)
Fixpoint forward (l : list onode) : Prop := match l with [] => True | n :: r => (forall i, In i (o_in n) -> ~ In i (flat_map o_out (n :: r))) /\ forward r end.
Lemma forward_split l : forward l <-> forall a n b, l = a ++ n :: b -> forall i, In i (o_in n) -> ~ In i (flat_map o_out (n :: b)).
Proof.
  induction l as [|x l IH]; cbn [forward].
  - split; [intros _ a n b E; destruct a; discriminate E|trivial].
  - rewrite IH. split.
    + intros [H1 H2] [|y a] n b E; [injection E as -> ->; exact H1|injection E as <- E; exact (H2 a n b E)].
    + intros H. split; [exact (H [] x l eq_refl)|]. intros a n b E. apply (H (x :: a) n b). rewrite E. reflexivity.
Qed.
Definition qout (n : onode) : string := (o_name n ++ "_quantized_out")%string.

Section Swap.
Variable m : omodel V.
Variable feed : string -> V.
Variable const_value : onode -> option V.
Variable data : list (string * V).
Variable e1 : env V.
Hypothesis Ops : operators V exec const_value (fun _ => false).
Hypothesis D : distinct V m.
Hypothesis U : unused m.
Hypothesis Pc : forall n, In n (m_node _ m) -> o_op n = "Constant" -> o_in n = [].
Hypothesis Dt : forall k v, get data k = Some v -> constant V const_value m k v.
Hypothesis Ex : forall n, In n (m_node _ m) -> quantizer n -> expressible (get data) n.
Hypothesis Rn : run V exec (start V m feed) (m_node _ m) = Some e1.
Notation nodes := (m_node _ m).
Let syms := filter is_symbolic nodes.
Lemma in_syms n : In n syms <-> In n nodes /\ quantizer n.
Proof. unfold syms. rewrite filter_In, symbolic_iff. reflexivity. Qed.
Lemma name_eq a b : In a nodes -> In b nodes -> o_name a = o_name b -> a = b.
Proof.
  pose proof (ds_names _ _ D) as N. revert N. generalize nodes. induction l as [|x l IH]; intros N Ia Ib E; [destruct Ia|]. cbn [map] in N. apply NoDup_cons_iff in N as [N1 N2].
  destruct Ia as [<-|Ia], Ib as [<-|Ib]; [reflexivity| | |auto]; exfalso; apply N1; [rewrite E|rewrite <- E]; apply in_map; assumption.
Qed.
Lemma qout_fresh n : In n syms -> start V m feed (qout n) = None /\ ~ In (qout n) (flat_map o_out nodes) /\ ~ In (qout n) (m_in _ m).
Proof.
  intros I. apply in_syms in I as [I Q]. destruct (U n I Q) as (H & _). fold (qout n) in H. rewrite !in_app_iff in H. split; [|split; intros J; apply H; auto].
  destruct (start V m feed (qout n)) eqn:S0; [|reflexivity]. exfalso. assert (S1 : start V m feed (qout n) <> None) by congruence. apply (start_some V exec) in S1 as [J|J]; apply H; auto.
Qed.
Lemma known_none n : In n syms -> e1 (qout n) = None.
Proof. intros I. destruct (qout_fresh n I) as (S0 & O & _). rewrite (proj1 (solved V exec m feed e1 D Rn)) by exact O. exact S0. Qed.
Lemma input_not n i x : In n nodes -> In i (o_in n) -> In x syms -> i <> qout x.
Proof.
  intros I Hi Ix ->. destruct (proj2 (solved V exec m feed e1 D Rn) n I) as (vs & K & _). destruct (known_get _ _ _ _ K _ Hi) as [v Ev]. rewrite (known_none x Ix) in Ev. discriminate Ev.
Qed.
Lemma qout_inj a b : In a syms -> In b syms -> qout a = qout b -> a = b.
Proof. intros Ia Ib E. apply in_syms in Ia as [Ia _], Ib as [Ib _]. apply suffix_inj in E. exact (name_eq a b Ia Ib E). Qed.
(** The values of the new graph. *)
Definition e2 : env V := fun k => match find (fun n => String.eqb (qout n) k) syms with
  | Some n => match known V e1 (firstn 3 (o_in n)) with Some vs => hd_error (exec "QuantizeLinear" 0 vs) | None => None end
  | None => e1 k end.
Lemma e2_old k : (forall n, In n syms -> k <> qout n) -> e2 k = e1 k.
Proof. intros H. unfold e2. destruct (find _ syms) as [n|] eqn:F; [|reflexivity]. apply find_some in F as [I E]. apply String.eqb_eq in E. exfalso. exact (H n I (eq_sym E)). Qed.
Lemma e2_new n : In n syms -> e2 (qout n) = match known V e1 (firstn 3 (o_in n)) with Some vs => hd_error (exec "QuantizeLinear" 0 vs) | None => None end.
Proof.
  intros I. unfold e2. destruct (find _ syms) as [x|] eqn:F.
  - apply find_some in F as [Ix E]. apply String.eqb_eq in E. rewrite (qout_inj x n Ix I E). reflexivity.
  - exfalso. pose proof (find_none _ _ F n I) as H. cbn in H. rewrite String.eqb_refl in H. discriminate H.
Qed.
Lemma out_not o x : In o (flat_map o_out nodes) -> In x syms -> o <> qout x.
Proof. intros Ho Ix ->. exact (proj1 (proj2 (qout_fresh x Ix)) Ho). Qed.
Lemma new_solved n' : In n' (flat_map swap nodes) -> solves V exec e2 n'.
Proof.
  intros I. apply in_flat_map in I as (n & I & J). destruct (proj2 (solved V exec m feed e1 D Rn) n I) as (vs & K & G). unfold swap in J. destruct (is_symbolic n) eqn:Sn.
  - apply symbolic_iff in Sn. assert (Is : In n syms) by (apply in_syms; auto). destruct (Ex n I Sn) as (ws & wz & mid & wlo & whi & (x & s & z & lo & hi & rest & Ei & Es & Ez & Em & El & Eh & B & Sy) & Sq).
    pose proof (constant_value V exec const_value _ m feed e1 Ops D Rn Pc) as CV. assert (Ex1 : forall i, In i (o_in n) -> e2 i = e1 i) by (intros i Hi; apply e2_old; intros y Iy; exact (input_not n i y I Hi Iy)).
    assert (Ks : e1 s = Some ws) by (apply CV, Dt, Es). assert (Kz : e1 z = Some wz) by (apply CV, Dt, Ez).
    rewrite Ei in K. cbn [known] in K. destruct (e1 x) as [wx|] eqn:Kx; [|discriminate K]. rewrite Ks, Kz in K. destruct (known V e1 (rest ++ [lo; hi])) as [wr|] eqn:Kr; [|discriminate K]. apply some_inj in K. subst vs.
    assert (Kw : wr = mid ++ [wlo; whi]).
    { assert (Ka : forall l l' w, known V (get data) l = Some w -> known V e1 (l ++ l') = match known V e1 l' with Some w' => Some (w ++ w') | None => None end).
      { induction l as [|i l IHl]; intros l' w Kl; [cbn in Kl; apply some_inj in Kl; subst w; cbn [app]; destruct (known V e1 l'); reflexivity|]. cbn [known app] in *. destruct (get data i) as [wi|] eqn:Gi; [|discriminate Kl]. rewrite (CV i wi (Dt i wi Gi)). destruct (known V (get data) l) as [wl|]; [|discriminate Kl]. apply some_inj in Kl. subst w. rewrite (IHl l' wl eq_refl). destruct (known V e1 l'); reflexivity. }
      rewrite (Ka rest [lo; hi] mid Em) in Kr. cbn [known] in Kr. rewrite (CV lo wlo (Dt _ _ El)), (CV hi whi (Dt _ _ Eh)) in Kr. apply some_inj in Kr. symmetry. exact Kr. }
    subst wr. destruct (Sq wx) as (q & Eq & Ed).
    assert (Kq : e2 (qout n) = Some q). { rewrite e2_new by exact Is. rewrite Ei. cbn [firstn known]. rewrite Kx, Ks, Kz, Eq. reflexivity. }
    assert (Ex2 : e2 x = Some wx /\ e2 s = Some ws /\ e2 z = Some wz). { rewrite !Ex1 by (rewrite Ei; cbn; auto). auto. } destruct Ex2 as (Ex2 & Es2 & Ez2).
    destruct J as [<-|[<-|[]]].
    + exists [wx; ws; wz]. cbn [o_in o_out o_op o_attr]. rewrite Ei. cbn [firstn known]. rewrite Ex2, Es2, Ez2. split; [reflexivity|]. intros o [<-|[]]. fold (qout n). rewrite Kq, Eq. cbn [combine get]. rewrite String.eqb_refl. reflexivity.
    + exists [q; ws; wz]. cbn [o_in o_out o_op o_attr]. rewrite Ei. cbn [firstn skipn known]. fold (qout n). rewrite Kq, Es2, Ez2. split; [reflexivity|]. intros o Ho. rewrite Ed, <- (G o Ho). apply e2_old. intros y Iy. apply out_not; [apply in_flat_map; eauto|exact Iy].
  - destruct J as [<-|[]]. exists vs. split.
    + rewrite <- K. apply known_ext. intros i Hi. apply e2_old. intros y Iy. exact (input_not n i y I Hi Iy).
    + intros o Ho. rewrite <- (G o Ho). apply e2_old. intros y Iy. apply out_not; [apply in_flat_map; eauto|exact Iy].
Qed.
Lemma new_outs l o : incl l nodes -> In o (flat_map o_out (flat_map swap l)) <-> In o (flat_map o_out l) \/ exists n, In n l /\ is_symbolic n = true /\ o = qout n.
Proof.
  induction l as [|n l IH]; intros Hl; cbn [flat_map]; [cbn; split; [tauto|intros [H|(n & I & _)]; [exact H|destruct I]]|]. rewrite flat_map_app, !in_app_iff, IH by (intros y Iy; apply Hl; right; exact Iy).
  unfold swap at 1. destruct (is_symbolic n) eqn:Sn; cbn [trt_backend flat_map o_out app In]; rewrite ?app_nil_r; fold (qout n).
  - split.
    + intros [[<-|H]|[H|(y & I & H)]]; [right; exists n; auto|auto|auto|right; exists y; destruct H; auto].
    + intros [[H|H]|(y & [<-|I] & Sy & ->)]; [auto|auto|auto|right; right; exists y; auto].
  - split.
    + intros [H|[H|(y & I & H)]]; [auto|auto|right; exists y; destruct H; auto].
    + intros [[H|H]|(y & [<-|I] & Sy & ->)]; [auto|auto|congruence|right; right; exists y; auto].
Qed.
Lemma new_forward : forward (flat_map swap nodes).
Proof.
  assert (F : forward nodes).
  { apply forward_split. intros a n b E i Hi J. assert (Ep : nth_error nodes (length a) = Some n) by (rewrite E, nth_error_app2, Nat.sub_diag by lia; reflexivity).
    apply in_flat_map in J as (y & Iy & Jy). apply In_nth_error in Iy as [q Eq]. assert (Ey : nth_error nodes (length a + q) = Some y) by (rewrite E, nth_error_app2 by lia; replace (length a + q - length a)%nat with q by lia; exact Eq).
    pose proof (avail_out V exec m feed D _ y i _ Ey Jy (avail_in V exec m feed e1 Rn _ n i Ep Hi)). lia. }
  assert (G : forall l, incl l nodes -> NoDup (map o_name l) -> forward l -> forward (flat_map swap l)).
  { induction l as [|n l IH]; intros Hl N Hf; [exact I|]. cbn [forward] in Hf. destruct Hf as [H1 H2]. cbn [map] in N. apply NoDup_cons_iff in N as [N1 N2]. assert (Hl' : incl l nodes) by (intros y Iy; apply Hl; right; exact Iy). assert (In_n : In n nodes) by (apply Hl; left; reflexivity).
    assert (Q : forall i, In i (o_in n) -> ~ In i (flat_map o_out (flat_map swap l))).
    { intros i Hi J. apply (new_outs l i Hl') in J as [J|(y & Iy & Sy & Ey)]; [apply (H1 i Hi); cbn [flat_map]; apply in_or_app; auto|]. apply (input_not n i y In_n Hi); [apply in_syms; split; [apply Hl'; exact Iy|apply symbolic_iff; exact Sy]|exact Ey]. }
    assert (Q0 : forall i, In i (o_in n) -> ~ In i (o_out n)) by (intros i Hi J; apply (H1 i Hi); cbn [flat_map]; apply in_or_app; auto).
    cbn [flat_map]. unfold swap at 1. destruct (is_symbolic n) eqn:Sn.
    - assert (Is : In n syms) by (apply in_syms; split; [exact In_n|apply symbolic_iff; exact Sn]). assert (S3 : forall i, In i (firstn 3 (o_in n)) -> In i (o_in n)) by (intros i J; rewrite <- (firstn_skipn 3 (o_in n)); apply in_or_app; auto).
      assert (S2 : forall i, In i (firstn 2 (skipn 1 (firstn 3 (o_in n)))) -> In i (o_in n)).
      { intros i J. apply S3. rewrite <- (firstn_skipn 1 (firstn 3 (o_in n))). apply in_or_app. right. rewrite <- (firstn_skipn 2 (skipn 1 (firstn 3 (o_in n)))). apply in_or_app. auto. }
      cbn [trt_backend app forward o_in flat_map o_out]. fold (qout n). split; [|split; [|apply IH; auto]].
      + intros i Hi [J|J]; [exact (input_not n i n In_n (S3 i Hi) Is (eq_sym J))|]. apply in_app_or in J as [J|J]; [exact (Q0 i (S3 i Hi) J)|exact (Q i (S3 i Hi) J)].
      + intros i [<-|Hi] J; apply in_app_or in J as [J|J].
        * apply (out_not (qout n) n); [apply in_flat_map; eauto|exact Is|reflexivity].
        * apply (new_outs l _ Hl') in J as [J|(y & Iy & Sy & Ey)]; [apply (out_not (qout n) n); [apply in_flat_map in J as (y & Iy & Jy); apply in_flat_map; exists y; split; [apply Hl'; exact Iy|exact Jy]|exact Is|reflexivity]|].
          assert (Iy' : In y syms) by (apply in_syms; split; [apply Hl'; exact Iy|apply symbolic_iff; exact Sy]). apply (qout_inj n y Is Iy') in Ey. subst y. apply N1. apply in_map. exact Iy.
        * exact (Q0 i (S2 i Hi) J).
        * exact (Q i (S2 i Hi) J).
    - cbn [app forward flat_map]. split; [|apply IH; auto]. intros i Hi J. apply in_app_or in J as [J|J]; [exact (Q0 i Hi J)|exact (Q i Hi J)]. }
  apply G; [apply incl_refl|exact (ds_names _ _ D)|exact F].
Qed.
Lemma new_nodup : NoDup (m_in _ m ++ flat_map o_out (flat_map swap nodes)).
Proof.
  assert (G : forall l P, incl l nodes -> NoDup (map o_name l) -> NoDup (P ++ flat_map o_out l) -> (forall n, In n syms -> ~ In (qout n) P) -> NoDup (P ++ flat_map o_out (flat_map swap l))).
  { induction l as [|n l IH]; intros P Hl Nn N HP; [exact N|]. cbn [map] in Nn. apply NoDup_cons_iff in Nn as [N1 N2]. assert (Hl' : incl l nodes) by (intros y Iy; apply Hl; right; exact Iy). assert (In_n : In n nodes) by (apply Hl; left; reflexivity).
    cbn [flat_map] in N |- *. rewrite flat_map_app.
    assert (HP' : forall x, In x syms -> ~ In (qout x) (P ++ o_out n)). { intros x Ix J. apply in_app_or in J as [J|J]; [exact (HP x Ix J)|]. apply (out_not (qout x) x); [apply in_flat_map; eauto|exact Ix|reflexivity]. }
    rewrite app_assoc in N. pose proof (IH (P ++ o_out n) Hl' N2 N HP') as IH'. unfold swap at 1. destruct (is_symbolic n) eqn:Sn.
    - assert (Is : In n syms) by (apply in_syms; split; [exact In_n|apply symbolic_iff; exact Sn]). cbn [trt_backend flat_map o_out app]. rewrite app_nil_r. fold (qout n). rewrite <- app_assoc in IH'.
      apply (Permutation_NoDup (Permutation_middle P _ (qout n))). constructor; [|exact IH']. intros J. rewrite app_assoc in J. apply in_app_or in J as [J|J]; [exact (HP' n Is J)|].
      apply (new_outs l _ Hl') in J as [J|(y & Iy & Sy & Ey)].
      + apply (out_not (qout n) n); [apply in_flat_map in J as (y & Iy & Jy); apply in_flat_map; exists y; split; [apply Hl'; exact Iy|exact Jy]|exact Is|reflexivity].
      + assert (Iy' : In y syms) by (apply in_syms; split; [apply Hl'; exact Iy|apply symbolic_iff; exact Sy]). apply (qout_inj n y Is Iy') in Ey. subst y. apply N1, in_map, Iy.
    - cbn [flat_map]. rewrite app_nil_r, app_assoc. exact IH'. }
  apply G; [apply incl_refl|exact (ds_names _ _ D)|exact (ds_single _ _ D)|]. intros n I. exact (proj2 (proj2 (qout_fresh n I))).
Qed.
Lemma new_names : NoDup (map o_name (flat_map swap nodes)) /\ forall i, In i (m_in _ m) -> ~ In i (map o_name (flat_map swap nodes)).
Proof.
  assert (Cs : forall l nm, In nm (map o_name (flat_map swap l)) -> In nm (map o_name l) \/ exists n, In n l /\ is_symbolic n = true /\ (nm = (o_name n ++ "_quantized")%string \/ nm = (o_name n ++ "_dequantized")%string)).
  { intros l nm J. apply in_map_iff in J as (x & <- & J). apply in_flat_map in J as (n & I & J). unfold swap in J. destruct (is_symbolic n) eqn:Sn; [|destruct J as [<-|[]]; left; apply in_map; exact I]. right. exists n. split; [exact I|]. split; [exact Sn|]. destruct J as [<-|[<-|[]]]; auto. }
  split.
  - assert (G : forall l, incl l nodes -> NoDup (map o_name l) -> NoDup (map o_name (flat_map swap l))).
    { induction l as [|n l IH]; intros Hl N; [constructor|]. cbn [map] in N. apply NoDup_cons_iff in N as [N1 N2]. assert (Hl' : incl l nodes) by (intros y Iy; apply Hl; right; exact Iy). assert (In_n : In n nodes) by (apply Hl; left; reflexivity).
      cbn [flat_map]. rewrite map_app. unfold swap at 1. specialize (IH Hl' N2). destruct (is_symbolic n) eqn:Sn.
      - apply symbolic_iff in Sn. destruct (U n In_n Sn) as (_ & U1 & U2). rewrite in_app_iff in U1, U2. cbn [trt_backend map o_name app].
        assert (Old : forall nm, In nm (map o_name l) -> In nm (map o_name nodes)) by (intros nm J; apply in_map_iff in J as (y & <- & J); apply in_map, Hl', J).
        constructor; [|constructor; [|exact IH]].
        + intros [J|J]; [exact (suffix_apart _ _ (eq_sym J))|]. apply Cs in J as [J|(y & Iy & _ & [J|J])]; [apply U1; right; apply Old; exact J|apply suffix_inj in J; apply N1; rewrite J; apply in_map; exact Iy|exact (suffix_apart _ _ J)].
        + intros J. apply Cs in J as [J|(y & Iy & _ & [J|J])]; [apply U2; right; apply Old; exact J|exact (suffix_apart _ _ (eq_sym J))|apply suffix_inj in J; apply N1; rewrite J; apply in_map; exact Iy].
      - cbn [map app]. constructor; [|exact IH]. intros J. apply Cs in J as [J|(y & Iy & Sy & J)]; [exact (N1 J)|]. apply symbolic_iff in Sy. destruct (U y (Hl' y Iy) Sy) as (_ & U1 & U2). rewrite in_app_iff in U1, U2.
        destruct J as [J|J]; [apply U1|apply U2]; right; rewrite <- J; apply in_map; exact In_n. }
    apply G; [apply incl_refl|exact (ds_names _ _ D)].
  - intros i Hi J. apply Cs in J as [J|(y & Iy & Sy & J)]; [exact (ds_apart _ _ D i Hi J)|]. apply symbolic_iff in Sy. destruct (U y Iy Sy) as (_ & U1 & U2). rewrite in_app_iff in U1, U2. destruct J as [-> | ->]; [apply U1|apply U2]; auto.
Qed.
Let m2 : omodel V := with_nodes V m (filter (fun n => negb (is_symbolic n)) nodes ++ flat_map trt_backend syms).
Lemma perm2 : Permutation (flat_map swap nodes) (m_node _ m2).
Proof. apply swap_perm. Qed.
Lemma distinct2 : distinct V m2.
Proof.
  destruct new_names as [N1 N2]. split.
  - apply (Permutation_NoDup (Permutation_map o_name perm2)). exact N1.
  - intros i Hi J. apply (N2 i Hi). apply (Permutation_in _ (Permutation_sym (Permutation_map o_name perm2))). exact J.
  - apply (Permutation_NoDup (Permutation_app_head (m_in _ m) (Permutation_flat_map o_out perm2))). exact new_nodup.
  - exact (ds_init _ _ D).
  - intros o Ho J. apply (Permutation_in _ (Permutation_sym (Permutation_flat_map o_out perm2))) in Ho. apply (new_outs nodes o (incl_refl _)) in Ho as [Ho|(n & I & Sn & ->)]; [exact (ds_fresh _ _ D o Ho J)|].
    apply symbolic_iff in Sn. destruct (U n I Sn) as (H & _). apply H. rewrite !in_app_iff. auto.
Qed.
Lemma new_run vs : known V e1 (m_out _ m) = Some vs -> computes V exec m2 feed vs.
Proof.
  intros K. exists (flat_map swap nodes). split; [exact perm2|]. destruct (replay V exec (fun _ => False) e2 (flat_map swap nodes) (start V m feed)) as (e' & Rn' & Eq).
  - intros k [].
  - exact (proj1 (proj2 (nodup_app _ _ new_nodup))).
  - exact new_solved.
  - intros o Ho. apply (new_outs nodes o (incl_refl _)) in Ho as [Ho|(n & I & Sn & ->)]; [apply (fresh V exec m feed D); exact Ho|]. apply qout_fresh. apply in_syms. split; [exact I|apply symbolic_iff; exact Sn].
  - intros k _ Hk. rewrite (new_outs nodes k (incl_refl _)) in Hk. rewrite e2_old.
    + symmetry. apply (proj1 (solved V exec m feed e1 D Rn)). intros J. apply Hk. auto.
    + intros n I ->. apply in_syms in I as [I Q]. apply Hk. right. exists n. split; [exact I|]. split; [apply symbolic_iff; exact Q|reflexivity].
  - apply forward_split. exact new_forward.
  - unfold evaluate. cbn [with_nodes m2 m_node m_out]. change (start V (with_nodes V m2 _) feed) with (start V m feed). rewrite Rn', <- K. apply known_ext. intros o Ho. rewrite Eq by tauto. apply e2_old. intros n I ->.
    destruct (known_get _ _ _ _ K _ Ho) as [v Ev]. rewrite (known_none n I) in Ev. discriminate Ev.
Qed.
Lemma new_attached : (forall o, In o (m_out _ m) -> attached m o) -> forall o, In o (m_out _ m2) ->
  (forall n, In n (m_node _ m2) -> In o (o_out n) -> ~ isolated V m2 n) /\ (In o (map fst (m_init _ m2)) -> consumed V m2 o).
Proof.
  intros A o Ho. destruct (A o Ho) as (n0 & I0 & J0 & H0). assert (Out : In o (flat_map o_out nodes)) by (apply in_flat_map; eauto).
  split; [|intros J; exfalso; exact (ds_fresh _ _ D o Out J)]. intros n I J [Is _]. apply (Permutation_in _ (Permutation_sym perm2)) in I.
  assert (Pr : forall k, In k (flat_map o_out (flat_map swap nodes)) -> produced V m2 k) by (intros k Hk; apply (Permutation_in _ (Permutation_flat_map o_out perm2)); exact Hk).
  apply in_flat_map in I as (n1 & I1 & I). unfold swap in I. destruct (is_symbolic n1) eqn:Sn.
  - assert (Is1 : In n1 syms) by (apply in_syms; split; [exact I1|apply symbolic_iff; exact Sn]). destruct I as [<-|[<-|[]]]; cbn [o_in o_out] in *.
    + destruct J as [<-|[]]. exact (out_not _ n1 Out Is1 eq_refl).
    + apply (Is (qout n1)); [left; reflexivity|]. apply Pr. apply (new_outs nodes _ (incl_refl _)). right. exists n1. auto.
  - destruct I as [<-|[]]. assert (n1 = n0) by (exact (out_unique nodes n1 n0 o (Nd V m D) I1 I0 J J0)). subst n1. destruct H0 as [Q|(i & Hi & P)]; [apply symbolic_iff in Q; congruence|]. apply (Is i Hi), Pr. apply (new_outs nodes _ (incl_refl _)). auto.
Qed.
Lemma export_ok : trt_export V attr_range eight_bit symmetric m data = optimize V m2.
Proof.
  unfold trt_export, collect_symbolic_nodes. rewrite trt_ok by (intros n I; apply in_syms in I as [I Q]; destruct (Ex n I Q) as (ws & wz & mid & wlo & whi & H & _); eauto 6). cbn [bind]. pose proof (remove_filter V exec is_symbolic nodes []) as Rm. cbn [app] in Rm.
  rewrite Rm; [reflexivity|apply (NoDup_map_inv o_name); exact (ds_names _ _ D)|intros x []].
Qed.
End Swap.

(** ** Theorems *)
(** For graphs with 8-bit symmetric fake-quantize nodes whose parameters are constants, the exported
    graph computes the same outputs, when quantizing and dequantizing does what the nodes do. *)
Theorem C121_same_partial const_value m data feed vs :
  operators V exec const_value (fun _ => false) -> distinct V m -> unused m ->
  (forall n, In n (m_node _ m) -> o_op n = "Constant" -> o_in n = []) ->
  (forall k v, get data k = Some v -> constant V const_value m k v) ->
  (forall n, In n (m_node _ m) -> quantizer n -> expressible (get data) n) ->
  (forall o, In o (m_out _ m) -> attached m o) ->
  evaluate V exec m feed = Some vs ->
  exists m', trt_export V attr_range eight_bit symmetric m data = Ok m' /\ evaluate V exec m' feed = Some vs /\
    forall n, In n (m_node _ m') -> ~ quantizer n.
Proof.
  intros Ops D U Pc Dt Ex A E. unfold evaluate in E. destruct (run _ _ _ _) as [e1|] eqn:Rn; [|discriminate E].
  pose proof (export_ok m data D Ex) as Eo. pose proof (distinct2 m feed D U) as D2. pose proof (new_run m feed const_value data e1 Ops D U Pc Dt Ex Rn vs E) as C2. pose proof (new_attached m feed D U A) as A2.
  destruct (C119_same_partial V exec _ feed vs D2 C2 A2) as (m' & Om & Ev). exists m'. rewrite Eo. split; [exact Om|]. split; [exact Ev|].
  intros n I Q. destruct (C119_kept_partial V exec _ feed vs m' D2 C2 Om) as (K & _). apply K in I as [I _]. cbn [with_nodes m_node] in I. apply in_app_or in I as [I|I].
  - apply filter_In in I as [_ I]. apply symbolic_iff in Q. rewrite Q in I. discriminate I.
  - apply in_flat_map in I as (x & _ & [<-|[<-|[]]]); unfold quantizer in Q; cbn [o_op In] in Q; intuition discriminate.
Qed.
End Trt.

(** ** Matrices and the ONNX operators on them: [axis] 1 is the default of QuantizeLinear and
    DequantizeLinear; the quantized type is int8. Scales and zero points have one row. *)
Definition tensor : Type := list (list Z).
Definition channel (d : Z) (p : tensor) (axis : Z) (i j : nat) : Z :=
  match p with [[a]] => a | [row] => nth (if axis =? 0 then i else j) row d | _ => d end.
Definition entries2 (f : nat -> nat -> Z -> Z) (x : tensor) : tensor := map (fun ir => map (fun jv => f (fst ir) (fst jv) (snd jv)) (enum 0 (snd ir))) (enum 0 x).
Definition nearest (x s : Z) : Z := (2 * x + s) / (2 * s).
Definition clamp (lo hi x : Z) : Z := Z.max lo (Z.min hi x).
Definition scalar (d : Z) (v : tensor) : Z := match v with [[a]] => a | _ => d end.
Definition q_op (axis lo hi : Z) (x s z : tensor) : tensor := entries2 (fun i j v => clamp lo hi (nearest v (channel 1 s axis i j) + channel 0 z axis i j)) x.
Definition dq_op (axis : Z) (q s z : tensor) : tensor := entries2 (fun i j v => (v - channel 0 z axis i j) * channel 1 s axis i j) q.
Definition onnx_exec (op : string) (_ : nat) (vs : list tensor) : list tensor :=
  match vs with
  | [x; s; z; lo; hi] => if String.eqb op "FixedPerTensorAffine" then [dq_op 1 (q_op 1 (scalar 0 lo) (scalar 0 hi) x s z) s z] else [concat vs]
  | [x; s; z; axis; lo; hi] => if String.eqb op "FixedPerChannelAffine" then [dq_op (scalar 0 axis) (q_op (scalar 0 axis) (scalar 0 lo) (scalar 0 hi) x s z) s z] else [concat vs]
  | [x; s; z] => if String.eqb op "QuantizeLinear" then [q_op 1 (-128) 127 x s z] else if String.eqb op "DequantizeLinear" then [dq_op 1 x s z] else [concat vs]
  | _ => [concat vs]
  end.
Definition is_eight_bit (lo hi : tensor) : bool := (scalar 0 hi - scalar 0 lo =? 255) || (scalar 0 hi - scalar 0 lo =? 254).
Definition is_symmetric (z : tensor) : bool := forallb (forallb (Z.eqb 0)) z.
(** For a per-tensor node with the range of int8, and for a per-channel one along axis 1, quantizing and dequantizing is the same. *)
Theorem C121_int8 n ws wz wlo whi : scalar 0 wlo = -128 -> scalar 0 whi = 127 ->
  (o_op n = "FixedPerTensorAffine" -> same_quantizer tensor onnx_exec n ws wz [] wlo whi) /\
  (forall axis, scalar 0 axis = 1 -> o_op n = "FixedPerChannelAffine" -> same_quantizer tensor onnx_exec n ws wz [axis] wlo whi).
Proof.
  intros El Eh. split.
  - intros Op x. exists (q_op 1 (-128) 127 x ws wz). rewrite Op. cbn. rewrite El, Eh. auto.
  - intros axis Ea Op x. exists (q_op 1 (-128) 127 x ws wz). rewrite Op. cbn. rewrite El, Eh, Ea. auto.
Qed.
(** The full claim: what the exporter accepts is exported to a graph that computes the same. *)
Definition accepted (m : omodel tensor) (data : list (string * tensor)) : Prop :=
  distinct tensor m /\ unused tensor m /\ (forall n, In n (m_node _ m) -> o_op n = "Constant" -> o_in n = []) /\
  (forall k v, get data k = Some v -> constant tensor (fun _ => None) m k v) /\
  (forall n, In n (m_node _ m) -> quantizer n -> exists ws wz mid wlo whi, exportable tensor is_eight_bit is_symmetric (get data) n ws wz mid wlo whi) /\
  (forall o, In o (m_out _ m) -> attached tensor m o).
Definition C121_claim (kind : list string) (lowest : Z -> Prop) : Prop := forall m data feed vs, accepted m data ->
  (forall n ws wz mid wlo whi, In n (m_node _ m) -> quantizer n -> exportable tensor is_eight_bit is_symmetric (get data) n ws wz mid wlo whi -> In (o_op n) kind /\ lowest (scalar 0 wlo)) ->
  evaluate tensor onnx_exec m feed = Some vs ->
  exists m', trt_export tensor (fun _ => None) is_eight_bit is_symmetric m data = Ok m' /\ evaluate tensor onnx_exec m' feed = Some vs.
Definition ex_weights (range : Z) (nodes : list onode) : omodel tensor := {| m_node := nodes;
  m_init := [("w", [[1; 1]; [1; 1]]); ("s", [[1; 4]]); ("one", [[1]]); ("z", [[0]]); ("axis", [[0]]); ("lo", [[127 - range]]); ("hi", [[127]])]; m_in := ["x"]; m_out := ["y"] |}.
Definition ex_axis : omodel tensor := ex_weights 255 [nd "fq" "FixedPerChannelAffine" ["w"; "s"; "z"; "axis"; "lo"; "hi"] ["wq"]; nd "conv" "Conv" ["x"; "wq"] ["y"]].
Definition ex_narrow : omodel tensor := ex_weights 254 [nd "fq" "FixedPerTensorAffine" ["x"; "one"; "z"; "lo"; "hi"] ["xq"]; nd "relu" "Relu" ["xq"] ["y"]].
Lemma ex_distinct range a b : NoDup [o_name a; o_name b] -> NoDup ("x" :: [o_name a; o_name b]) -> NoDup ("x" :: o_out a ++ o_out b) ->
  NoDup ((o_out a ++ o_out b) ++ ["w"; "s"; "one"; "z"; "axis"; "lo"; "hi"]) -> distinct tensor (ex_weights range [a; b]).
Proof.
  intros A B C E. split; cbn [ex_weights m_node m_in m_init map flat_map app fst]; rewrite ?app_nil_r.
  - exact A.
  - intros i [<-|[]] J. apply NoDup_cons_iff in B. tauto.
  - exact C.
  - exact (proj1 (proj2 (nodup_app _ _ E))).
  - exact (proj2 (proj2 (nodup_app _ _ E))).
Qed.
Ltac nodup := repeat constructor; cbn; intuition discriminate.
Lemma data_init range nodes k v : get (m_init tensor (ex_weights range nodes)) k = Some v -> constant tensor (fun _ => None) (ex_weights range nodes) k v.
Proof. intros H. apply const_init, get_in. exact H. Qed.
(** The axis (0 for weights) is left out. *)
Theorem C121_axis_refuted : ~ C121_claim ["FixedPerChannelAffine"; "FixedPerTensorAffine"] (eq (-128)).
Proof.
  intros H. destruct (H ex_axis (m_init _ ex_axis) (fun _ => [[1; 1]]) [[[1; 1]; [1; 1]; [0; 0]]]) as (m' & E & G).
  - split; [apply ex_distinct; nodup|]. split; [|split; [|split; [apply data_init|split]]].
    + intros n I Q. cbn in I. destruct I as [<-|[<-|[]]]; [|unfold quantizer in Q; cbn in Q; intuition discriminate]. cbn. intuition discriminate.
    + intros n I Op. cbn in I. destruct I as [<-|[<-|[]]]; discriminate Op.
    + intros n I Q. cbn in I. destruct I as [<-|[<-|[]]]; [|unfold quantizer in Q; cbn in Q; intuition discriminate]. exists [[1; 4]], [[0]], [[[0]]], [[-128]], [[127]], "w", "s", "z", "lo", "hi", ["axis"]. repeat split.
    + intros o [<-|[]]. exists (nd "conv" "Conv" ["x"; "wq"] ["y"]). split; [right; left; reflexivity|]. split; [left; reflexivity|]. right. exists "wq". cbn. auto.
  - intros n ws wz mid wlo whi I Q (x & s & z & lo & hi & rest & Ei & _ & _ & _ & El & _). cbn in I. destruct I as [<-|[<-|[]]]; [|unfold quantizer in Q; cbn in Q; intuition discriminate].
    split; [cbn; auto|]. cbn in Ei. injection Ei as <- <- <- Ei. destruct rest as [|r [|r' rest]]; [discriminate Ei| |destruct rest as [|? [|? ?]]; discriminate Ei]. injection Ei as <- <- <-. vm_compute in El. apply some_inj in El. subst wlo. reflexivity.
  - vm_compute. reflexivity.
  - vm_compute in E. apply Ok_inj in E. subst m'. vm_compute in G. discriminate G.
Qed.
(** A range of -127 to 127 is accepted, but int8 has -128 as well. *)
Theorem C121_narrow_refuted : ~ C121_claim ["FixedPerTensorAffine"] (eq (-127)).
Proof.
  intros H. destruct (H ex_narrow (m_init _ ex_narrow) (fun _ => [[-128]]) [[[-127]]]) as (m' & E & G).
  - split; [apply ex_distinct; nodup|]. split; [|split; [|split; [apply data_init|split]]].
    + intros n I Q. cbn in I. destruct I as [<-|[<-|[]]]; [|unfold quantizer in Q; cbn in Q; intuition discriminate]. cbn. intuition discriminate.
    + intros n I Op. cbn in I. destruct I as [<-|[<-|[]]]; discriminate Op.
    + intros n I Q. cbn in I. destruct I as [<-|[<-|[]]]; [|unfold quantizer in Q; cbn in Q; intuition discriminate]. exists [[1]], [[0]], [], [[-127]], [[127]], "x", "one", "z", "lo", "hi", []. repeat split.
    + intros o [<-|[]]. exists (nd "relu" "Relu" ["xq"] ["y"]). split; [right; left; reflexivity|]. split; [left; reflexivity|]. right. exists "xq". cbn. auto.
  - intros n ws wz mid wlo whi I Q (x & s & z & lo & hi & rest & Ei & _ & _ & _ & El & _). cbn in I. destruct I as [<-|[<-|[]]]; [|unfold quantizer in Q; cbn in Q; intuition discriminate].
    split; [cbn; auto|]. cbn in Ei. injection Ei as <- <- <- Ei. destruct rest as [|r rest]; [|destruct rest as [|? [|? ?]]; discriminate Ei]. injection Ei as <- <-. vm_compute in El. apply some_inj in El. subst wlo. reflexivity.
  - vm_compute. reflexivity.
  - vm_compute in E. apply Ok_inj in E. subst m'. vm_compute in G. discriminate G.
Qed.
(** A graph for which the theorem applies: an activation quantized to int8. *)
Definition ex_int8 : omodel tensor := ex_weights 255 [nd "fq" "FixedPerTensorAffine" ["x"; "one"; "z"; "lo"; "hi"] ["xq"]; nd "relu" "Relu" ["xq"] ["y"]].
Example C121_case : accepted ex_int8 (m_init _ ex_int8) /\ operators tensor onnx_exec (fun _ => None) (fun _ => false) /\
  (forall n, In n (m_node _ ex_int8) -> quantizer n -> expressible tensor onnx_exec is_eight_bit is_symmetric (get (m_init _ ex_int8)) n) /\
  evaluate tensor onnx_exec ex_int8 (fun _ => [[-200; 3]]) = Some [[[-128; 3]]] /\
  match trt_export tensor (fun _ => None) is_eight_bit is_symmetric ex_int8 (m_init _ ex_int8) with
  | Ok m' => map o_op (m_node _ m') = ["QuantizeLinear"; "DequantizeLinear"; "Relu"] /\ evaluate tensor onnx_exec m' (fun _ => [[-200; 3]]) = Some [[[-128; 3]]]
  | Raise _ => False
  end.
Proof.
  assert (X : forall n, In n (m_node _ ex_int8) -> quantizer n -> exportable tensor is_eight_bit is_symmetric (get (m_init _ ex_int8)) n [[1]] [[0]] [] [[-128]] [[127]] /\ o_op n = "FixedPerTensorAffine").
  { intros n I Q. cbn in I. destruct I as [<-|[<-|[]]]; [|unfold quantizer in Q; cbn in Q; intuition discriminate]. split; [|reflexivity]. exists "x", "one", "z", "lo", "hi", []. repeat split. }
  split; [|split; [|split; [|split; [vm_compute; reflexivity|vm_compute; split; reflexivity]]]].
  - split; [apply ex_distinct; nodup|]. split; [|split; [|split; [apply data_init|split]]].
    + intros n I Q. cbn in I. destruct I as [<-|[<-|[]]]; [|unfold quantizer in Q; cbn in Q; intuition discriminate]. cbn. intuition discriminate.
    + intros n I Op. cbn in I. destruct I as [<-|[<-|[]]]; discriminate Op.
    + intros n I Q. destruct (X n I Q) as [X1 _]. eauto 6.
    + intros o [<-|[]]. exists (nd "relu" "Relu" ["xq"] ["y"]). split; [right; left; reflexivity|]. split; [left; reflexivity|]. right. exists "xq". cbn. auto.
  - split; [intros n v Op Cv; discriminate Cv|intros a v; cbn; rewrite app_nil_r; reflexivity|intros a x p rest Z0; discriminate Z0].
  - intros n I Q. destruct (X n I Q) as [X1 X2]. exists [[1]], [[0]], [], [[-128]], [[127]]. split; [exact X1|]. apply (C121_int8 n [[1]] [[0]] [[-128]] [[127]]); [reflexivity|reflexivity|exact X2].
Qed.
Print Assumptions C121_same_partial.
Print Assumptions C121_int8.
Print Assumptions C121_axis_refuted.
Print Assumptions C121_narrow_refuted.
