(** C123, continued: the shape that the OpenVINO exporter gives the ranges. *)
From Coq Require Import String.
From Verif Require Import Prelude Onnx_Model Onnx_Lemmas Onnx_Props Onnx2_Props Onnx3_Props Export_Model Export_Props Export2_Props Export3_Props.
Local Open Scope string_scope.
Local Open Scope list_scope.
Local Open Scope Z_scope.

(** ** Specification *)
(** [next] is the first node that takes the tensor [o]. *)
Definition first_user (nodes : list onode) (o : string) (next : onode) : Prop :=
  exists a b, nodes = a ++ next :: b /\ In o (o_in next) /\ forall k, In k a -> ~ In o (o_in k).
(** The second input of [next] is made by a node whose first input is the constant [v]. *)
Definition second_made_from {V : Type} (nodes : list onode) (data : list (string * V)) (next : onode) (v : V) : Prop :=
  exists w f x, nth_error (o_in next) 1 = Some w /\ In f nodes /\ In w (o_out f) /\ nth_error (o_in f) 0 = Some x /\ get data x = Some v.

Section Shape.
Variable V : Type.
Variable rank : V -> nat.
Definition uses_of (k : string) (q : nat) (ins : list (nat * string)) : list (nat * nat) := flat_map (fun ji => if String.eqb (snd ji) k then [(q, fst ji)] else []) ins.
Lemma entries_list m k : entries (map_input_and_node V m) k = flat_map (fun pn => uses_of k (fst pn) (enum 0 (o_in (snd pn)))) (enum 0 (m_node _ m)).
Proof.
  unfold map_input_and_node.
  assert (I1 : forall q (ins : list (nat * string)) d, entries (fold_left (fun d ji => add_use d (snd ji) (q, fst ji)) ins d) k = entries d k ++ uses_of k q ins).
  { intros q. induction ins as [|[j i] ins IH]; intros d; cbn [fold_left]; [symmetry; apply app_nil_r|]. rewrite IH, entries_add. unfold uses_of. cbn [flat_map fst snd]. destruct (String.eqb i k); [rewrite <- app_assoc; reflexivity|reflexivity]. }
  assert (I2 : forall (ns : list (nat * onode)) d, entries (fold_left (fun d pn => fold_left (fun d ji => add_use d (snd ji) (fst pn, fst ji)) (enum 0 (o_in (snd pn))) d) ns d) k = entries d k ++ flat_map (fun pn => uses_of k (fst pn) (enum 0 (o_in (snd pn)))) ns).
  { induction ns as [|n ns IH]; intros d; cbn [fold_left flat_map]; [symmetry; apply app_nil_r|]. rewrite IH, I1, app_assoc. reflexivity. }
  rewrite I2. reflexivity.
Qed.
Lemma uses_none k q : forall ins i, ~ In k ins -> uses_of k q (enum i ins) = [].
Proof.
  induction ins as [|x r IH]; intros i H; [reflexivity|]. unfold uses_of. cbn [enum flat_map fst snd]. destruct (String.eqb_spec x k) as [->|N]; [exfalso; apply H; left; reflexivity|]. apply IH. intros I. apply H. right. exact I.
Qed.
Lemma uses_some k q : forall ins i, In k ins -> exists j r, uses_of k q (enum i ins) = (q, j) :: r.
Proof.
  induction ins as [|x r IH]; intros i H; [destruct H|]. unfold uses_of. cbn [enum flat_map fst snd]. destruct (String.eqb_spec x k) as [->|N]; [cbn [app]; eauto|]. apply IH. destruct H; [easy|assumption].
Qed.
Lemma first_entry o next : forall a b i, (forall k, In k a -> ~ In o (o_in k)) -> In o (o_in next) ->
  exists j r, flat_map (fun pn => uses_of o (fst pn) (enum 0 (o_in (snd pn)))) (enum i (a ++ next :: b)) = ((i + length a)%nat, j) :: r.
Proof.
  induction a as [|x a IH]; intros b i Ha Ho; cbn [app enum flat_map fst snd length].
  - destruct (uses_some o i (o_in next) 0 Ho) as (j & r & ->). rewrite Nat.add_0_r. cbn [app]. eauto.
  - rewrite uses_none by (apply Ha; left; reflexivity). cbn [app]. destruct (IH b (S i) (fun k H => Ha k (or_intror H)) Ho) as (j & r & ->). exists j, r. do 2 f_equal. lia.
Qed.
Lemma out_get m w f : NoDup (flat_map o_out (m_node _ m)) -> In f (m_node _ m) -> In w (o_out f) -> get (map_output_and_node V m) w = Some f.
Proof.
  unfold map_output_and_node. intros Hnd Hf Hw.
  assert (G : forall ns d, NoDup (flat_map o_out ns) -> get (fold_left (fun d n => fold_left (fun d o => put d o n) (o_out n) d) ns d) w =
     match find (fun n => mem w (o_out n)) ns with Some n => Some n | None => get d w end).
  { induction ns as [|n ns IH]; intros d Hn; [reflexivity|]. cbn [fold_left find flat_map] in *. 
    assert (G2 : get (fold_left (fun d o => put d o n) (o_out n) d) w = if mem w (o_out n) then Some n else get d w).
    { generalize (o_out n). clear. intros l. revert d. induction l as [|o l IH]; intros d; [reflexivity|]. cbn [fold_left]. rewrite IH, get_put. unfold mem. cbn [existsb]. rewrite (String.eqb_sym w o). destruct (existsb (String.eqb w) l); [now rewrite orb_true_r|]. rewrite orb_false_r. reflexivity. }
    assert (Hn' : NoDup (flat_map o_out ns)) by (revert Hn; clear; induction (o_out n); cbn; intros H; [exact H|inversion H; auto]). rewrite IH by exact Hn'. rewrite G2. destruct (mem w (o_out n)) eqn:E; [|reflexivity].
    destruct (find (fun n0 => mem w (o_out n0)) ns) as [n'|] eqn:F; [|reflexivity]. exfalso. apply find_some in F as [F1 F2]. apply mem_in in E, F2.
    revert Hn E. generalize (o_out n). intros l. assert (I : In w (flat_map o_out ns)) by (apply in_flat_map; eauto). clear - I. induction l as [|y l IH]; cbn; intros Hn E; [destruct E|]. inversion Hn as [|? ? Hy Hr]; subst. destruct E as [->|E]; [apply Hy, in_app_iff; auto|auto]. }
  rewrite (G _ _ Hnd). clear G. destruct (find (fun n => mem w (o_out n)) (m_node _ m)) as [n'|] eqn:F.
  - apply find_some in F as [F1 F2]. apply mem_in in F2. f_equal. revert Hnd Hf F1. generalize (m_node _ m). intros ns. clear - F2 Hw. induction ns as [|n ns IH]; cbn; intros Hnd Hf F1; [destruct Hf|].
    assert (D : forall y, In y (o_out n) -> ~ In y (flat_map o_out ns)). { revert Hnd. generalize (flat_map o_out ns). generalize (o_out n). clear. induction l as [|y l IH]; cbn; intros l2 Hnd z Hz; [destruct Hz|]. inversion Hnd as [|? ? Hy Hr]; subst. destruct Hz as [<-|Hz]; [intros I; apply Hy, in_app_iff; auto|exact (IH l2 Hr z Hz)]. }
    assert (Hn' : NoDup (flat_map o_out ns)) by (revert Hnd; clear; induction (o_out n); cbn; intros H; [exact H|inversion H; auto]).
    destruct Hf as [<-|Hf], F1 as [<-|F1]; [reflexivity| | |auto].
    + exfalso. apply (D w Hw). apply in_flat_map. eauto.
    + exfalso. apply (D w F2). apply in_flat_map. eauto.
  - exfalso. apply (find_none _ _ F f) in Hf. apply mem_not in Hf. easy.
Qed.
Lemma first_next m o next : first_user (m_node _ m) o next -> exists p j r, get (map_input_and_node V m) o = Some ((p, j) :: r) /\ nth_error (m_node _ m) p = Some next.
Proof.
  intros (a & b & E & Ho & Ha). destruct (first_entry o next a b 0 Ha Ho) as (j & r & G). rewrite <- E, <- entries_list in G. unfold entries in G. destruct (get _ o) as [l|]; [|discriminate]. subst l.
  exists (length a), j, r. split; [reflexivity|]. rewrite E. rewrite nth_error_app2 by lia. rewrite Nat.sub_diag. reflexivity.
Qed.
(** The ranges get as many axes as the weights, all but the first of length one. *)
Theorem C123_shape m data n o rest next v : NoDup (flat_map o_out (m_node _ m)) -> o_out n = o :: rest -> first_user (m_node _ m) o next -> second_made_from (m_node _ m) data next v ->
  length (range_shape V rank m data n) = Nat.max 1 (rank v) /\ nth_error (range_shape V rank m data n) 0 = Some (-1) /\
  forall i, (0 < i)%nat -> (i < rank v)%nat -> nth_error (range_shape V rank m data n) i = Some 1.
Proof.
  intros Hnd Ho Hf (w & f & x & Hw & Hin & Hwf & Hx & Hv). destruct (first_next m o next Hf) as (p & j & r & Hg & Hp).
  assert (E : range_shape V rank m data n = (-1) :: repeat 1 (rank v - 1)).
  { unfold range_shape, weight_shape. rewrite Ho, Hg, Hp, Hw, (out_get m w f Hnd Hin Hwf). destruct (o_in f) as [|x' l]; [discriminate|]. cbn in Hx. apply some_inj in Hx as ->. rewrite Hv. reflexivity. }
  rewrite E. split; [cbn [length]; rewrite repeat_length; lia|]. split; [reflexivity|]. intros i H0 Hi. destruct i as [|i]; [lia|]. cbn [nth_error]. clear - Hi.
  assert (G : forall n i, (i < n)%nat -> nth_error (repeat 1 n) i = Some 1) by (induction n as [|n IH]; intros [|k] Hk; cbn; try lia; [reflexivity|apply IH; lia]). apply G. lia.
Qed.
(** In all other cases they are vectors. *)
Theorem C123_shape_vector m data n o rest : NoDup (flat_map o_out (m_node _ m)) -> o_out n = o :: rest ->
  (forall next v, first_user (m_node _ m) o next -> ~ second_made_from (m_node _ m) data next v) -> range_shape V rank m data n = [-1].
Proof.
  intros Hnd Ho H. unfold range_shape, weight_shape. rewrite Ho. destruct (get (map_input_and_node V m) o) as [[|[p j] l]|] eqn:Eg; [reflexivity| |reflexivity].
  assert (Hl : entries (map_input_and_node V m) o = (p, j) :: l) by (unfold entries; rewrite Eg; reflexivity).
  destruct (nth_error (m_node _ m) p) as [next|] eqn:Ep; [|reflexivity].
  assert (Hf : first_user (m_node _ m) o next).
  { assert (I : In (p, j) (entries (map_input_and_node V m) o)) by (rewrite Hl; left; reflexivity). apply (entries_spec V (fun _ _ l => l)) in I as (n' & Hn & Hj). rewrite Ep in Hn. apply some_inj in Hn as <-.
    destruct (nth_error_split _ _ Ep) as (a & b & E & La). exists a, b. split; [exact E|]. split; [eapply nth_error_In; exact Hj|]. intros k Hk Hin.
    apply in_split in Hk as (a1 & a2 & Ea).
    assert (X : exists k' c d, a = c ++ k' :: d /\ In o (o_in k') /\ forall z, In z c -> ~ In o (o_in z)).
    { clear - Ea Hin. assert (Hk : In k a) by (rewrite Ea; apply in_app_iff; right; left; reflexivity). clear Ea. induction a as [|y a IH]; [destruct Hk|]. destruct (in_dec string_dec o (o_in y)) as [Y|Y].
      - exists y, [], a. repeat split; auto.
      - destruct Hk as [->|Hk]; [easy|]. destruct (IH Hk) as (k' & c & d & -> & Hk' & Hc). exists k', (y :: c), d. repeat split; auto. intros z [<-|Hz]; auto. }
    destruct X as (k' & c & d & Ea' & Hk' & Hc). rewrite entries_list, E, Ea' in Hl. rewrite <- app_assoc in Hl. cbn [app] in Hl.
    destruct (first_entry o k' c (d ++ next :: b) 0 Hc Hk') as (j' & r' & G). rewrite G in Hl. injection Hl as Hl _ _. cbn in Hl. rewrite Ea', app_length in La. cbn [length] in La. lia. }
  destruct (nth_error (o_in next) 1) as [w|] eqn:Ew; [|reflexivity]. destruct (get (map_output_and_node V m) w) as [f|] eqn:Ef; [|reflexivity].
  destruct (o_in f) as [|x l'] eqn:Ex; [reflexivity|]. destruct (get data x) as [v|] eqn:Ev; [|reflexivity]. exfalso. apply (H next v Hf).
  assert (Hpr : exists f', In f' (m_node _ m) /\ In w (o_out f')).
  { assert (Hh : has (map_output_and_node V m) w = true) by (apply has_in, get_some; eauto). apply (has_out V (fun _ _ l => l)) in Hh. unfold produced in Hh. apply in_flat_map in Hh as (f' & A & C). eauto. }
  destruct Hpr as (f' & Hf1 & Hf2). rewrite (out_get m w f' Hnd Hf1 Hf2) in Ef. apply some_inj in Ef as ->. exists w, f, x. rewrite Ex. auto.
Qed.
End Shape.
(** A convolution whose weights, of four axes, are quantized per channel; and the product of
    [ex_linear], whose weights are transposed in between. *)
Definition ex_conv : omodel tensor := ov_graph [nd "fq" "FixedPerChannelAffine" ["w"; "s"; "z"; "axis"; "lo"; "hi"] ["wq"]; nd "conv" "Conv" ["x"; "wq"] ["y"]].
Definition ex_fq : onode := nd "fq" "FixedPerChannelAffine" ["w"; "s"; "z"; "axis"; "lo"; "hi"] ["wq"].
Example C123_shape_ex : range_shape tensor (fun _ => 4%nat) ex_conv (m_init _ ex_conv) ex_fq = [-1; 1; 1; 1] /\
  first_user (m_node _ ex_conv) "wq" (nd "conv" "Conv" ["x"; "wq"] ["y"]) /\ second_made_from (m_node _ ex_conv) (m_init _ ex_conv) (nd "conv" "Conv" ["x"; "wq"] ["y"]) [[1; 1]; [1; 1]] /\
  range_shape tensor (fun _ => 2%nat) ex_linear (m_init _ ex_linear) ex_fq = [-1].
Proof.
  split; [reflexivity|]. split; [|split; [|reflexivity]].
  - exists [ex_fq], []. split; [reflexivity|]. split; [right; left; reflexivity|]. intros k [<-|[]]. cbn. intuition discriminate.
  - exists "wq", ex_fq, "w". repeat split; try reflexivity; left; reflexivity.
Qed.
(** ** C121, continued: what the TensorRT exporter lets through. *)
Section Trt.
Variable V : Type.
Variable attr_range : onode -> option (outcome (V * V)).
Variable eight_bit : V -> V -> bool.
Variable symmetric : V -> bool.
Lemma parse_params data n x ws wz mid wlo whi : parameters V (get data) n x ws wz mid wlo whi -> parse_qparams V attr_range data n = Ok (x, ws, wz, Some (wlo, whi)).
Proof.
  intros (s & z & lo & hi & rest & o & Ei & _ & Es & Ez & _ & El & Eh). unfold parse_qparams. rewrite Ei. unfold lookup. rewrite Es, Ez. cbn [bind]. destruct (rest ++ [lo; hi]) as [|y r] eqn:Er; [destruct rest; discriminate Er|]. rewrite <- Er. cbn [length].
  assert (N2 : nth (S (S (S (length (rest ++ [lo; hi])))) - 2) (x :: s :: z :: rest ++ [lo; hi]) "" = lo).
  { change (x :: s :: z :: rest ++ [lo; hi]) with ((x :: s :: z :: rest) ++ [lo; hi]). rewrite app_length. cbn [length]. rewrite app_nth2 by (cbn [length]; lia). cbn [length]. replace (S (S (S (length rest + 2))) - 2 - S (S (S (length rest))))%nat with 0%nat by lia. reflexivity. }
  assert (N1 : nth (S (S (S (length (rest ++ [lo; hi])))) - 1) (x :: s :: z :: rest ++ [lo; hi]) "" = hi).
  { change (x :: s :: z :: rest ++ [lo; hi]) with ((x :: s :: z :: rest) ++ [lo; hi]). rewrite app_length. cbn [length]. rewrite app_nth2 by (cbn [length]; lia). cbn [length]. replace (S (S (S (length rest + 2))) - 1 - S (S (S (length rest))))%nat with 1%nat by lia. reflexivity. }
  rewrite N2, N1, El, Eh. reflexivity.
Qed.
(** No quantizer of another width or with a zero point is exported. *)
Theorem C121_checks m data m' n x ws wz mid wlo whi : trt_export V attr_range eight_bit symmetric m data = Ok m' -> In n (m_node _ m) -> quantizer n ->
  parameters V (get data) n x ws wz mid wlo whi -> eight_bit wlo whi = true /\ symmetric wz = true.
Proof.
  unfold trt_export. intros H Hin Hq Hp. destruct (trt_nodes V attr_range eight_bit symmetric data (collect_symbolic_nodes (m_node _ m))) as [new|e] eqn:E; cbn [bind] in H; [|discriminate]. clear H.
  assert (I : In n (collect_symbolic_nodes (m_node _ m))) by (apply filter_In; split; [exact Hin|apply symbolic_iff, Hq]).
  revert new E I. induction (collect_symbolic_nodes (m_node _ m)) as [|a l IH]; intros new E I; [destruct I|]. cbn [trt_nodes] in E. destruct I as [->|I].
  - rewrite (parse_params data n x ws wz mid wlo whi Hp) in E. cbn [bind] in E. destruct (eight_bit wlo whi); [|discriminate]. destruct (symmetric wz); [auto|discriminate].
  - destruct (parse_qparams V attr_range data a) as [[[[y v1] v2] [[lo hi]|]]|]; cbn [bind] in E; try discriminate. destruct (eight_bit lo hi); [|discriminate]. destruct (symmetric v2); [|discriminate]. cbn [assert_ bind] in E.
    destruct (trt_nodes V attr_range eight_bit symmetric data l) as [l'|]; [|discriminate]. exact (IH l' eq_refl I).
Qed.
End Trt.
(** A quantizer to four bits is refused. *)
Example C121_checks_ex : trt_export tensor (fun _ => None) (fun lo hi => Z.eqb (scalar 0 hi - scalar 0 lo) 15) (fun _ => true) ex_once (m_init _ ex_once) = Raise AssertionError /\
  (exists m', trt_export tensor (fun _ => None) (fun lo hi => Z.eqb (scalar 0 hi - scalar 0 lo) 255) (fun _ => true) ex_once (m_init _ ex_once) = Ok m') /\
  parameters tensor (get (m_init _ ex_once)) (nd "f1" "FixedPerTensorAffine" ["u"; "ten"; "zero"; "lo"; "hi"] ["a"]) "u" [[10]] [[0]] [] [[-128]] [[127]].
Proof. split; [reflexivity|]. split; [eexists; vm_compute; reflexivity|]. exists "ten", "zero", "lo", "hi", [], "a". repeat split. Qed.
Print Assumptions C121_checks.
Print Assumptions C123_shape.
Print Assumptions C123_shape_vector.
