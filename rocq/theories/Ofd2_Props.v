(** C161: which margins [init_ofd_connectors] sets. *)
From Coq Require Import Reals Lra.
From Verif Require Import Prelude Onnx_Model Onnx_Lemmas Distiller_Model Ofd_Model.
Local Open Scope R_scope.

Section Init.
Variable cdf : R -> R.
Variable sources : list (string * string).
Variable attr : string -> outcome tmodule.
Variable is_ofd : string -> option bool.

(** The teacher inputs of the OFD losses that pass through a connector, in order. *)
Definition teacher_side (i : info) : bool :=
  match i_connector i, i_from_student i with Some _, Some (_, false) => true | _, _ => false end.
Definition inputs (maps : list (string * list (string * info))) : list info :=
  flat_map (fun m => match is_ofd (fst m) with Some true => map snd (snd m) | _ => [] end) maps.
Definition targets maps := filter teacher_side (inputs maps).
(** The connector that an input names. *)
Definition names (i : info) (c : string) : Prop := i_connector i = Some (Some c).
(** The input records a batch norm of the teacher whose margins are [ms]. *)
Definition margins (i : info) (ms : list R) : Prop :=
  exists r src w b, i_recorder i = Some r /\ get sources r = Some src /\ attr src = Ok (TBatchNorm (Some (w, b))) /\
    Forall2 (fun p m => margin_of cdf (fst p) (snd p) = Ok m) (combine w b) ms.
(** What the input needs. *)
Definition usable (cs : conns) (i : info) : Prop :=
  (exists c m, names i c /\ get cs c = Some (COfd m)) /\ exists ms, margins i ms.
(** Mappings as [_check_loss_forward_mappings] leaves them. *)
Definition checked (maps : list (string * list (string * info))) : Prop :=
  (forall m, In m maps -> is_ofd (fst m) <> None) /\ (forall i, In i (inputs maps) -> i_connector i <> None -> i_from_student i <> None).

Lemma mapM_F2 {A B} (f : A -> outcome B) : forall l ms, mapM f l = Ok ms <-> Forall2 (fun a m => f a = Ok m) l ms.
Proof.
  induction l as [|a l IH]; intros ms; cbn [mapM].
  - split; [intros E; apply Ok_inj in E; subst; constructor|intros H; inversion H; reflexivity].
  - split.
    + destruct (f a) as [y|e] eqn:Ea; cbn [bind]; [|discriminate]. destruct (mapM f l) as [ys|e]; cbn [bind]; [|discriminate].
      intros E. apply Ok_inj in E. subst. constructor; [exact Ea|]. apply IH. reflexivity.
    + intros H. inversion H as [|? y ? ys Ha Hr]; subst. rewrite Ha. cbn [bind]. apply IH in Hr. rewrite Hr. reflexivity.
Qed.

(** Connectors of the same kinds. *)
Definition alike (cs cs' : conns) : Prop := forall c, (exists m, get cs c = Some (COfd m)) <-> (exists m, get cs' c = Some (COfd m)).
Lemma alike_refl cs : alike cs cs. Proof. intros c. tauto. Qed.
Lemma alike_trans a b c : alike a b -> alike b c -> alike a c. Proof. intros H1 H2 x. rewrite (H1 x). apply H2. Qed.
Lemma usable_alike cs cs' i : alike cs cs' -> usable cs i -> usable cs' i.
Proof. intros H [(c & m & Hn & Hg) Hm]. split; [|exact Hm]. destruct (proj1 (H c) (ex_intro _ m Hg)) as [m' Hm']. exists c, m'. auto. Qed.

Lemma init_one_skip i cs : teacher_side i = false -> (i_connector i <> None -> i_from_student i <> None) ->
  init_one cdf sources attr i cs = Ok cs.
Proof.
  unfold teacher_side, init_one. destruct (i_connector i) as [c|]; [|reflexivity]. intros H N. destruct (i_from_student i) as [[a b]|]; [|destruct N; congruence].
  destruct b; [reflexivity|discriminate].
Qed.
Lemma init_one_ok i cs cs' : teacher_side i = true -> init_one cdf sources attr i cs = Ok cs' ->
  exists c m ms, names i c /\ get cs c = Some (COfd m) /\ margins i ms /\ cs' = put cs c (COfd (Some ms)).
Proof.
  unfold teacher_side, init_one, names, margins. destruct (i_connector i) as [c|]; [|discriminate]. destruct (i_from_student i) as [[a [|]]|]; try discriminate. intros _.
  destruct (i_recorder i) as [r|]; [|discriminate]. destruct (get sources r) as [src|] eqn:E1; [|discriminate].
  destruct (attr src) as [[[[w b]|]|]|] eqn:E2; cbn [bind]; try discriminate.
  - destruct c as [name|]; [|discriminate]. destruct (get cs name) as [[m|]|] eqn:E3; try discriminate.
    cbn [get_margin]. destruct (mapM _ _) as [ms|] eqn:E4; cbn [bind]; [|discriminate]. intros E. apply Ok_inj in E. subst.
    exists name, m, ms. split; [reflexivity|]. split; [exact E3|]. split; [|reflexivity]. exists r, src, w, b. repeat split; try assumption. apply mapM_F2. exact E4.
  - destruct c as [name|]; [|discriminate]. destruct (get cs name) as [[m|]|]; discriminate.
Qed.
Lemma init_one_use i cs : teacher_side i = true -> usable cs i -> exists cs', init_one cdf sources attr i cs = Ok cs'.
Proof.
  unfold teacher_side, init_one, usable, names, margins. intros H ((c & m & Hn & Hg) & ms & r & src & w & b & Hr & Hs & Ha & HF).
  rewrite Hn in *. destruct (i_from_student i) as [[a [|]]|]; try discriminate. rewrite Hr, Hs, Ha. cbn [bind]. rewrite Hg. cbn [get_margin].
  apply mapM_F2 in HF. rewrite HF. cbn [bind]. eauto.
Qed.
Lemma put_alike cs c m ms : get cs c = Some (COfd m) -> alike cs (put cs c (COfd (Some ms))).
Proof.
  intros H x. rewrite get_put. destruct (String.eqb_spec c x) as [->|]; [|tauto]. split; intros _; [eauto|]. exists m. exact H.
Qed.

(** The result of a sequence of inputs: the last one naming a connector decides. *)
Definition result (ts : list info) (cs cs' : conns) : Prop :=
  forall c, (forall t, In t ts -> ~ names t c) /\ get cs' c = get cs c \/
            exists l1 t l2 ms, ts = l1 ++ t :: l2 /\ names t c /\ (forall u, In u l2 -> ~ names u c) /\ margins t ms /\ get cs' c = Some (COfd (Some ms)).
Lemma result_app a b cs cs1 cs2 : result a cs cs1 -> result b cs1 cs2 -> result (a ++ b) cs cs2.
Proof.
  intros H1 H2 c. destruct (H2 c) as [[N2 E2]|(l1 & t & l2 & ms & E & N & L & M & G)].
  - destruct (H1 c) as [[N1 E1]|(l1 & t & l2 & ms & E & N & L & M & G)].
    + left. split; [|congruence]. intros t Ht. apply in_app_iff in Ht as [Ht|Ht]; auto.
    + right. exists l1, t, (l2 ++ b), ms. split; [rewrite E, <- app_assoc; reflexivity|]. split; [exact N|]. split; [|split; [exact M|congruence]].
      intros u Hu. apply in_app_iff in Hu as [Hu|Hu]; auto.
  - right. exists (a ++ l1), t, l2, ms. split; [rewrite E, app_assoc; reflexivity|]. auto.
Qed.
Lemma init_all_ok : forall l cs, (forall i, In i l -> i_connector i <> None -> i_from_student i <> None) ->
  ((exists cs', init_all cdf sources attr l cs = Ok cs') <-> forall t, In t (filter teacher_side l) -> usable cs t) /\
  (forall cs', init_all cdf sources attr l cs = Ok cs' -> alike cs cs' /\ result (filter teacher_side l) cs cs').
Proof.
  induction l as [|i l IH]; intros cs Hc; cbn [init_all filter].
  - split; [split; [intros _ t []|intros _; eauto]|]. intros cs' E. apply Ok_inj in E. subst. split; [apply alike_refl|]. intros c. left. split; [intros t []|reflexivity].
  - destruct (teacher_side i) eqn:Et.
    + assert (Hl : forall j, In j l -> i_connector j <> None -> i_from_student j <> None) by (intros j Hj; apply Hc; right; exact Hj). split.
      * split.
        -- intros [cs' E]. destruct (init_one cdf sources attr i cs) as [cs1|] eqn:E1; cbn [bind] in E; [|discriminate].
           destruct (init_one_ok _ _ _ Et E1) as (c & m & ms & Hn & Hg & Hm & Hp). pose proof (proj1 (proj1 (IH cs1 Hl)) (ex_intro _ _ E)) as Hu.
           intros t [<-|Ht]; [split; [exists c, m; auto|exists ms; exact Hm]|]. apply (usable_alike cs1); [|apply Hu; exact Ht].
           intros x. rewrite Hp. symmetry. apply put_alike with (m := m). exact Hg.
        -- intros Hu. destruct (init_one_use i cs Et (Hu i (or_introl eq_refl))) as [cs1 E1]. rewrite E1. cbn [bind].
           destruct (init_one_ok _ _ _ Et E1) as (c & m & ms & Hn & Hg & Hm & Hp). apply (IH cs1 Hl). intros t Ht. apply (usable_alike cs); [|apply Hu; right; exact Ht].
           rewrite Hp. apply put_alike with (m := m). exact Hg.
      * intros cs' E. destruct (init_one cdf sources attr i cs) as [cs1|] eqn:E1; cbn [bind] in E; [|discriminate].
        destruct (init_one_ok _ _ _ Et E1) as (c & m & ms & Hn & Hg & Hm & Hp). destruct (proj2 (IH cs1 Hl) cs' E) as [A R0]. split.
        -- eapply alike_trans; [|exact A]. rewrite Hp. apply put_alike with (m := m). exact Hg.
        -- apply (result_app [i] _ cs cs1 cs'); [|exact R0]. intros x. rewrite Hp, get_put. destruct (String.eqb_spec c x) as [->|Hne].
           ++ right. exists [], i, [], ms. split; [reflexivity|]. split; [exact Hn|]. split; [intros u []|]. auto.
           ++ left. split; [|reflexivity]. intros t [<-|[]] Hx. unfold names in *. congruence.
    + rewrite (init_one_skip i cs Et (Hc i (or_introl eq_refl))). cbn [bind]. apply IH. intros j Hj. apply Hc. right. exact Hj.
Qed.

(** On checked mappings the margins can be initialized exactly if every teacher input of an OFD
    loss with a connector records an affine batch norm of the teacher without zero weights and
    names an OFDTeacherConnector; then every connector named has the margins of the last input
    naming it and all others are as before. *)
Theorem C161_init : forall maps cs, checked maps ->
  ((exists cs', init_ofd_connectors cdf sources attr is_ofd maps cs = Ok cs') <-> forall t, In t (targets maps) -> usable cs t) /\
  (forall cs', init_ofd_connectors cdf sources attr is_ofd maps cs = Ok cs' -> result (targets maps) cs cs').
Proof.
  intros maps cs H. assert (W : ((exists cs', init_ofd_connectors cdf sources attr is_ofd maps cs = Ok cs') <-> forall t, In t (targets maps) -> usable cs t) /\
    (forall cs', init_ofd_connectors cdf sources attr is_ofd maps cs = Ok cs' -> alike cs cs' /\ result (targets maps) cs cs')).
  2:{ split; [apply W|]. intros cs' E. apply (proj2 W cs' E). }
  revert cs H. induction maps as [|[l args] maps IH]; intros cs [H1 H2]; cbn [init_ofd_connectors].
  - split; [split; [intros _ t []|intros _; eauto]|]. intros cs' E. apply Ok_inj in E. subst. split; [apply alike_refl|]. intros c. left. split; [intros t []|reflexivity].
  - assert (Hc : checked maps).
    { split; [intros m Hm; apply H1; right; exact Hm|]. intros i Hi. apply H2. unfold inputs. cbn [flat_map]. apply in_app_iff. right. exact Hi. }
    assert (Et : targets ((l, args) :: maps) = filter teacher_side (match is_ofd l with Some true => map snd args | _ => [] end) ++ targets maps).
    { unfold targets, inputs. cbn [flat_map fst snd]. apply filter_app. }
    rewrite Et. pose proof (H1 _ (or_introl eq_refl)) as Hl. cbn [fst] in Hl. destruct (is_ofd l) as [[|]|] eqn:El; [|cbn [bind filter app]; apply IH; exact Hc|congruence].
    assert (Ha : forall i, In i (map snd args) -> i_connector i <> None -> i_from_student i <> None).
    { intros i Hi. apply H2. unfold inputs. cbn [flat_map fst snd]. rewrite El. apply in_app_iff. left. exact Hi. }
    destruct (init_all_ok (map snd args) cs Ha) as [A1 A2]. split.
    + split.
      * intros [cs' E]. destruct (init_all cdf sources attr (map snd args) cs) as [cs1|] eqn:E1; cbn [bind] in E; [|discriminate].
        destruct (A2 cs1 eq_refl) as [AL _]. pose proof (proj1 (proj1 (IH cs1 Hc)) (ex_intro _ _ E)) as Hu. intros t Ht.
        apply in_app_iff in Ht as [Ht|Ht]; [apply (proj1 A1); [eauto|exact Ht]|]. apply (usable_alike cs1); [|apply Hu; exact Ht]. intros x. symmetry. apply AL.
      * intros Hu. destruct (proj2 A1) as [cs1 E1]; [intros t Ht; apply Hu, in_app_iff; left; exact Ht|]. rewrite E1. cbn [bind]. apply (IH cs1 Hc).
        intros t Ht. apply (usable_alike cs); [apply (A2 cs1 E1)|]. apply Hu, in_app_iff. right. exact Ht.
    + intros cs' E. destruct (init_all cdf sources attr (map snd args) cs) as [cs1|] eqn:E1; cbn [bind] in E; [|discriminate].
      destruct (A2 cs1 eq_refl) as [AL R1]. destruct (proj2 (IH cs1 Hc) cs' E) as [AL2 R2]. split; [eapply alike_trans; eassumption|eapply result_app; eassumption].
Qed.

(** Afterwards no connector that a teacher input of an OFD loss names fails for want of a margin,
    and it gives every channel of the feature the margin of that channel as lower bound. *)
Theorem C161_connect : forall maps cs cs' t c, checked maps ->
  init_ofd_connectors cdf sources attr is_ofd maps cs = Ok cs' -> In t (targets maps) -> names t c ->
  exists ms, get cs' c = Some (COfd (Some ms)) /\
    forall feature, (length feature = length ms ->
       exists out, ofd_connect (COfd (Some ms)) feature = Ok out /\ length out = length feature /\
         forall k ch m, nth_error feature k = Some ch -> nth_error ms k = Some m -> nth_error out k = Some (map (fun x => Rmax x m) ch)) /\
      (length feature <> length ms -> ofd_connect (COfd (Some ms)) feature = Raise RuntimeError).
Proof.
  intros maps cs cs' t c Hc E Ht Hn. destruct (proj2 (C161_init maps cs Hc) cs' E c) as [[N _]|(l1 & u & l2 & ms & _ & _ & _ & _ & G)]; [destruct (N t Ht Hn)|].
  exists ms. split; [exact G|]. intros f. cbn [ofd_connect]. split; intros Hl.
  - rewrite (proj2 (Nat.eqb_eq _ _)) by congruence. eexists. split; [reflexivity|]. split; [rewrite map_length, combine_length, Hl, Nat.min_id; reflexivity|].
    clear - Hl. revert ms Hl. induction f as [|y f IH]; intros [|a ms] Hl k ch m Hk Hm; try (destruct k; discriminate); cbn in Hl; try discriminate.
    destruct k as [|k]; cbn in *; [inversion Hk; inversion Hm; reflexivity|]. apply (IH ms); [congruence|assumption|assumption].
  - destruct (Nat.eqb_spec (length ms) (length f)) as [e|e]; [congruence|reflexivity].
Qed.
End Init.
Print Assumptions C161_init.
Print Assumptions C161_connect.

(** One OFD loss with a teacher connector on 'bn'; the student side and other losses do not matter. *)
Definition mk (r : string) (s : bool) (c : option string) : info :=
  {| i_recorder := Some r; i_from_student := Some (true, s); i_record_idx := None; i_data_idx := None;
     i_connector := match c with Some n => Some (Some n) | None => None end; i_connector_idx := None; i_other := false |}.
Example C161_example :
  let maps := [("ofd", [("s_feature", mk "sr" true (Some "sc")); ("t_feature", mk "tr" false (Some "tc"))]); ("l2", [("x", mk "zz" false (Some "zz"))])]%string in
  let is_ofd (l : string) := Some (String.eqb l "ofd") in
  let attr (s : string) := if String.eqb s "bn" then Ok (TBatchNorm (Some ([2], [0]))) else Raise AttributeError in
  let run cs := init_ofd_connectors (fun _ => 0) [("tr", "bn")]%string attr is_ofd maps cs in
  checked is_ofd maps /\
  (exists m, run [("sc", COther); ("tc", COfd None)]%string = Ok [("sc", COther); ("tc", COfd (Some [m]))]%string /\ m = -6) /\
  run [("sc", COther); ("tc", COther)]%string = Raise AssertionError.
Proof.
  cbv zeta. split; [|split].
  - split; [intros m _; discriminate|]. intros i Hi _. cbn in Hi. destruct Hi as [<-|[<-|[]]]; discriminate.
  - cbn. unfold margin_of. cbn [fst snd]. destruct (Req_EM_T (Rabs 2) 0) as [E|E]; [rewrite Rabs_right in E by lra; lra|]. destruct (Rgt_dec 0 (1 / 1000)) as [G|G]; [lra|].
    cbn. eexists. split; [reflexivity|]. rewrite Rabs_right by lra. ring.
  - reflexivity.
Qed.

(** A mapping whose loss does not exist is refused, if the ones before it were accepted. *)
Theorem C161_unknown : forall cdf sources attr is_ofd before l args after cs cs', init_ofd_connectors cdf sources attr is_ofd before cs = Ok cs' -> is_ofd l = None ->
  init_ofd_connectors cdf sources attr is_ofd (before ++ (l, args) :: after) cs = Raise KeyError.
Proof.
  intros cdf sources attr is_ofd before l args after. induction before as [|[n a] r IH]; intros cs cs' E Hl; cbn [app init_ofd_connectors] in *.
  - rewrite Hl. reflexivity.
  - destruct (match is_ofd n with None => _ | Some true => _ | Some false => _ end) as [cs1|e]; cbn [bind] in *; [|discriminate E]. eapply IH; eassumption.
Qed.
Print Assumptions C161_unknown.
Example C161_unknown_example : init_ofd_connectors (fun _ => 0) [] (fun _ => Raise AttributeError) (fun l => if String.eqb l "a" then Some false else None)
  [("a", []); ("b", [])]%string [] = Raise KeyError.
Proof. reflexivity. Qed.
(** A teacher connector whose margins were never initialized refuses every feature. *)
Theorem C161_uninitialized : forall feature, ofd_connect (COfd None) feature = Raise AssertionError.
Proof. reflexivity. Qed.
Print Assumptions C161_uninitialized.
Example C161_uninitialized_example : ofd_connect (COfd None) [[1; -2]] = Raise AssertionError /\ ofd_connect COther [[1; -2]] = Ok [[1; -2]].
Proof. split; reflexivity. Qed.
