(** The distillation losses of configurable distillers: accepted mappings (C141) and what the losses are
    computed from (C142). *)
From Verif Require Import Prelude Onnx_Model Onnx_Lemmas Recorder_Model Groups_Props Distiller_Model.

(** * Specification *)

(** The [i]-th element, from the end if [i] is negative. *)
Definition element {A : Type} (l : list A) (i : Z) (x : A) : Prop :=
  (0 <= i /\ nth_error l (Z.to_nat i) = Some x) \/ (i < 0 /\ - i <= Z.of_nat (length l) /\ nth_error l (Z.to_nat (Z.of_nat (length l) + i)) = Some x).
Section Spec.
Variable item : val -> Z -> outcome val.
Variable detach : val -> outcome val.
Variable byot : bool.
(** The recorders that a mapping names. *)
Definition recorders_of (d : distiller) (r : info) : list (string * list val) := match i_from_student r with Some (_, true) => d_student d | _ => d_teacher d end.
(** The value that a mapping stands for: a record, or an element of it, then through the connector, then an
    element of that; of a teacher in a BYOTDistiller without its gradient. *)
Definition denotes (d : distiller) (r : info) (v : val) : Prop :=
  exists name buf rec x y z,
    i_recorder r = Some name /\ i_from_student r <> None /\ get (recorders_of d r) name = Some buf /\
    element buf (match i_record_idx r with Some i => i | None => 0 end) rec /\
    match i_data_idx r with Some (Some j) => exists l, rec = VList l /\ element l j x | _ => x = rec end /\
    match i_connector r with Some (Some c) => if String.eqb c "" then y = x else exists f, get (d_connectors d) c = Some f /\ f x = Ok y | _ => y = x end /\
    match i_connector_idx r with Some (Some k) => item y k = Ok z | _ => z = y end /\
    (if byot then match i_from_student r with Some (_, true) => v = z | _ => detach z = Ok v end else v = z).
(** A mapping that is checked and found valid. *)
Definition valid_info (d : distiller) (r : info) : Prop :=
  exists name b, i_recorder r = Some name /\ i_from_student r = Some (true, b) /\ get (if b then d_student d else d_teacher d) name <> None /\
    (forall c, i_connector r = Some c -> exists c', c = Some c' /\ get (d_connectors d) c' <> None).
End Spec.

(** * Lemmas *)

Lemma check_all_iff {A} (f : A -> outcome unit) l : check_all f l = Ok tt <-> forall x, In x l -> f x = Ok tt.
Proof.
  induction l as [|x l IH]; cbn [check_all]; split.
  - intros _ x [].
  - reflexivity.
  - destruct (f x) as [[]|] eqn:E; cbn [bind]; [|discriminate]. intros H y [<-|Hy]; [exact E|]. apply IH; assumption.
  - intros H. rewrite (H x (or_introl eq_refl)). cbn [bind]. apply IH. intros y Hy. apply H. right. exact Hy.
Qed.
Lemma Forall2_weaken {A B} (P Q : A -> B -> Prop) l l' : (forall x y, P x y -> Q x y) -> Forall2 P l l' -> Forall2 Q l l'.
Proof. intros H F. induction F; constructor; auto. Qed.
Lemma has_iff {A} (d : list (string * A)) k : has d k = true <-> get d k <> None.
Proof. unfold has. destruct (get d k); split; congruence. Qed.
Lemma assert_iff b : assert_ b = Ok tt <-> b = true.
Proof. destruct b; cbn; split; congruence. Qed.
Lemma check_info_iff d l k r : check_info d l (k, r) = Ok tt <-> get (l_params l) k = Some true \/ (get (l_params l) k = Some false /\ valid_info d r).
Proof.
  unfold check_info, valid_info. cbn [fst snd]. destruct (get (l_params l) k) as [[]|]; split; try discriminate; try (intros [H|[H _]]; discriminate).
  - auto.
  - reflexivity.
  - intros H. right. split; [reflexivity|].
    destruct (i_recorder r) as [name|]; [|discriminate]. destruct (i_from_student r) as [[isb b]|]; [|discriminate]. destruct isb; cbn [negb] in H; [|discriminate].
    destruct (has (if b then d_student d else d_teacher d) name) eqn:E; cbn [assert_ bind] in H; [|discriminate].
    exists name, b. repeat split; [apply has_iff; exact E|]. intros c Hc. rewrite Hc in H. destruct c as [c|]; [|discriminate].
    exists c. split; [reflexivity|]. apply has_iff. apply assert_iff. exact H.
  - intros [H|[_ (name & b & H1 & H2 & H3 & H4)]]; [discriminate|]. rewrite H1, H2. cbn [negb]. apply has_iff in H3. rewrite H3. cbn [assert_ bind].
    destruct (i_connector r) as [c|]; [|reflexivity]. destruct (H4 c eq_refl) as (c' & -> & H5). apply assert_iff, has_iff. exact H5.
Qed.

(** * C141 *)

(** The distillers that can be built: every mapped loss exists, every mapped argument is one of its parameters, and
    the mappings of parameters without a default name existing recorders and connectors. *)
Theorem C141_accepts d : new_distiller d = Ok d <->
  forall name args, In (name, args) (d_mappings d) -> exists l, get (d_losses d) name = Some l /\
    forall k r, In (k, r) args -> get (l_params l) k = Some true \/ (get (l_params l) k = Some false /\ valid_info d r).
Proof.
  unfold new_distiller. split.
  - intros H. destruct (check_all (check_mapping d) (d_mappings d)) as [[]|] eqn:E; cbn [bind] in H; [|discriminate].
    rewrite check_all_iff in E. intros name args Hin. specialize (E _ Hin). unfold check_mapping in E. cbn [fst snd] in E.
    destruct (get (d_losses d) name) as [l|]; [|discriminate]. exists l. split; [reflexivity|]. rewrite check_all_iff in E.
    intros k r Hk. apply check_info_iff. exact (E _ Hk).
  - intros H. assert (check_all (check_mapping d) (d_mappings d) = Ok tt) as ->; [|reflexivity]. apply check_all_iff. intros [name args] Hin.
    destruct (H _ _ Hin) as (l & L1 & L2). unfold check_mapping. cbn [fst snd]. rewrite L1. apply check_all_iff. intros [k r] Hk. apply check_info_iff. exact (L2 _ _ Hk).
Qed.
(** A distiller is only rejected for its mappings. *)
Theorem C141_unmapped d : d_mappings d = [] -> new_distiller d = Ok d.
Proof. unfold new_distiller. intros ->. reflexivity. Qed.

(** Everything that is computed outside the distiller works: connectors, losses, and the recorders have the records. *)
Definition works (item : val -> Z -> outcome val) (d : distiller) : Prop :=
  (forall name l kwargs, get (d_losses d) name = Some l -> exists v, l_forward l kwargs = Ok v) /\
  (forall c f x, get (d_connectors d) c = Some f -> exists y, f x = Ok y) /\
  (forall x k, exists y, item x k = Ok y) /\
  (forall name args k r buf rn, In (name, args) (d_mappings d) -> In (k, r) args -> i_recorder r = Some rn -> get (recorders_of d r) rn = Some buf ->
     exists rec, element buf (match i_record_idx r with Some i => i | None => 0 end) rec /\
       match i_data_idx r with Some (Some j) => exists l x, rec = VList l /\ element l j x | _ => True end).
(** The claim: a distiller that was accepted computes its losses. *)
Definition C141_claim : Prop := forall item d, new_distiller d = Ok d -> works item d -> exists r, compute_distill_losses item Ok false d = Ok r.

Lemma py_index_ok {A} (l : list A) i x : element l i x -> i < Z.of_nat (length l) /\ py_index l i = Ok x.
Proof.
  intros [[H E]|(H1 & H2 & E)]; unfold py_index.
  - destruct (Z.ltb_spec i 0); [lia|]. rewrite E. destruct (Z.ltb_spec i 0); [lia|]. split; [|reflexivity].
    assert (Z.to_nat i < length l)%nat by (apply nth_error_Some; congruence). lia.
  - destruct (Z.ltb_spec i 0); [|lia]. rewrite (Z.add_comm i). destruct (Z.ltb_spec (Z.of_nat (length l) + i) 0); [lia|]. rewrite E. split; [lia|reflexivity].
Qed.
Lemma py_index_element {A} (l : list A) i x : py_index l i = Ok x -> element l i x.
Proof.
  unfold py_index, element. destruct (Z.ltb_spec i 0) as [H|H].
  - destruct (Z.ltb_spec (i + Z.of_nat (length l)) 0); [discriminate|]. rewrite (Z.add_comm i).
    destruct (nth_error l _) as [y|] eqn:E; [|discriminate]. intros K. apply Ok_inj in K. subst. right. split; [exact H|]. split; [lia|reflexivity].
  - destruct (Z.ltb_spec i 0); [lia|]. destruct (nth_error l _) as [y|] eqn:E; [|discriminate]. intros K. apply Ok_inj in K. subst. left. split; [lia|reflexivity].
Qed.

Section Props.
Variable item : val -> Z -> outcome val.
Variable detach : val -> outcome val.
Variable byot : bool.
Notation denotes := (denotes item detach byot).
Notation get_record := (get_record item detach byot).
Notation compute := (compute_distill_losses item detach byot).

Lemma get_record_denotes d r v : get_record d r = Ok v -> denotes d r v /\ i_other r = false.
Proof.
  unfold Distiller_Model.get_record, Distiller_Props.denotes, recorders_of. intros E.
  destruct (i_recorder r) as [name|]; [|discriminate]. destruct (i_from_student r) as [[isb b]|]; [|discriminate].
  destruct (i_other r); [discriminate|]. split; [|reflexivity].
  unfold lookup in E. destruct (get (if b then d_student d else d_teacher d) name) as [buf|] eqn:Eb; cbn [bind] in E; [|discriminate].
  destruct (get_record_data _ _ _) as [x|] eqn:Ex; cbn [bind] in E; [|discriminate].
  match type of E with bind ?e _ = _ => destruct e as [y|] eqn:Ey; cbn [bind] in E; [|discriminate] end.
  match type of E with bind ?e _ = _ => destruct e as [z|] eqn:Ez; cbn [bind] in E; [|discriminate] end.
  unfold get_record_data in Ex. destruct (_ <? Z.of_nat (length buf)); cbn [assert_ bind] in Ex; [|discriminate].
  destruct (py_index buf _) as [rec|] eqn:Er; cbn [bind] in Ex; [|discriminate].
  exists name, buf, rec, x, y, z. split; [reflexivity|]. split; [discriminate|]. split; [exact Eb|]. split; [apply py_index_element; exact Er|].
  split; [|split; [|split]].
  - destruct (i_data_idx r) as [[j|]|]; [|apply Ok_inj in Ex; congruence|apply Ok_inj in Ex; congruence].
    destruct rec as [a|l]; [discriminate|]. destruct (j <? Z.of_nat (length l)); cbn [assert_ bind] in Ex; [|discriminate].
    exists l. split; [reflexivity|]. apply py_index_element. exact Ex.
  - destruct (i_connector r) as [[c|]|]; [|apply Ok_inj in Ey; congruence|apply Ok_inj in Ey; congruence].
    destruct (String.eqb c ""); [apply Ok_inj in Ey; congruence|]. unfold lookup in Ey. destruct (get (d_connectors d) c) as [f|]; cbn [bind] in Ey; [|discriminate]. eauto.
  - destruct (i_connector_idx r) as [[k|]|]; [exact Ez|apply Ok_inj in Ez; congruence|apply Ok_inj in Ez; congruence].
  - destruct byot, b; cbn [andb negb] in E; try (apply Ok_inj in E; congruence). exact E.
Qed.
Lemma denotes_get_record d r v : denotes d r v -> i_other r = false -> get_record d r = Ok v.
Proof.
  intros (name & buf & rec & x & y & z & H1 & H2 & H3 & H4 & H5 & H6 & H7 & H8) Ho. unfold Distiller_Model.get_record. rewrite H1, Ho.
  destruct (i_from_student r) as [[isb b]|] eqn:Eb; [|congruence]. unfold recorders_of in H3. rewrite Eb in H3.
  unfold lookup. rewrite H3. cbn [bind]. destruct (py_index_ok _ _ _ H4) as [L P]. unfold get_record_data.
  destruct (Z.ltb_spec (match i_record_idx r with Some i => i | None => 0 end) (Z.of_nat (length buf))); [|lia]. cbn [assert_ bind]. rewrite P. cbn [bind].
  assert (X : match match i_data_idx r with Some j => j | None => None end with None => Ok rec | Some j => match rec with VList l => do _ <- assert_ (j <? Z.of_nat (length l)); py_index l j | VAtom _ => Raise TypeError end end = Ok x).
  { destruct (i_data_idx r) as [[j|]|]; [|congruence|congruence]. destruct H5 as (l & -> & H5). destruct (py_index_ok _ _ _ H5) as [L' P'].
    destruct (Z.ltb_spec j (Z.of_nat (length l))); [|lia]. cbn [assert_ bind]. exact P'. }
  rewrite X. cbn [bind].
  assert (Y : match i_connector r with Some (Some c) => if String.eqb c "" then Ok x else do f <- match get (d_connectors d) c with Some v0 => Ok v0 | None => Raise KeyError end; f x | _ => Ok x end = Ok y).
  { destruct (i_connector r) as [[c|]|]; [|congruence|congruence]. destruct (String.eqb c ""); [congruence|]. destruct H6 as (f & -> & H6). cbn [bind]. exact H6. }
  rewrite Y. cbn [bind].
  assert (W : match i_connector_idx r with Some (Some k) => item y k | _ => Ok y end = Ok z) by (destruct (i_connector_idx r) as [[k|]|]; congruence).
  rewrite W. cbn [bind]. destruct byot, b; cbn [andb negb]; congruence.
Qed.

(** * C142 *)

(** Exactly the mapped losses are computed, in the order of the mappings, each from the values that its mapping stands for. *)
Theorem C142_values d res : compute d = Ok res ->
  Forall2 (fun m out => fst out = fst m /\ exists l kwargs, get (d_losses d) (fst m) = Some l /\ l_forward l kwargs = Ok (snd out) /\
      Forall2 (fun kr kv => fst kv = fst kr /\ denotes d (snd kr) (snd kv)) (snd m) kwargs /\
      (forall k, get kwargs k <> None -> get (l_params l) k <> None) /\ (forall p, In (p, false) (l_params l) -> get kwargs p <> None))
    (d_mappings d) res.
Proof.
  unfold Distiller_Model.compute_distill_losses. intros E. apply mapM_ok in E. eapply Forall2_weaken; [|exact E]. clear E res.
  intros [name args] [o v] E. unfold compute_one in E. cbn [fst snd] in *.
  match type of E with bind ?e _ = _ => destruct e as [kwargs|] eqn:Ek; cbn [bind] in E; [|discriminate] end.
  unfold lookup in E. destruct (get (d_losses d) name) as [l|]; cbn [bind] in E; [|discriminate].
  unfold call_loss in E. destruct (forallb (fun kv => has (l_params l) (fst kv)) kwargs) eqn:F1; cbn [andb bind] in E; [|discriminate].
  destruct (forallb (fun p => snd p || has kwargs (fst p)) (l_params l)) eqn:F2; cbn [bind] in E; [|discriminate].
  destruct (l_forward l kwargs) as [w|] eqn:Ew; cbn [bind] in E; [|discriminate]. apply Ok_inj in E. injection E as <- <-.
  split; [reflexivity|]. exists l, kwargs. repeat split; try assumption.
  - apply mapM_ok in Ek. eapply Forall2_weaken; [|exact Ek]. intros [k r] [k' x] H. cbn [fst snd] in *.
    destruct (get_record d r) as [y|] eqn:Er; cbn [bind] in H; [|discriminate]. apply Ok_inj in H. injection H as <- <-. split; [reflexivity|]. apply get_record_denotes. exact Er.
  - intros k Hk. rewrite forallb_forall in F1. assert (In k (map fst kwargs)).
    { clear - Hk. induction kwargs as [|[a b] kw IH]; cbn [get] in Hk; [congruence|]. cbn [map fst]. destruct (String.eqb_spec a k); [left; assumption|right; auto]. }
    apply in_map_iff in H. destruct H as (kv & <- & Hkv). apply has_iff. exact (F1 _ Hkv).
  - intros p Hp. rewrite forallb_forall in F2. specialize (F2 _ Hp). cbn [snd fst orb] in F2. apply has_iff. exact F2.
Qed.
(** Nothing else matters: distillers with the same mappings whose named recorders, connectors and losses agree have the same losses. *)
Theorem C142_frame d d' : d_mappings d' = d_mappings d ->
  (forall name args, In (name, args) (d_mappings d) -> get (d_losses d') name = get (d_losses d) name /\
     forall k r, In (k, r) args ->
       (forall rn, i_recorder r = Some rn -> get (recorders_of d' r) rn = get (recorders_of d r) rn) /\
       (forall c, i_connector r = Some (Some c) -> get (d_connectors d') c = get (d_connectors d) c)) ->
  compute d' = compute d.
Proof.
  intros Hm H. unfold Distiller_Model.compute_distill_losses. rewrite Hm.
  assert (X : forall l, (forall x, In x l -> In x (d_mappings d)) -> mapM (compute_one item detach byot d') l = mapM (compute_one item detach byot d) l).
  { induction l as [|[name args] l IH]; intros Hl; [reflexivity|]. cbn [mapM]. rewrite IH by (intros x Hx; apply Hl; right; exact Hx).
    assert (compute_one item detach byot d' (name, args) = compute_one item detach byot d (name, args)) as ->; [|reflexivity].
    destruct (H name args (Hl _ (or_introl eq_refl))) as [L R]. unfold compute_one. cbn [fst snd]. unfold lookup. rewrite L.
    assert (mapM (fun ki : string * info => do v <- get_record d' (snd ki); Ok (fst ki, v)) args = mapM (fun ki : string * info => do v <- get_record d (snd ki); Ok (fst ki, v)) args) as ->; [|reflexivity].
    clear - R. induction args as [|[k r] args IH]; [reflexivity|]. cbn [mapM fst snd]. rewrite IH by (intros k0 r0 H0; apply (R k0 r0); right; exact H0).
    assert (get_record d' r = get_record d r) as ->; [|reflexivity]. destruct (R k r (or_introl eq_refl)) as [R1 R2].
    unfold Distiller_Model.get_record, lookup, recorders_of in *. destruct (i_recorder r) as [name|]; [|reflexivity]. destruct (i_from_student r) as [[isb b]|]; [|reflexivity].
    specialize (R1 name eq_refl). assert (K : get (if b then d_student d' else d_teacher d') name = get (if b then d_student d else d_teacher d) name) by (destruct b; exact R1).
    rewrite K. destruct (i_connector r) as [[c|]|]; [rewrite (R2 c eq_refl); reflexivity|reflexivity|reflexivity]. }
  apply X. auto.
Qed.
End Props.

(** An accepted distiller computes its losses if every parameter without a default is mapped, there are no options that get_record does
    not have, and the mappings of parameters with a default are valid as well. *)
Definition complete (d : distiller) : Prop :=
  forall name args l, In (name, args) (d_mappings d) -> get (d_losses d) name = Some l ->
    (forall p, In (p, false) (l_params l) -> exists r, In (p, r) args) /\
    (forall k r, In (k, r) args -> i_other r = false /\ (get (l_params l) k = Some true -> valid_info d r)).
Theorem C141_computes_partial item d : new_distiller d = Ok d -> works item d -> complete d -> exists r, compute_distill_losses item Ok false d = Ok r.
Proof.
  intros Ha (W1 & W2 & W3 & W4) Hc. rewrite C141_accepts in Ha. unfold compute_distill_losses. apply mapM_total. intros [name args] Hin.
  destruct (Ha _ _ Hin) as (l & L1 & L2). destruct (Hc _ _ _ Hin L1) as [C1 C2]. unfold compute_one. cbn [fst snd].
  assert (V : forall k r, In (k, r) args -> valid_info d r) by (intros k r Hk; destruct (L2 k r Hk) as [X|[_ X]]; [exact (proj2 (C2 k r Hk) X)|exact X]).
  assert (Hr : forall k r, In (k, r) args -> exists v, get_record item Ok false d r = Ok v).
  { intros k r Hk. destruct (V k r Hk) as (rn & b & V1 & V2 & V3 & V4). destruct (C2 k r Hk) as [Ho _].
    assert (K : recorders_of d r = if b then d_student d else d_teacher d) by (unfold recorders_of; rewrite V2; destruct b; reflexivity).
    destruct (get (if b then d_student d else d_teacher d) rn) as [buf|] eqn:Eb; [|congruence]. rewrite <- K in Eb.
    destruct (W4 name args k r buf rn Hin Hk V1 Eb) as (rec & R1 & R2).
    assert (X : exists x, match i_data_idx r with Some (Some j) => exists l0, rec = VList l0 /\ element l0 j x | _ => x = rec end).
    { destruct (i_data_idx r) as [[j|]|]; eauto. destruct R2 as (l0 & x & A & B). eauto. }
    destruct X as [x X].
    assert (Y : exists y, match i_connector r with Some (Some c) => if String.eqb c "" then y = x else exists f, get (d_connectors d) c = Some f /\ f x = Ok y | _ => y = x end).
    { destruct (i_connector r) as [[c|]|]; eauto. destruct (String.eqb c ""); eauto. destruct (V4 (Some c) eq_refl) as (c' & Ec & Hg). injection Ec as <-.
      destruct (get (d_connectors d) c) as [f|] eqn:Ef; [|congruence]. destruct (W2 c f x Ef) as [y Hy]. eauto. }
    destruct Y as [y Y].
    assert (Z0 : exists z, match i_connector_idx r with Some (Some k0) => item y k0 = Ok z | _ => z = y end) by (destruct (i_connector_idx r) as [[k0|]|]; eauto).
    destruct Z0 as [z Z0]. exists z. apply denotes_get_record; [|exact Ho]. exists rn, buf, rec, x, y, z. repeat split; try assumption. rewrite V2. discriminate. }
  destruct (mapM_total (fun ki : string * info => do v <- get_record item Ok false d (snd ki); Ok (fst ki, v)) args) as [kwargs Hk].
  { intros [k r] Hkr. cbn [fst snd]. destruct (Hr k r Hkr) as [v ->]. cbn [bind]. eauto. }
  rewrite Hk. cbn [bind]. unfold lookup. rewrite L1. cbn [bind]. destruct (W1 name l kwargs L1) as [v Hv].
  apply mapM_ok in Hk.
  assert (Hkeys : map fst kwargs = map fst args).
  { clear - Hk. induction Hk as [|[k r] [k' v] a b H _ IH]; [reflexivity|]. cbn [map fst snd] in *. destruct (get_record item Ok false d r); cbn [bind] in H; [|discriminate]. apply Ok_inj in H. congruence. }
  assert (Hhas : forall k, In k (map fst kwargs) -> has kwargs k = true).
  { intros k. clear. unfold has. induction kwargs as [|[a b] kw IH]; [intros []|]. cbn [map fst get]. intros [->|H]; [rewrite String.eqb_refl; reflexivity|]. destruct (String.eqb a k); [reflexivity|auto]. }
  unfold call_loss.
  assert (forallb (fun kv => has (l_params l) (fst kv)) kwargs = true) as ->.
  { apply forallb_forall. intros kv Hkv. apply (in_map fst) in Hkv. rewrite Hkeys in Hkv. apply in_map_iff in Hkv. destruct Hkv as ([k r] & <- & Hkr).
    cbn [fst]. apply has_iff. destruct (L2 k r Hkr) as [X|[X _]]; congruence. }
  assert (forallb (fun p => snd p || has kwargs (fst p)) (l_params l) = true) as ->.
  { apply forallb_forall. intros [p b] Hp. destruct b; [reflexivity|]. cbn [snd fst orb]. apply Hhas. rewrite Hkeys. destruct (C1 p Hp) as [r Hpr]. apply (in_map fst) in Hpr. exact Hpr. }
  cbn [andb]. rewrite Hv. cbn [bind]. eauto.
Qed.

(** * Examples *)
Local Open Scope string_scope.
Local Open Scope list_scope.
Local Open Scope Z_scope.
Definition demo_info (rec : string) (s : bool) : info :=
  {| i_recorder := Some rec; i_from_student := Some (true, s); i_record_idx := None; i_data_idx := None; i_connector := None; i_connector_idx := None; i_other := false |}.
Definition demo_loss : loss_module := {| l_params := [("s", false); ("t", false); ("w", true)]; l_forward := fun kw => Ok (VList (map snd kw)) |}.
Definition demo_with (m : list (string * info)) : distiller :=
  {| d_student := [("feat", [VAtom 1; VAtom 2])]; d_teacher := [("feat", [VList [VAtom 3; VAtom 4]])]; d_connectors := [("conv", fun v => Ok (VList [v; v]))];
     d_losses := [("loss_kd", demo_loss); ("loss_unused", demo_loss)]; d_mappings := [("loss_kd", m)] |}.
Definition demo_item (v : val) (i : Z) : outcome val := match v with VList l => Ok (nth (Z.to_nat i) l (VAtom 0)) | VAtom n => Ok (VAtom n) end.
Definition demo_teacher : info :=
  {| i_recorder := Some "feat"; i_from_student := Some (true, false); i_record_idx := Some (-1); i_data_idx := Some (Some 1); i_connector := Some (Some "conv"); i_connector_idx := Some (Some 0); i_other := false |}.
Definition demo_full : distiller := demo_with [("s", demo_info "feat" true); ("t", demo_teacher)].
Example C141_example : new_distiller demo_full = Ok demo_full /\ compute_distill_losses demo_item Ok false demo_full = Ok [("loss_kd", VList [VAtom 1; VAtom 4])].
Proof. split; reflexivity. Qed.
Lemma demo_works m : (forall k r, In (k, r) m -> r = demo_info "feat" true \/ r = demo_teacher \/ i_recorder r <> Some "feat") -> works demo_item (demo_with m).
Proof.
  intros Hm. split; [|split; [|split]].
  - intros name l kwargs H. cbn [demo_with d_losses get] in H. destruct (String.eqb "loss_kd" name); [injection H as <-; cbn; eauto|]. destruct (String.eqb "loss_unused" name); [injection H as <-; cbn; eauto|discriminate].
  - intros c f x H. cbn [demo_with d_connectors get] in H. destruct (String.eqb "conv" c); [injection H as <-; eauto|discriminate].
  - intros [n|l] k; cbn; eauto.
  - intros name args k r buf rn [E|[]] Hk Hr Hb. injection E as _ <-. destruct (Hm k r Hk) as [->|[->|Hn]].
    + injection Hr as <-. cbn in Hb. injection Hb as <-. exists (VAtom 1). split; [left; split; [cbn; lia|reflexivity]|exact Logic.I].
    + injection Hr as <-. cbn in Hb. injection Hb as <-. exists (VList [VAtom 3; VAtom 4]). split; [right; repeat split; cbn; try lia; reflexivity|].
      exists [VAtom 3; VAtom 4], (VAtom 4). split; [reflexivity|]. left. split; [cbn; lia|reflexivity].
    + exfalso. destruct (String.eqb_spec "feat" rn) as [<-|N]; [congruence|]. unfold recorders_of in Hb.
      assert (N' : String.eqb "feat" rn = false) by (apply String.eqb_neq; exact N).
      destruct (i_from_student r) as [[? []]|]; cbn [demo_with d_student d_teacher get] in Hb; rewrite N' in Hb; discriminate.
Qed.
Example C141_example_complete : works demo_item demo_full /\ complete demo_full.
Proof.
  split; [apply demo_works; intros k r [E|[E|[]]]; injection E as _ <-; auto|].
  intros name args l [E|[]] Hl. injection E as <- <-. cbn in Hl. injection Hl as <-. split.
  - intros p [E|[E|[E|[]]]]; try discriminate; injection E as <-; [exists (demo_info "feat" true)|exists demo_teacher]; cbn; auto.
  - intros k r [E|[E|[]]]; injection E as <- <-; (split; [reflexivity|]; cbn; discriminate).
Qed.
(** A mapping without one of the required arguments is accepted. *)
Theorem C141_missing_refuted : ~ C141_claim.
Proof.
  intros H. destruct (H demo_item (demo_with [("s", demo_info "feat" true)])) as [r Hr]; [reflexivity| |discriminate].
  apply demo_works. intros k r [E|[]]. injection E as _ <-. auto.
Qed.
(** A mapping of a parameter with a default to a recorder that does not exist is accepted. *)
Theorem C141_default_refuted : ~ C141_claim.
Proof.
  intros H. destruct (H demo_item (demo_with [("s", demo_info "feat" true); ("t", demo_teacher); ("w", demo_info "missing" true)])) as [r Hr]; [reflexivity| |discriminate].
  apply demo_works. intros k r [E|[E|[E|[]]]]; injection E as _ <-; auto. right. right. discriminate.
Qed.
(** A mapping with a misspelled option is accepted. *)
Definition demo_typo : info := {| i_recorder := Some "feat"; i_from_student := Some (true, true); i_record_idx := None; i_data_idx := None; i_connector := None; i_connector_idx := None; i_other := true |}.
Theorem C141_option_refuted : ~ C141_claim.
Proof.
  intros H. destruct (H demo_item (demo_with [("s", demo_typo); ("t", demo_teacher)])) as [r Hr]; [reflexivity| |discriminate].
  destruct (demo_works [("s", demo_info "feat" true); ("t", demo_teacher)]) as (A & B & C & F); [intros k r [E|[E|[]]]; injection E as _ <-; auto|].
  split; [exact A|]. split; [exact B|]. split; [exact C|]. intros name args k r buf rn [E|[]] Hk Hr Hb. injection E as <- <-.
  destruct Hk as [Hk|[Hk|[]]]; injection Hk as <- <-.
  - exact (F "loss_kd" _ "s" (demo_info "feat" true) buf rn (or_introl eq_refl) (or_introl eq_refl) Hr Hb).
  - exact (F "loss_kd" _ "t" demo_teacher buf rn (or_introl eq_refl) (or_intror (or_introl eq_refl)) Hr Hb).
Qed.
(** [connector=None], which is the default of get_record, is rejected. *)
Definition demo_none : info := {| i_recorder := Some "feat"; i_from_student := Some (true, true); i_record_idx := None; i_data_idx := None; i_connector := Some None; i_connector_idx := None; i_other := false |}.
Example C141_example_none : new_distiller (demo_with [("s", demo_none); ("t", demo_teacher)]) = Raise AssertionError /\ get_record demo_item Ok false (demo_with []) demo_none = Ok (VAtom 1).
Proof. split; reflexivity. Qed.
(** BYOTDistiller: the teacher's value is detached, here negated. *)
Definition demo_detach (v : val) : outcome val := match v with VAtom n => Ok (VAtom (- n)) | VList _ => Raise AttributeError end.
Example C142_example : compute_distill_losses demo_item demo_detach true demo_full = Ok [("loss_kd", VList [VAtom 1; VAtom (-4)])].
Proof. reflexivity. Qed.
(** Another connector and other recorders make no difference. *)
Example C142_example_frame : compute_distill_losses demo_item Ok false
  {| d_student := [("feat", [VAtom 1; VAtom 2]); ("x", [])]; d_teacher := [("y", []); ("feat", [VList [VAtom 3; VAtom 4]])]; d_connectors := ("id", Ok) :: d_connectors demo_full; d_losses := d_losses demo_full; d_mappings := d_mappings demo_full |} =
  compute_distill_losses demo_item Ok false demo_full.
Proof. reflexivity. Qed.

Print Assumptions C141_accepts.
Print Assumptions C141_unmapped.
Print Assumptions C141_computes_partial.
Print Assumptions C141_missing_refuted.
Print Assumptions C141_default_refuted.
Print Assumptions C141_option_refuted.
Print Assumptions C142_values.
Print Assumptions C142_frame.
