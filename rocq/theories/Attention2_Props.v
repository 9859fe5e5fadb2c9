(** C147: exporting dynamic multi-head attention, and examples for C145 to C147. *)
From Coq Require Import List ZArith Bool Lia.
From Verif Require Import Prelude Attention_Model Attention_Lemmas Attention_Props.
From Verif Require Dynamic_Model.
Import ListNotations.
Local Open Scope nat_scope.

(** * Specification *)
(** A mutable does not block the export: containers and derived mutables never do. *)
Definition unblocked (s : Dynamic_Model.mutable_kind * bool) : Prop := fst s = Dynamic_Model.Other -> snd s = true.
Definition rel_ready {A} (r : drelpos A) : Prop := exists c, d_head A r = Some c /\ unblocked (c_state c).
(** Everything is registered and fixed, and all four projections have a bias. *)
Definition exportable {A} (m : dmha A) : Prop :=
  (exists e, d_embed_mut A m = Some e /\ unblocked (c_state e)) /\ (exists q, d_q_mut A m = Some q /\ unblocked (c_state q)) /\
  (exists h, d_heads_mut A m = Some h /\ unblocked (v_state h)) /\
  Forall (fun w => l_b A w <> None) [d_q A m; d_k A m; d_v A m; d_proj A m] /\
  match d_rel A m with None => True | Some (rk, rv) => rel_ready rk /\ rel_ready rv end.
(** The heads have the width of the static class, the scale is the default one and so is max_relative_position. *)
Definition unit_heads {A} (m : dmha A) : Prop :=
  exists q h, d_q_mut A m = Some q /\ d_heads_mut A m = Some h /\ v_choice h <> 0 /\ activated q = v_choice h * 64.
Definition default_range {A} (m : dmha A) : Prop :=
  match d_rel A m with None => True | Some (rk, rv) => r_max A (d_pos A rk) = 14 /\ r_max A (d_pos A rv) = 14 end.

(** * Lemmas *)
Lemma check_fixed_iff : forall ms, Dynamic_Model.check_if_mutables_fixed ms = Ok tt <-> Forall unblocked ms.
Proof.
  intros ms. unfold Dynamic_Model.check_if_mutables_fixed. destruct (forallb _ ms) eqn:E.
  - split; [intros _|reflexivity]. rewrite forallb_forall in E. apply Forall_forall. intros (k, f) Hin Hk. cbn in *. subst k. apply (E _ Hin).
  - split; [discriminate|]. intros H. exfalso. assert (X : forallb (fun kf => match fst kf with Dynamic_Model.Container | Dynamic_Model.Derived => true | Dynamic_Model.Other => snd kf end) ms = true).
    { apply forallb_forall. rewrite Forall_forall in H. intros (k, f) Hin. specialize (H _ Hin). unfold unblocked in H. cbn in *. destruct k; auto. }
    rewrite X in E. discriminate.
Qed.
Lemma check_fixed_unit : forall ms u, Dynamic_Model.check_if_mutables_fixed ms = Ok u -> Forall unblocked ms.
Proof. intros ms [] H. now apply check_fixed_iff. Qed.

Section Export.
  Variable A : Type.
  Variables (zero : A) (add mul : A -> A -> A) (softmax : list A -> list A) (default_scale : A).
  Notation to_static := (to_static A zero default_scale).
  Notation static_forward := (static_forward A zero add mul softmax).
  Notation dynamic_forward := (dynamic_forward A zero add mul softmax).

  Lemma relpos_ready : forall r, (exists s, drelpos_to_static A zero r = Ok s) <-> rel_ready r.
  Proof.
    intros r. unfold drelpos_to_static, rel_ready. destruct (d_head A r) as [c|]; cbn [states get_attr bind].
    - split.
      + intros (s & H). destruct (Dynamic_Model.check_if_mutables_fixed [c_state c]) as [u|] eqn:E; cbn [bind] in H; [|discriminate].
        apply check_fixed_unit in E. inversion E; subst. eauto.
      + intros (c' & Hc & Hu). injection Hc as <-. rewrite (proj2 (check_fixed_iff [c_state c])) by (repeat constructor; exact Hu). cbn [bind]. eauto.
    - split; [|intros (c & Hc & _); discriminate]. intros (s & H). destruct (Dynamic_Model.check_if_mutables_fixed []); discriminate.
  Qed.
  Lemma with_bias_iff : forall w, (exists w', with_bias A w = Ok w') <-> l_b A w <> None.
  Proof. intros w. unfold with_bias. destruct (l_b A w); split; [congruence | eauto | intros (? & H); discriminate | congruence]. Qed.
  Lemma sliced_bias : forall o i w, l_b A (sliced A zero o i w) <> None <-> l_b A w <> None.
  Proof. intros o i w. unfold sliced. cbn. destruct (l_b A w); split; congruence. Qed.

  Lemma exports_iff : forall m, (exists s, to_static m = Ok s) <-> exportable m.
  Proof.
    intros m. unfold Attention_Model.to_static, exportable, qkv_params, proj_params. split.
    - intros (s & H).
      destruct (Dynamic_Model.check_if_mutables_fixed _) as [u|] eqn:E; cbn [bind] in H; [|discriminate]. apply check_fixed_unit in E.
      destruct (d_embed_mut A m) as [e|]; cbn [get_attr bind] in H; [|discriminate].
      destruct (d_heads_mut A m) as [h|]; cbn [get_attr bind] in H; [|discriminate].
      destruct (d_q_mut A m) as [q|]; cbn [get_attr bind] in H; [|discriminate].
      cbn in E. inversion E as [|? ? U1 E1]; subst. inversion E1 as [|? ? U2 E2]; subst. inversion E2 as [|? ? U3 E3]; subst.
      split; [eauto|]. split; [eauto|]. split; [eauto|].
      unfold with_bias, sliced in H. cbn [l_b l_w] in H.
      destruct (l_b A (d_q A m)) eqn:B1; cbn [bind] in H; [|discriminate]. destruct (l_b A (d_k A m)) eqn:B2; cbn [bind] in H; [|discriminate].
      destruct (l_b A (d_v A m)) eqn:B3; cbn [bind] in H; [|discriminate]. destruct (l_b A (d_proj A m)) eqn:B4; cbn [bind] in H; [|discriminate].
      split; [repeat constructor; congruence|].
      destruct (d_rel A m) as [(rk, rv)|]; [|exact I].
      destruct (drelpos_to_static A zero rk) as [sk|] eqn:K; cbn [bind] in H; [|discriminate].
      destruct (drelpos_to_static A zero rv) as [sv|] eqn:V; cbn [bind] in H; [|discriminate].
      split; apply relpos_ready; eauto.
    - intros ((e & -> & Ue) & (q & -> & Uq) & (h & -> & Uh) & Bs & R). cbn [get_attr states app].
      rewrite (proj2 (check_fixed_iff _)) by (repeat constructor; assumption). cbn [bind].
      inversion Bs as [|? ? B1 Bs1]; subst. inversion Bs1 as [|? ? B2 Bs2]; subst. inversion Bs2 as [|? ? B3 Bs3]; subst. inversion Bs3 as [|? ? B4 _]; subst.
      unfold with_bias, sliced. cbn [l_b l_w].
      destruct (l_b A (d_q A m)); [|contradiction]. destruct (l_b A (d_k A m)); [|contradiction].
      destruct (l_b A (d_v A m)); [|contradiction]. destruct (l_b A (d_proj A m)); [|contradiction]. cbn [bind].
      destruct (d_rel A m) as [(rk, rv)|]; cbn [bind]; [|eauto].
      destruct R as (Rk & Rv). apply relpos_ready in Rk as (sk & ->). apply relpos_ready in Rv as (sv & ->). cbn [bind]. eauto.
  Qed.
  Lemma relpos_same : forall r s n k, drelpos_to_static A zero r = Ok s -> r_max A (d_pos A r) = 14 ->
    relpos_forward A zero add s n k = drelpos_forward A zero add r n k.
  Proof.
    intros r s n k H E. unfold drelpos_to_static, drelpos_forward in *. destruct (Dynamic_Model.check_if_mutables_fixed _); cbn [bind] in H; [|discriminate].
    destruct (d_head A r) as [c|]; cbn [get_attr bind] in *; [|discriminate]. apply Ok_inj in H. subst s. unfold narrow_tables. cbn [r_v r_h]. rewrite E. reflexivity.
  Qed.
  Lemma static_same : forall m s x B N C, to_static m = Ok s -> shape A x = [B; N; C] ->
    unit_heads m -> d_scale A m = default_scale -> default_range m -> static_forward s x = dynamic_forward m x.
  Proof.
    intros m s x B N C H Sx (q & h & Eq & Eh & HH & Hq) Hs Hr.
    unfold Attention_Model.to_static, qkv_params, proj_params in H. rewrite Eq, Eh in H.
    destruct (Dynamic_Model.check_if_mutables_fixed _) as [u|]; cbn [bind] in H; [|discriminate].
    destruct (d_embed_mut A m) as [e|] eqn:Ee; cbn [get_attr bind] in H; [|discriminate].
    unfold with_bias in H.
    destruct (l_b A (sliced A zero (activated q) (activated e) (d_q A m))) eqn:B1; cbn [bind] in H; [|discriminate].
    destruct (l_b A (sliced A zero (activated q) (activated e) (d_k A m))) eqn:B2; cbn [bind] in H; [|discriminate].
    destruct (l_b A (sliced A zero (activated q) (activated e) (d_v A m))) eqn:B3; cbn [bind] in H; [|discriminate].
    destruct (l_b A (sliced A zero (activated e) (activated q) (d_proj A m))) eqn:B4; cbn [bind] in H; [|discriminate].
    unfold Attention_Model.static_forward, Attention_Model.dynamic_forward, qkv_params, proj_params. rewrite Sx, Ee, Eq, Eh. cbn [get_attr bind].
    apply Nat.eqb_neq in HH as HH'. rewrite HH'.
    replace (activated q / v_choice h) with head_unit by (rewrite Hq, Nat.mul_comm, Nat.div_mul by exact HH; reflexivity).
    destruct (d_rel A m) as [(rk, rv)|] eqn:ER.
    - destruct (drelpos_to_static A zero rk) as [sk|] eqn:K; cbn [bind] in H; [|discriminate].
      destruct (drelpos_to_static A zero rv) as [sv|] eqn:V; cbn [bind] in H; [|discriminate].
      apply Ok_inj in H. subst s. cbn [s_q s_k s_v s_proj s_rel s_heads s_scale].
      unfold default_range in Hr. rewrite ER in Hr. destruct Hr as (R1 & R2).
      rewrite (relpos_same rk sk N N K R1), (relpos_same rv sv N N V R2), Hs. reflexivity.
    - cbn [bind] in H. apply Ok_inj in H. subst s. cbn [s_q s_k s_v s_proj s_rel s_heads s_scale]. rewrite Hs. reflexivity.
  Qed.
End Export.

(** * C147 *)
(** The export succeeds exactly if everything is registered and fixed and every projection has a bias. *)
Theorem C147_exports : forall A zero default_scale (m : dmha A), (exists s, to_static A zero default_scale m = Ok s) <-> exportable m.
Proof. exact exports_iff. Qed.
(** The exported module does what the dynamic one does, on all inputs and with the same errors, if the heads have width 64, the
    scale is the default and max_relative_position is 14. *)
Theorem C147_same_partial : forall A zero add mul softmax default_scale (m : dmha A) s x B N C,
  to_static A zero default_scale m = Ok s -> shape A x = [B; N; C] ->
  unit_heads m -> d_scale A m = default_scale -> default_range m ->
  static_forward A zero add mul softmax s x = dynamic_forward A zero add mul softmax m x.
Proof. intros A zero add mul softmax default_scale. apply static_same. Qed.

(** The contract of to_static_op, for modules that satisfy P. *)
Definition C147_claim (P : Z -> dmha Z -> Prop) : Prop :=
  forall softmax default_scale (m : dmha Z) s x y, P default_scale m -> to_static Z 0%Z default_scale m = Ok s ->
    dynamic_forward Z 0%Z Z.add Z.mul softmax m x = Ok y -> static_forward Z 0%Z Z.add Z.mul softmax s x = Ok y.
(** Every module that runs and whose mutables are fixed can be exported. *)
Definition C147_export_claim : Prop :=
  forall softmax default_scale (m : dmha Z) x y, (forall h, d_heads_mut Z m = Some h -> unblocked (v_state h)) ->
    d_rel Z m = None -> dynamic_forward Z 0%Z Z.add Z.mul softmax m x = Ok y -> exists s, to_static Z 0%Z default_scale m = Ok s.

(** Concrete modules: one head of width [dh], one channel, two tokens. *)
Definition demo_channels (n : nat) : channels := {| c_mask := repeat true n; c_state := (Dynamic_Model.Container, false) |}.
Definition demo_lin (r c : nat) (b : bool) : lin Z :=
  {| l_w := tab2 Z 0%Z r c (fun i j => Z.of_nat (1 + i + j)); l_b := if b then Some (repeat 1%Z r) else None |}.
Definition demo_pos (mx dh : nat) : drelpos Z :=
  {| d_pos := {| r_max := mx; r_v := tab2 Z 0%Z (2 * mx + 2) dh (fun i j => Z.of_nat i); r_h := tab2 Z 0%Z (2 * mx + 2) dh (fun i j => Z.of_nat j) |};
     d_head := Some (demo_channels dh) |}.
Definition demo_mha (dh : nat) (scale : Z) (b : bool) (rel : option nat) : dmha Z :=
  {| d_scale := scale; d_q := demo_lin dh 1 b; d_k := demo_lin dh 1 b; d_v := demo_lin dh 1 b; d_proj := demo_lin 1 dh true;
     d_rel := match rel with Some mx => Some (demo_pos mx dh, demo_pos mx dh) | None => None end;
     d_embed_mut := Some (demo_channels 1); d_q_mut := Some (demo_channels dh);
     d_heads_mut := Some {| v_choice := 1; v_state := (Dynamic_Model.Other, true) |} |}.
Definition demo_input : tensor Z := tab3 Z 0%Z 1 2 1 (fun b i c => Z.of_nat (1 + i)).
Definition take {X} (d : X) (o : outcome X) : X := match o with Ok x => x | Raise _ => d end.
Definition nil : tensor Z := T Z [] [].
(** Equal outcomes have equal entries. *)
Definition alike (a b : outcome (tensor Z)) : bool :=
  match a, b with
  | Ok t, Ok u => forallb (fun p => Z.eqb (fst p) (snd p)) (combine (data Z t) (data Z u))
  | Raise _, Raise _ => true
  | _, _ => false
  end.
Lemma alike_refl a b : a = b -> alike a b = true.
Proof. intros <-. destruct a as [t|e]; [|reflexivity]. cbn. induction (data Z t) as [|x l IH]; cbn; [reflexivity|]. rewrite Z.eqb_refl. exact IH. Qed.

(** max_relative_position is lost: 7 becomes 14 and other entries of the tables are read. *)
Theorem C147_range_refuted : ~ C147_claim (fun s m => unit_heads m /\ d_scale Z m = s).
Proof.
  intros H. specialize (H (fun l => l) 1%Z (demo_mha 64 1%Z true (Some 7))).
  destruct (to_static Z 0%Z 1%Z (demo_mha 64 1%Z true (Some 7))) as [s|] eqn:E; [|discriminate].
  specialize (H s demo_input (take nil (dynamic_forward Z 0%Z Z.add Z.mul (fun l => l) (demo_mha 64 1%Z true (Some 7)) demo_input))).
  assert (X : static_forward Z 0%Z Z.add Z.mul (fun l => l) s demo_input = dynamic_forward Z 0%Z Z.add Z.mul (fun l => l) (demo_mha 64 1%Z true (Some 7)) demo_input).
  { rewrite H.
    - vm_compute. reflexivity.
    - split; [|reflexivity]. eexists _, _. split; [reflexivity|]. split; [reflexivity|]. split; [discriminate | reflexivity].
    - reflexivity.
    - vm_compute. reflexivity. }
  apply alike_refl in X. revert X. apply Ok_inj in E. subst s. vm_compute. intros X; discriminate X.
Qed.
(** qk_scale is lost. *)
Theorem C147_scale_refuted : ~ C147_claim (fun s m => unit_heads m /\ default_range m).
Proof.
  intros H. specialize (H (fun l => l) 1%Z (demo_mha 64 2%Z true None)).
  destruct (to_static Z 0%Z 1%Z (demo_mha 64 2%Z true None)) as [s|] eqn:E; [|discriminate].
  specialize (H s demo_input (take nil (dynamic_forward Z 0%Z Z.add Z.mul (fun l => l) (demo_mha 64 2%Z true None) demo_input))).
  assert (X : static_forward Z 0%Z Z.add Z.mul (fun l => l) s demo_input = dynamic_forward Z 0%Z Z.add Z.mul (fun l => l) (demo_mha 64 2%Z true None) demo_input).
  { rewrite H.
    - vm_compute. reflexivity.
    - split; [|exact I]. eexists _, _. split; [reflexivity|]. split; [reflexivity|]. split; [discriminate | reflexivity].
    - reflexivity.
    - vm_compute. reflexivity. }
  apply alike_refl in X. revert X. apply Ok_inj in E. subst s. vm_compute. intros X; discriminate X.
Qed.
(** Heads of another width than 64 run in the dynamic module only. *)
Theorem C147_heads_refuted : ~ C147_claim (fun s m => d_scale Z m = s /\ default_range m).
Proof.
  intros H. specialize (H (fun l => l) 1%Z (demo_mha 3 1%Z true None)).
  destruct (to_static Z 0%Z 1%Z (demo_mha 3 1%Z true None)) as [s|] eqn:E; [|discriminate].
  specialize (H s demo_input (take nil (dynamic_forward Z 0%Z Z.add Z.mul (fun l => l) (demo_mha 3 1%Z true None) demo_input))).
  assert (X : static_forward Z 0%Z Z.add Z.mul (fun l => l) s demo_input = dynamic_forward Z 0%Z Z.add Z.mul (fun l => l) (demo_mha 3 1%Z true None) demo_input).
  { rewrite H.
    - vm_compute. reflexivity.
    - split; [reflexivity | exact I].
    - reflexivity.
    - vm_compute. reflexivity. }
  apply alike_refl in X. revert X. apply Ok_inj in E. subst s. vm_compute. intros X; discriminate X.
Qed.
(** With qkv_bias=False the export fails. *)
Theorem C147_bias_refuted : ~ C147_export_claim.
Proof.
  intros H. specialize (H (fun l => l) 1%Z (demo_mha 3 1%Z false None) demo_input
    (take nil (dynamic_forward Z 0%Z Z.add Z.mul (fun l => l) (demo_mha 3 1%Z false None) demo_input))).
  destruct H as (s & H).
  - intros h Hh. injection Hh as <-. intros _. reflexivity.
  - reflexivity.
  - vm_compute. reflexivity.
  - discriminate.
Qed.
(** convert_from: what it is built from are the numbers of channels and heads, so no registration makes it compute what the
    converted module computes. *)
Definition C147_convert_claim : Prop :=
  exists (fresh : nat -> nat -> dmha Z) (register : dmha Z -> dmha Z), forall softmax s x y,
    static_forward Z 0%Z Z.add Z.mul softmax s x = Ok y ->
    dynamic_forward Z 0%Z Z.add Z.mul softmax (register (convert_from Z fresh s)) x = Ok y.
Definition demo_static (k : Z) : smha Z :=
  let w r c := {| l_w := tab2 Z 0%Z r c (fun i j => k); l_b := Some (repeat k r) |} in
  {| s_heads := 1; s_scale := 1%Z; s_q := w 64 1; s_k := w 64 1; s_v := w 64 1; s_proj := w 1 64; s_rel := None |}.
Theorem C147_convert_refuted : ~ C147_convert_claim.
Proof.
  intros (fresh & register & H).
  assert (E0 : static_forward Z 0%Z Z.add Z.mul (fun l => l) (demo_static 0) demo_input = Ok (take nil (static_forward Z 0%Z Z.add Z.mul (fun l => l) (demo_static 0) demo_input))) by (vm_compute; reflexivity).
  assert (E1 : static_forward Z 0%Z Z.add Z.mul (fun l => l) (demo_static 1) demo_input = Ok (take nil (static_forward Z 0%Z Z.add Z.mul (fun l => l) (demo_static 1) demo_input))) by (vm_compute; reflexivity).
  apply H in E0. apply H in E1. change (convert_from Z fresh (demo_static 1)) with (convert_from Z fresh (demo_static 0)) in E1.
  rewrite E0 in E1. apply alike_refl in E1. revert E1. vm_compute. intros X; discriminate X.
Qed.

(** * Examples *)
(** Two images, five tokens, two heads of width two: the hypotheses of C145 hold and the forward succeeds. *)
Definition ex_mha : dmha Z :=
  {| d_scale := 1%Z; d_q := demo_lin 6 4 true; d_k := demo_lin 6 4 false; d_v := demo_lin 6 4 true; d_proj := demo_lin 4 6 true;
     d_rel := Some (demo_pos 1 2, demo_pos 1 2); d_embed_mut := Some (demo_channels 3); d_q_mut := Some (demo_channels 4);
     d_heads_mut := Some {| v_choice := 2; v_state := (Dynamic_Model.Other, true) |} |}.
Definition ex_input : tensor Z := tab3 Z 0%Z 2 5 3 (fun b i c => Z.of_nat (b + 2 * i + c)).
Example C145_example_fits : fits Z ex_mha 3 2 2.
Proof.
  assert (C : forall r c b o i, o <= r -> i <= c -> covers Z o i (demo_lin r c b)).
  { intros r c b o i Ho Hi. exists r, c. split; [reflexivity|]. split; [exact Ho|]. split; [exact Hi|]. destruct b; [apply repeat_length | exact I]. }
  assert (D : dtable_ok Z 2 (demo_pos 1 2)).
  { exists (demo_channels 2), 2, 2. split; [reflexivity|]. split; [reflexivity|]. split; [lia|]. split; [lia|].
    split; exists 4; (split; [reflexivity | cbn; lia]). }
  split; [eexists; split; reflexivity|]. split; [eexists; split; reflexivity|]. split; [eexists; split; reflexivity|].
  split; [discriminate|]. split; [apply C; lia|]. split; [apply C; lia|]. split; [apply C; lia|]. split; [apply C; lia|]. split; exact D.
Qed.
Example C145_example : dynamic_forward Z 0%Z Z.add Z.mul (fun l => l) ex_mha ex_input =
  Ok (tab3 Z 0%Z 2 5 3 (output Z 0%Z Z.add Z.mul (fun l => l) ex_mha 3 2 2 5 (fun b i c => at_ Z 0%Z ex_input [b; i; c]))) /\
  take 0%Z (do y <- dynamic_forward Z 0%Z Z.add Z.mul (fun l => l) ex_mha ex_input; Ok (at_ Z 0%Z y [1; 4; 2])) <> 0%Z.
Proof.
  split; [apply (C145_forward Z 0%Z Z.add Z.mul (fun l => l) ex_mha ex_input 2 5 3 2 2 C145_example_fits); [apply tab_wf | reflexivity | discriminate | discriminate]|].
  vm_compute. discriminate.
Qed.
(** A batch with the second image only gives the second image's result. *)
Example C145_example_images : exists y y', dynamic_forward Z 0%Z Z.add Z.mul (fun l => l) ex_mha ex_input = Ok y /\
  dynamic_forward Z 0%Z Z.add Z.mul (fun l => l) ex_mha (tab3 Z 0%Z 1 5 3 (fun b i c => Z.of_nat (1 + 2 * i + c))) = Ok y' /\
  at_ Z 0%Z y [1; 4; 2] = at_ Z 0%Z y' [0; 4; 2] /\ at_ Z 0%Z y [0; 4; 2] <> at_ Z 0%Z y' [0; 4; 2].
Proof. eexists _, _. split; [vm_compute; reflexivity|]. split; [vm_compute; reflexivity|]. split; vm_compute; [reflexivity | discriminate]. Qed.
(** Three heads of a query width of four. *)
Example C145_example_heads : dynamic_forward Z 0%Z Z.add Z.mul (fun l => l)
  {| d_scale := 1%Z; d_q := demo_lin 6 4 true; d_k := demo_lin 6 4 false; d_v := demo_lin 6 4 true; d_proj := demo_lin 4 6 true;
     d_rel := None; d_embed_mut := Some (demo_channels 3); d_q_mut := Some (demo_channels 4);
     d_heads_mut := Some {| v_choice := 3; v_state := (Dynamic_Model.Other, true) |} |} ex_input = Raise RuntimeError.
Proof. reflexivity. Qed.
(** A grid of two by two patches, range 1: the entries of the rows and of the columns. *)
Example C146_example : final_mats 1 4 4 =
  ([[0; 0; 0; 0; 0]; [0; 2; 2; 3; 3]; [0; 2; 2; 3; 3]; [0; 1; 1; 2; 2]; [0; 1; 1; 2; 2]]%Z,
   [[0; 0; 0; 0; 0]; [0; 2; 3; 2; 3]; [0; 1; 2; 1; 2]; [0; 2; 3; 2; 3]; [0; 1; 2; 1; 2]]%Z) /\
  row_entry 1 4 1 4 = 3 /\ col_entry 1 4 4 1 = 1.
Proof. split; [reflexivity|]. split; reflexivity. Qed.
Example C146_example_tables : table_ok Z 1 2 (r_v Z (d_pos Z (demo_pos 1 2))) /\
  exists t, drelpos_forward Z 0%Z Z.add (demo_pos 1 2) 5 5 = Ok t /\ at_ Z 0%Z t [1; 4; 1] = 4%Z.
Proof. split; [exists 4; split; [reflexivity | cbn; lia]|]. eexists. split; [vm_compute; reflexivity | reflexivity]. Qed.
Example C146_example_injective : bucket 2 3 1 = 1 /\ bucket 2 1 3 = 5 /\ bucket 2 4 2 = bucket 2 3 1 /\ bucket 2 9 2 = 1.
Proof. repeat split. Qed.
(** A module of the default kind is exported and computes the same. *)
Example C147_example : exists s, to_static Z 0%Z 1%Z (demo_mha 64 1%Z true (Some 14)) = Ok s /\
  unit_heads (demo_mha 64 1%Z true (Some 14)) /\ default_range (demo_mha 64 1%Z true (Some 14)) /\
  static_forward Z 0%Z Z.add Z.mul (fun l => l) s demo_input = dynamic_forward Z 0%Z Z.add Z.mul (fun l => l) (demo_mha 64 1%Z true (Some 14)) demo_input /\
  exists y, dynamic_forward Z 0%Z Z.add Z.mul (fun l => l) (demo_mha 64 1%Z true (Some 14)) demo_input = Ok y.
Proof.
  eexists. split; [reflexivity|]. split; [eexists _, _; split; [reflexivity|]; split; [reflexivity|]; split; [discriminate | reflexivity]|].
  split; [split; reflexivity|]. split; [vm_compute; reflexivity|]. eexists. vm_compute. reflexivity.
Qed.
(** With max_relative_position = 1 the exported module reads outside of its tables. *)
Example C147_example_range : exists s y, to_static Z 0%Z 1%Z (demo_mha 64 1%Z true (Some 1)) = Ok s /\
  dynamic_forward Z 0%Z Z.add Z.mul (fun l => l) (demo_mha 64 1%Z true (Some 1)) demo_input = Ok y /\
  static_forward Z 0%Z Z.add Z.mul (fun l => l) s demo_input = Raise IndexError.
Proof. eexists _, _. split; [reflexivity|]. split; vm_compute; reflexivity. Qed.
Example C147_example_exports : exportable (demo_mha 64 1%Z true (Some 1)).
Proof. apply (C147_exports Z 0%Z 1%Z). eexists. reflexivity. Qed.

Print Assumptions C145_forward.
Print Assumptions C145_images.
Print Assumptions C145_heads.
Print Assumptions C146_embedding.
Print Assumptions C146_dynamic.
Print Assumptions C146_square.
Print Assumptions C146_injective.
Print Assumptions C147_exports.
Print Assumptions C147_same_partial.
Print Assumptions C147_range_refuted.
Print Assumptions C147_scale_refuted.
Print Assumptions C147_heads_refuted.
Print Assumptions C147_bias_refuted.
Print Assumptions C147_convert_refuted.
