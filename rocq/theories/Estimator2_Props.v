(** C31 and C32, continued: the other layers; what an estimator does after
    estimate_separation_modules. *)
From Verif Require Import Prelude Recorder_Model Estimator_Model Estimator_Props.
From Coq Require Import QArith.
Open Scope Z_scope.

(** One operation per element of the batch in pooling, one multiplication per input element
    and output feature in a linear layer, one or two operations per element in batch norm
    (normalisation, affine map). *)
Theorem C31_other_layers :
  forall batch s o a, 0 <= batch -> Forall (fun d => 0 <= d) s -> 0 <= o ->
    let elements := Z.to_nat (batch * prodZ s) in
    (layer_flops (Linear s o) batch == inject_Z (sumn elements (fun _ => sumn (Z.to_nat o) (fun _ => 1%Z))))%Q /\
    (layer_flops (BatchNorm s a) batch == inject_Z (sumn elements (fun _ => 1 + (if a then 1 else 0))%Z))%Q /\
    (layer_flops (Pool s) batch == inject_Z (sumn elements (fun _ => 1%Z)))%Q.
Proof.
  intros batch s o a Hb Hs Ho elements.
  assert (Hp : 0 <= prodZ s). { induction Hs; cbn; [lia|]. unfold prodZ in *. nia. }
  assert (E : Z.of_nat elements = batch * prodZ s) by (unfold elements; rewrite Z2Nat.id; nia).
  rewrite !sumn_const, E. rewrite Z2Nat.id by lia. cbn [layer_flops]. change (prodZ (batch :: s)) with (batch * prodZ s).
  split; [|split].
  - rewrite Z.mul_1_r. reflexivity.
  - destruct a; reflexivity.
  - rewrite Z.mul_1_r. reflexivity.
Qed.
Print Assumptions C31_other_layers.
Example C31_other_layers_case :
  Qeq (layer_flops (BatchNorm [4; 8; 8] true) 2) (inject_Z 1024) /\ Qeq (layer_flops (BatchNorm [4; 8; 8] false) 2) (inject_Z 512) /\
  Qeq (layer_flops (Linear [16] 10) 2) (inject_Z 320).
Proof. repeat split; reflexivity. Qed.

(** After [estimate_separation_modules] without a per-call configuration, every later
    [estimate] without one sees [seperate_return = True]; when the counter then answers with
    a dictionary, [estimate] fails unless the dictionary has exactly two entries, and then
    returns their names. *)
Theorem C32_after_separation :
  forall legal counter e d, counter (cget (cput (e_cfg e) "seperate_return"%string (CBool true))) = Ok (RDict d) ->
    estimate legal counter (history legal counter e [Separation []]) [] =
    match map fst d with [a; b] => Ok (a, b) | _ => Raise ValueError end.
Proof.
  intros legal counter e d H. unfold history, estimate. cbn [fold_left step]. unfold separation. cbn [resolve fst e_cfg bind].
  rewrite H. cbn [bind]. unfold unpack. destruct d as [|[a x] [|[b y] [|[c z] d]]]; reflexivity.
Qed.
Print Assumptions C32_after_separation.
Example C32_after_separation_case :
  let e := {| e_input_shape := COther "(1,3,32,32)"; e_units := COther "G"; e_as_strings := CBool false; e_cfg := [("spec_modules"%string, CNames ["backbone"%string])] |} in
  estimate (fun _ => true) shape_counter (history (fun _ => true) shape_counter e [Separation []]) [] = Raise ValueError.
Proof. reflexivity. Qed.

(** [estimate_separation_modules] counts with [seperate_return = True] and the configured
    modules; without modules, or with an empty list, it raises. *)
Theorem C32_separation :
  forall legal counter e call, extensional counter -> call <> [] ->
    forallb (fun kv => legal (fst kv)) (e_cfg e) = true -> forallb (fun kv => legal (fst kv)) call = true ->
    let asked k := if String.eqb k "seperate_return" then Some (CBool true) else wanted e call k in
    separation legal counter e call =
    (e, match wanted e call "spec_modules"%string with
        | None => Raise KeyError
        | Some (CNames []) => Raise AssertionError
        | Some _ => counter asked
        end).
Proof.
  intros legal counter e call X N H1 H2 asked. unfold separation. destruct (resolve_wanted legal e call N H1 H2) as (c & -> & W).
  assert (E : forall k, cget (cput c "seperate_return"%string (CBool true)) k = asked k).
  { intros k. rewrite cget_cput. unfold asked. destruct (String.eqb k "seperate_return"); [reflexivity|apply W]. }
  rewrite (X _ _ E). rewrite (E "spec_modules"%string). destruct call; [congruence|]. reflexivity.
Qed.
Print Assumptions C32_separation.
Example C32_separation_case :
  let e := {| e_input_shape := COther "(1,3,32,32)"; e_units := COther "G"; e_as_strings := CBool false; e_cfg := [] |} in
  snd (separation (fun _ => true) shape_counter e [("spec_modules"%string, CNames ["backbone"%string])]) = Ok (RDict [("backbone"%string, ("1"%string, "1"%string))]) /\
  snd (separation (fun _ => true) shape_counter e [("spec_modules"%string, CNames [])]) = Raise AssertionError.
Proof. split; reflexivity. Qed.
