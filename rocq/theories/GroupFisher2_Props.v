(** C80 (importance of a batch), C81 (FLOPs normalisation), C82 (checkpoints at resource
    thresholds) of Group Fisher pruning. *)
From Verif Require Import Prelude GroupFisher_Model GroupFisher_Props.
From Coq Require Import Lqa Permutation.

(** * C80 - Recorded inputs meet their own gradients *)
Section Pairs.
Context {T : Type}.
(** Well-nested histories of one module: every forward call is followed by the backward
    call for the same use, and the uses in between are complete.  Uses are named by [T]. *)
Inductive nested : list (hook_call T) -> Prop :=
| nested_nil : nested []
| nested_step i a b : nested a -> nested b -> nested (Fwd i :: a ++ Bwd i :: b).
(** The full claim: the position-wise pairing of unit.py:174 joins each use with itself. *)
Definition C80_claim : Prop :=
  forall cs, nested cs -> rec_input (hooks cs) = rec_grad (hooks cs).

Lemma hooks_from (cs : list (hook_call T)) : forall r,
  fold_left hook cs r =
  {| rec_input := rec_input r ++ rec_input (hooks cs); rec_grad := rec_grad (hooks cs) ++ rec_grad r |}.
Proof.
  unfold hooks. induction cs as [|c cs IH]; intros [xs gs]; cbn [fold_left].
  - cbn. rewrite app_nil_r. reflexivity.
  - rewrite IH, (IH (hook _ c)). destruct c as [x|g]; cbn.
    + rewrite <- app_assoc, app_nil_r. reflexivity.
    + rewrite <- app_assoc. reflexivity.
Qed.

(** One forward phase followed by one backward phase: all uses are paired correctly. *)
Theorem C80_pairs_partial :
  forall us : list T, let r := hooks (map Fwd us ++ map Bwd (rev us)) in
    rec_input r = us /\ rec_grad r = us.
Proof.
  intros us r. subst r. unfold hooks. rewrite fold_left_app, hooks_from.
  assert (F : forall l, hooks (map (@Fwd T) l) = {| rec_input := l; rec_grad := [] |}).
  { unfold hooks. intros l. assert (G : forall l xs, fold_left hook (map (@Fwd T) l) {| rec_input := xs; rec_grad := [] |}
       = {| rec_input := xs ++ l; rec_grad := [] |}); [|apply (G l [])].
    clear. induction l as [|x l IH]; intros xs; cbn; [rewrite app_nil_r; reflexivity|].
    rewrite IH, <- app_assoc. reflexivity. }
  assert (B : forall l, hooks (map (@Bwd T) l) = {| rec_input := []; rec_grad := rev l |}).
  { unfold hooks. intros l. assert (G : forall l xs, fold_left hook (map (@Bwd T) l) {| rec_input := []; rec_grad := xs |}
       = {| rec_input := []; rec_grad := rev l ++ xs |}); [|rewrite (G l []), app_nil_r; reflexivity].
    clear. induction l as [|x l IH]; intros xs; cbn; [reflexivity|]. rewrite IH, <- app_assoc. reflexivity. }
  fold (hooks (map (@Fwd T) us)). rewrite F, B. cbn. rewrite !app_nil_r, rev_involutive. auto.
Qed.
End Pairs.
(** Two forward/backward rounds within one training step: the first input meets the
    gradient of the second use. *)
Theorem C80_pairs_refuted : ~ @C80_claim nat.
Proof.
  intros H. specialize (H [Fwd 1; Bwd 1; Fwd 2; Bwd 2]%nat).
  assert (N : nested [Fwd 1; Bwd 1; Fwd 2; Bwd 2]%nat).
  { apply (nested_step 1%nat [] [Fwd 2; Bwd 2]%nat); [constructor|]. apply (nested_step 2%nat [] []); constructor. }
  specialize (H N). discriminate.
Qed.
Print Assumptions C80_pairs_partial.
Print Assumptions C80_pairs_refuted.
Example C80_pairs_example :
  nested [Fwd 1; Fwd 2; Bwd 2; Bwd 1]%nat /\
  hooks [Fwd 1; Fwd 2; Bwd 2; Bwd 1]%nat = {| rec_input := [1; 2]; rec_grad := [1; 2] |}%nat.
Proof.
  split; [|reflexivity]. apply (nested_step 1%nat [Fwd 2; Bwd 2]%nat []); [|constructor].
  apply (nested_step 2%nat [] []); constructor.
Qed.

(** ** The importance of one batch *)

(** Specification: the derivative of the loss with respect to a multiplier on the channel is
    the sum, over all input-related layers and uses, of input times gradient; the importance
    adds the squares of these over the batch. *)
Fixpoint dot (a b : list Q) : Q :=
  match a, b with x :: a, y :: b => x * y + dot a b | _, _ => 0 end%Q.
Definition pixels (t : call_t) (b j : nat) : list Q := nth j (nth b t []) [].
Fixpoint uses_sum (xs gs : list call_t) (b j : nat) : Q :=
  match xs, gs with
  | x :: xs, g :: gs => (dot (pixels x b j) (pixels g b j) + uses_sum xs gs b j)%Q
  | _, _ => 0%Q
  end.
Definition channel_grad (rs : list (recorded call_t)) (b j : nat) : Q :=
  fold_right (fun r acc => uses_sum (rec_input r) (rec_grad r) b j + acc)%Q 0%Q rs.
Definition spec_importance (B : nat) (rs : list (recorded call_t)) (j : nat) : Q :=
  fold_right (fun b acc => channel_grad rs b j * channel_grad rs b j + acc)%Q 0%Q (seq 0 B).
(** Every recorded tensor has batch size [B] and [A] channels. *)
Definition call_ok (B A : nat) (t : call_t) : Prop := length t = B /\ Forall (fun row => length row = A) t.
Definition rec_ok (B A : nat) (r : recorded call_t) : Prop :=
  rec_input r <> [] /\ length (rec_input r) = length (rec_grad r) /\
  Forall (call_ok B A) (rec_input r) /\ Forall (call_ok B A) (rec_grad r).
Definition actives (l : list bool) : nat := length (filter (fun b => b) l).

Definition shape (B A : nat) (m : list (list Q)) : Prop := length m = B /\ Forall (fun row => length row = A) m.
Definition at_ (m : list (list Q)) (b j : nat) : Q := nth j (nth b m []) 0%Q.

Lemma zip_length {A B C} (f : A -> B -> C) l l' : length (zip_with f l l') = Nat.min (length l) (length l').
Proof. unfold zip_with. rewrite map_length, combine_length. reflexivity. Qed.
Lemma zip_nth {A B C} (f : A -> B -> C) d e h : forall l l' i, (i < length l)%nat -> (i < length l')%nat ->
  nth i (zip_with f l l') h = f (nth i l d) (nth i l' e).
Proof.
  unfold zip_with. induction l as [|x l IH]; intros [|y l'] [|i] H H'; cbn in *; try lia; [reflexivity|].
  apply IH; lia.
Qed.
Lemma zip_forall {A B C} (f : A -> B -> C) (P : C -> Prop) l l' :
  (forall x y, In x l -> In y l' -> P (f x y)) -> Forall P (zip_with f l l').
Proof.
  unfold zip_with. intros H. apply Forall_forall. intros z Hz. apply in_map_iff in Hz as ([x y] & <- & Hxy).
  apply H; [eapply in_combine_l; eauto|eapply in_combine_r; eauto].
Qed.
Lemma qsum_acc l : forall a, (fold_left Qplus l a == a + fold_right Qplus 0 l)%Q.
Proof. induction l as [|x l IH]; intros a; cbn [fold_left fold_right]; [lra|]. rewrite IH. lra. Qed.
Lemma qsum_right l : (qsum l == fold_right Qplus 0 l)%Q.
Proof. unfold qsum. rewrite qsum_acc. lra. Qed.
Lemma dot_qsum a b : (qsum (zip_with Qmult a b) == dot a b)%Q.
Proof.
  rewrite qsum_right. unfold zip_with. revert b. induction a as [|x a IH]; intros [|y b]; cbn; try reflexivity.
  rewrite IH. reflexivity.
Qed.
Lemma prod_shape B A x g : call_ok B A x -> call_ok B A g -> shape B A (prod_sum x g).
Proof.
  intros [H1 H2] [H3 H4]. split; [unfold prod_sum; rewrite zip_length; lia|].
  rewrite Forall_forall in H2, H4. apply zip_forall. intros r s Hr Hs. rewrite zip_length, H2, H4 by assumption. lia.
Qed.
Lemma prod_at B A x g b j : call_ok B A x -> call_ok B A g -> (b < B)%nat -> (j < A)%nat ->
  (at_ (prod_sum x g) b j == dot (pixels x b j) (pixels g b j))%Q.
Proof.
  intros [H1 H2] [H3 H4] Hb Hj. unfold at_, prod_sum, pixels.
  rewrite (zip_nth _ [] []) by lia. rewrite Forall_forall in H2, H4.
  rewrite (zip_nth _ [] []); [apply dot_qsum| |].
  - rewrite H2; [exact Hj|]. apply nth_In. lia.
  - rewrite H4; [exact Hj|]. apply nth_In. lia.
Qed.
Lemma madd_shape B A x y : shape B A x -> shape B A y -> shape B A (madd x y).
Proof.
  intros [H1 H2] [H3 H4]. split; [unfold madd; rewrite zip_length; lia|].
  rewrite Forall_forall in H2, H4. apply zip_forall. intros r s Hr Hs. rewrite zip_length, H2, H4 by assumption. lia.
Qed.
Lemma madd_at B A x y b j : shape B A x -> shape B A y -> (b < B)%nat -> (j < A)%nat ->
  at_ (madd x y) b j = (at_ x b j + at_ y b j)%Q.
Proof.
  intros [H1 H2] [H3 H4] Hb Hj. unfold at_, madd. rewrite (zip_nth _ [] []) by lia.
  rewrite Forall_forall in H2, H4. apply zip_nth.
  - rewrite H2; [exact Hj|]. apply nth_In. lia.
  - rewrite H4; [exact Hj|]. apply nth_In. lia.
Qed.
Lemma msum_ok B A l : l <> [] -> Forall (shape B A) l -> exists m, msum l = Some m /\ shape B A m /\
  forall b j, (b < B)%nat -> (j < A)%nat -> (at_ m b j == fold_right (fun x acc => at_ x b j + acc) 0 l)%Q.
Proof.
  destruct l as [|m l]; [congruence|]. intros _ H. inversion H as [|? ? Hm Hl]; subst. cbn [msum].
  eexists. split; [reflexivity|]. clear H. revert m Hm. induction Hl as [|x l Hx _ IH]; intros m Hm; cbn [fold_left].
  - split; [exact Hm|]. intros. cbn. lra.
  - destruct (IH (madd m x) (madd_shape B A m x Hm Hx)) as [I1 I2]. split; [exact I1|]. intros b j Hb Hj.
    rewrite I2 by assumption. cbn [fold_right]. rewrite (madd_at B A) by assumption. lra.
Qed.
Lemma scatter_ok mask : forall src, length src = actives mask ->
  exists row, scatter_row mask src = Ok row /\ length row = length mask /\
    forall c, (c < length mask)%nat ->
      nth c row 0%Q = if nth c mask false then nth (actives (firstn c mask)) src 0%Q else 0%Q.
Proof.
  unfold actives. induction mask as [|b mask IH]; intros src H; cbn [scatter_row].
  - exists []. repeat split. cbn. lia.
  - destruct b.
    + destruct src as [|x src]; [discriminate|]. cbn in H.
      destruct (IH src ltac:(lia)) as (row & E & L & N). rewrite E. exists (x :: row).
      split; [reflexivity|]. split; [cbn; lia|]. intros [|c] Hc; [reflexivity|]. cbn in Hc |- *. apply N. lia.
    + destruct (IH src H) as (row & E & L & N). rewrite E. exists (0%Q :: row).
      split; [reflexivity|]. split; [cbn; lia|]. intros [|c] Hc; [reflexivity|]. cbn in Hc |- *. apply N. lia.
Qed.
Lemma module_ok B mask r : rec_ok B (actives mask) r ->
  exists m, fisher_of_module mask r = Ok m /\ shape B (length mask) m /\
    forall b c, (b < B)%nat -> (c < length mask)%nat ->
      (at_ m b c == if nth c mask false then uses_sum (rec_input r) (rec_grad r) b (actives (firstn c mask)) else 0)%Q.
Proof.
  intros (Hne & Hl & Hx & Hg). set (A := actives mask) in *. unfold fisher_of_module.
  replace ((0 <? length (rec_input r))%nat && (length (rec_input r) =? length (rec_grad r))%nat) with true.
  2: { symmetry. apply andb_true_iff. split; [apply Nat.ltb_lt; destruct (rec_input r); [congruence|cbn; lia]|apply Nat.eqb_eq, Hl]. }
  cbn [assert_ bind].
  assert (Hsh : Forall (shape B A) (zip_with prod_sum (rec_input r) (rec_grad r))).
  { rewrite Forall_forall in Hx, Hg. apply zip_forall. intros x g H1 H2. apply prod_shape; auto. }
  destruct (fun H => msum_ok B A (zip_with prod_sum (rec_input r) (rec_grad r)) H Hsh) as (m & E & [Hm1 Hm2] & Hat).
  { intros F. assert (L : length (zip_with prod_sum (rec_input r) (rec_grad r)) = 0%nat) by (rewrite F; reflexivity).
    rewrite zip_length, <- Hl, Nat.min_id in L. destruct (rec_input r); [congruence|discriminate]. }
  rewrite E. fold (actives mask). fold A.
  replace (forallb (fun row => (length row =? A)%nat) m) with true.
  2: { symmetry. apply forallb_forall. rewrite Forall_forall in Hm2. intros row H. apply Nat.eqb_eq. auto. }
  assert (Hsum : forall b j, (b < B)%nat -> (j < A)%nat -> (at_ m b j == uses_sum (rec_input r) (rec_grad r) b j)%Q).
  { intros b j Hb Hj. rewrite Hat by assumption. clear - Hx Hg Hb Hj.
    revert Hx Hg. generalize (rec_grad r) as gs. generalize (rec_input r) as xs.
    induction xs as [|x xs IH]; intros [|g gs] Hx Hg; try reflexivity.
    change (zip_with prod_sum (x :: xs) (g :: gs)) with (prod_sum x g :: zip_with prod_sum xs gs).
    cbn [fold_right uses_sum]. inversion Hx as [|? ? X1 X2]; inversion Hg as [|? ? G1 G2]; subst.
    rewrite (prod_at B A) by assumption. rewrite (IH gs) by assumption. reflexivity. }
  assert (Hmap : exists ms, mapM (scatter_row mask) m = Ok ms /\ length ms = length m /\
     forall b, (b < length m)%nat -> length (nth b ms []) = length mask /\
       forall c, (c < length mask)%nat -> nth c (nth b ms []) 0%Q =
         if nth c mask false then nth (actives (firstn c mask)) (nth b m []) 0%Q else 0%Q).
  { clear - Hm2. subst A. induction Hm2 as [|row m Hr _ IH]; [exists []; split; [reflexivity|]; split; [reflexivity|]; intros b Hb; cbn in Hb; lia|].
    destruct IH as (ms & E & L & N). destruct (scatter_ok mask row Hr) as (row' & E' & L' & N').
    cbn [mapM]. rewrite E'. cbn [bind]. rewrite E. exists (row' :: ms). split; [reflexivity|].
    split; [cbn; lia|]. intros [|b] Hb; [cbn; auto|]. cbn in Hb |- *. apply N. lia. }
  destruct Hmap as (ms & E' & L & N). exists ms. split; [exact E'|]. split.
  - split; [lia|]. apply Forall_forall. intros row H. apply (In_nth _ _ []) in H as (b & Hb & <-). apply N. lia.
  - intros b c Hb Hc. unfold at_. destruct (N b ltac:(lia)) as [_ ->]; [|exact Hc].
    destruct (nth c mask false) eqn:Ec; [|reflexivity].
    apply (Hsum b (actives (firstn c mask)) Hb).
    clear - Ec Hc. unfold A, actives. revert c Ec Hc. induction mask as [|x mask IH]; intros [|c] Ec Hc; cbn in *; try lia.
    + subst x. cbn. lia.
    + specialize (IH c Ec ltac:(lia)). destruct x; cbn; lia.
Qed.

(** The importances added for one batch: the specification on the active channels (which
    are recorded at their rank among the active ones), zero on the pruned channels. *)
Theorem C80_importance :
  forall mask rs B, rs <> [] -> Forall (rec_ok B (actives mask)) rs ->
  exists f, batch_fisher mask rs = Ok f /\ length f = length mask /\
    forall c, (c < length mask)%nat ->
      (nth c mask false = true -> (nth c f 0 == spec_importance B rs (actives (firstn c mask)))%Q) /\
      (nth c mask false = false -> (nth c f 0 == 0)%Q).
Proof.
  intros mask rs B Hne Hrs. unfold batch_fisher.
  assert (Hm : exists ms, mapM (fisher_of_module mask) rs = Ok ms /\ length ms = length rs /\
     Forall (shape B (length mask)) ms /\
     forall b c, (b < B)%nat -> (c < length mask)%nat ->
       (fold_right (fun x acc => at_ x b c + acc) 0 ms ==
        if nth c mask false then channel_grad rs b (actives (firstn c mask)) else 0)%Q).
  { clear Hne. induction Hrs as [|r rs Hr _ IH].
    - exists []. split; [reflexivity|]. split; [reflexivity|]. split; [constructor|].
      intros. cbn. destruct (nth c mask false); reflexivity.
    - destruct IH as (ms & E & L & F & N). destruct (module_ok B mask r Hr) as (m & E' & Hsh & N').
      cbn [mapM]. rewrite E'. cbn [bind]. rewrite E. exists (m :: ms). split; [reflexivity|].
      split; [cbn; lia|]. split; [constructor; assumption|]. intros b c Hb Hc. cbn [fold_right].
      rewrite N by assumption. rewrite N' by assumption.
      destruct (nth c mask false); [reflexivity|lra]. }
  destruct Hm as (ms & E & L & F & N). rewrite E. cbn [bind].
  destruct (msum_ok B (length mask) ms) as (m & Em & [Hm1 Hm2] & Hat);
    [destruct ms, rs; cbn in L; congruence|exact F|]. rewrite Em.
  eexists. split; [reflexivity|]. unfold col_sums. split; [rewrite map_length, seq_length; reflexivity|].
  intros c Hc. rewrite (nth_indep _ 0%Q ((fun c0 => qsum (map (fun row => nth c0 row 0%Q) (map (map (fun x => x * x)%Q) m))) 0%nat))
    by (rewrite map_length, seq_length; exact Hc).
  rewrite (map_nth (fun c0 => qsum (map (fun row => nth c0 row 0%Q) (map (map (fun x => x * x)%Q) m)))).
  rewrite seq_nth by exact Hc. cbn [Nat.add]. rewrite qsum_right, map_map.
  assert (Hrow : forall row, In row m -> (nth c (map (fun x => x * x) row) 0 = nth c row 0 * nth c row 0)%Q).
  { intros row Hr. rewrite Forall_forall in Hm2. specialize (Hm2 row Hr).
    rewrite (nth_indep _ 0%Q ((fun x => x * x)%Q 0%Q)) by (rewrite map_length; lia).
    apply (map_nth (fun x => x * x)%Q). }
  assert (Hseq : (fold_right Qplus 0 (map (fun row => nth c (map (fun x => x * x) row) 0) m) ==
     fold_right (fun b acc => at_ m b c * at_ m b c + acc) 0 (seq 0 (length m)))%Q).
  { assert (G : forall k pre l, m = pre ++ l -> k = length pre ->
      (fold_right Qplus 0 (map (fun row => nth c (map (fun x => x * x) row) 0) l) ==
       fold_right (fun b acc => at_ m b c * at_ m b c + acc) 0 (seq k (length l)))%Q).
    { intros k pre l. revert k pre. induction l as [|row l IHl]; intros k pre Hmp Hk; cbn [map fold_right length seq]; [reflexivity|].
      rewrite (IHl (S k) (pre ++ [row])).
      - rewrite Hrow by (rewrite Hmp; apply in_or_app; right; left; reflexivity).
        unfold at_. rewrite Hmp at 1 2. rewrite Hk. rewrite !app_nth2, Nat.sub_diag by lia. reflexivity.
      - rewrite Hmp, <- app_assoc. reflexivity.
      - rewrite app_length. cbn. lia. }
    apply (G 0%nat [] m); reflexivity. }
  rewrite Hseq, Hm1. unfold spec_importance.
  assert (Hb : forall b, In b (seq 0 B) -> (at_ m b c == if nth c mask false then channel_grad rs b (actives (firstn c mask)) else 0)%Q).
  { intros b Hb. apply in_seq in Hb. rewrite Hat by lia. apply N; lia. }
  revert Hb. generalize (seq 0 B). intros bs Hb.
  split; intros Ec; rewrite Ec in Hb; induction bs as [|b bs IH]; cbn [fold_right]; try reflexivity.
  - rewrite IH by (intros; apply Hb; right; assumption). rewrite (Hb b) by (left; reflexivity). reflexivity.
  - rewrite IH by (intros; apply Hb; right; assumption). rewrite (Hb b) by (left; reflexivity). lra.
Qed.
Print Assumptions C80_importance.
(** Three channels of which the middle one is pruned; one layer used twice, batch size 2. *)
Example C80_example :
  let x1 : call_t := [[[1; 2]; [3; 0]]; [[1; 1]; [0; 0]]]%Q in
  let g1 : call_t := [[[1; 1]; [2; 5]]; [[2; 0]; [1; 1]]]%Q in
  let x2 : call_t := [[[1; 0]; [1; 1]]; [[0; 1]; [2; 2]]]%Q in
  let g2 : call_t := [[[4; 0]; [1; 1]]; [[0; 3]; [1; 0]]]%Q in
  let r := hooks [Fwd x1; Fwd x2; Bwd g2; Bwd g1] in
  let mask := [true; false; true] in
  Forall (rec_ok 2 (actives mask)) [r] /\
  batch_fisher mask [r] = Ok [7 * 7 + 5 * 5; 0; 8 * 8 + 2 * 2]%Q.
Proof.
  cbv zeta. split; [|vm_compute; reflexivity].
  constructor; [|constructor]. split; [discriminate|]. repeat (split || constructor).
Qed.

(** * C81 - The normalisation is the number of FLOPs saved *)

(** Specification: the FLOPs of a layer for given active channel numbers. *)
Definition flops (op : fop) (ai ao : nat) : nat :=
  match op with
  | FConv g k0 k1 ic oc _ _ outs =>
      list_sum (map (fun hw => fst hw * snd hw * k0 * k1 * (if Nat.eqb g 1 then ai * ao else ao))%nat outs)
  | FLinear _ _ n => (n * (ai * ao))%nat
  end.
Definition act_in (op : fop) : nat := match op with FConv _ _ _ _ _ ai _ _ => ai | FLinear ai _ _ => ai end.
Definition act_out (op : fop) : nat := match op with FConv _ _ _ _ _ _ ao _ => ao | FLinear _ ao _ => ao end.
(** Supported layers: ordinary convolutions, depthwise convolutions (whose two active
    numbers agree), linear layers. *)
Definition supported (op : fop) : Prop :=
  match op with
  | FConv g _ _ ic oc ai ao _ => g = 1%nat \/ (g = ic /\ ic = oc /\ ai = ao)
  | FLinear _ _ _ => True
  end.
Definition depthwise (op : fop) : Prop :=
  match op with FConv g _ _ _ _ _ _ _ => g <> 1%nat | FLinear _ _ _ => False end.
(** How a layer depends on the unit: its output channels, its input channels, or both. *)
Inductive role : Type := OutOnly | InOnly | Both.
Definition saved (op : fop) (r : role) : nat :=
  (flops op (act_in op) (act_out op) -
   match r with
   | OutOnly => flops op (act_in op) (act_out op - 1)
   | InOnly => flops op (act_in op - 1) (act_out op)
   | Both => flops op (act_in op - 1) (act_out op - 1)
   end)%nat.
Definition outs_of (l : list (fop * role)) : list fop :=
  flat_map (fun p => match snd p with InOnly => [] | _ => [fst p] end) l.
Definition ins_of (l : list (fop * role)) : list fop :=
  flat_map (fun p => match snd p with OutOnly => [] | _ => [fst p] end) l.
Definition layer_ok (p : fop * role) : Prop :=
  supported (fst p) /\ (1 <= act_in (fst p))%nat /\ (1 <= act_out (fst p))%nat /\
  (depthwise (fst p) -> snd p = Both).
(** The full claim: the divisor equals the FLOPs saved by pruning one channel. *)
Definition C81_claim : Prop :=
  forall l, Forall layer_ok l -> delta_unit (outs_of l) (ins_of l) = Ok (list_sum (map (fun p => saved (fst p) (snd p)) l)).

Lemma sum_nat_list l : sum_nat l = list_sum l.
Proof.
  unfold sum_nat. rewrite <- (Nat.add_0_l (list_sum l)). generalize 0%nat.
  induction l as [|x l IH]; intros a; cbn; [lia|]. rewrite IH. unfold list_sum. cbn. lia.
Qed.
Lemma sum_sub {A} (f g h : A -> nat) l : (forall x, f x = (g x + h x)%nat) ->
  list_sum (map h l) = (list_sum (map f l) - list_sum (map g l))%nat.
Proof.
  intros H. assert (E : list_sum (map f l) = (list_sum (map g l) + list_sum (map h l))%nat); [|lia].
  induction l as [|x l IH]; cbn; [reflexivity|]. unfold list_sum in *. cbn. rewrite H, IH. lia.
Qed.

(** Per layer, for ordinary convolutions and linear layers. *)
Theorem C81_layer :
  forall op, supported op -> ~ depthwise op -> (1 <= act_in op)%nat -> (1 <= act_out op)%nat ->
    delta_out op = Ok (saved op OutOnly) /\ delta_in op = Ok (saved op InOnly).
Proof.
  intros [g k0 k1 ic oc ai ao outs|ai ao n] Hs Hd H1 H2; unfold saved; cbn in *.
  - assert (g = 1)%nat as -> by (destruct (Nat.eq_dec g 1); [assumption|contradiction]). unfold per_call. cbn [Nat.eqb].
    split; destruct outs as [|hw outs'] eqn:Eo; try reflexivity; rewrite <- Eo; rewrite sum_nat_list; f_equal;
      apply sum_sub; intros [h w]; cbn.
    + replace (ai * ao)%nat with (ai * (ao - 1) + ai)%nat by nia. ring.
    + replace (ai * ao)%nat with ((ai - 1) * ao + ao)%nat by nia. ring.
  - split; f_equal; nia.
Qed.
(** Units without depthwise layers and without layers on both sides. *)
Theorem C81_flops_partial :
  forall l, Forall layer_ok l -> Forall (fun p => snd p <> Both) l ->
    delta_unit (outs_of l) (ins_of l) = Ok (list_sum (map (fun p => saved (fst p) (snd p)) l)).
Proof.
  intros l Hok Hnb. unfold delta_unit.
  assert (G : exists a b, mapM delta_out (outs_of l) = Ok a /\ mapM delta_in (ins_of l) = Ok b /\
     (list_sum a + list_sum b)%nat = list_sum (map (fun p => saved (fst p) (snd p)) l)).
  { induction Hok as [|[op r] l (Hs & H1 & H2 & Hd) _ IH]; [exists [], []; auto|].
    inversion Hnb as [|? ? Hb Hnb']; subst. destruct (IH Hnb') as (a & b & Ea & Eb & E). cbn [fst snd] in *.
    assert (Hnd : ~ depthwise op) by (intros D; apply Hb, Hd, D).
    destruct (C81_layer op Hs Hnd H1 H2) as [D1 D2]. destruct r; [| |congruence].
    - exists (saved op OutOnly :: a), b. cbn [outs_of ins_of flat_map fst snd app mapM]. rewrite D1. cbn [bind].
      fold (outs_of l). rewrite Ea. split; [reflexivity|]. split; [exact Eb|]. unfold list_sum in *. cbn. lia.
    - exists a, (saved op InOnly :: b). cbn [outs_of ins_of flat_map fst snd app mapM]. rewrite D2. cbn [bind].
      fold (ins_of l). rewrite Eb. split; [exact Ea|]. split; [reflexivity|]. unfold list_sum in *. cbn. lia. }
  destruct G as (a & b & Ea & Eb & E). rewrite Ea. cbn [bind]. rewrite Eb. cbn [bind]. rewrite !sum_nat_list, E. reflexivity.
Qed.
(** A depthwise convolution belongs to the input and to the output side of its unit and is
    counted twice: 2 * (4*4*3*3) instead of 4*4*3*3. *)
Theorem C81_depthwise_refuted : ~ C81_claim.
Proof.
  intros H. specialize (H [(FConv 8 3 3 8 8 8 8 [(4, 4)], Both)]%nat).
  assert (O : Forall layer_ok [(FConv 8 3 3 8 8 8 8 [(4, 4)], Both)]%nat).
  { constructor; [|constructor]. split; [right; auto|]. split; [cbn; lia|]. split; [cbn; lia|]. reflexivity. }
  specialize (H O). vm_compute in H. discriminate.
Qed.
(** The doubling for every depthwise layer. *)
Theorem C81_depthwise_twice :
  forall c k0 k1 a outs, (1 <= a)%nat -> c <> 1%nat ->
    delta_unit [FConv c k0 k1 c c a a outs] [FConv c k0 k1 c c a a outs]
    = Ok (2 * saved (FConv c k0 k1 c c a a outs) Both)%nat.
Proof.
  intros c k0 k1 a outs Ha Hc. unfold delta_unit, saved. cbn -[list_sum sum_nat Nat.mul].
  unfold per_call. destruct (Nat.eqb_spec c 1) as [|_]; [contradiction|]. rewrite Nat.eqb_refl. cbn [andb].
  assert (E : list_sum (map (fun hw : nat * nat => fst hw * snd hw * k0 * k1)%nat outs)
     = (list_sum (map (fun hw => fst hw * snd hw * k0 * k1 * a) outs)
        - list_sum (map (fun hw => fst hw * snd hw * k0 * k1 * (a - 1)) outs))%nat).
  { apply sum_sub. intros [h w]. cbn [fst snd]. replace a with (a - 1 + 1)%nat at 1 by lia. ring. }
  destruct outs as [|o outs'] eqn:Eo; [reflexivity|]. rewrite <- Eo in *. cbn [bind]. rewrite <- E.
  rewrite !sum_nat_list. f_equal.
  generalize (list_sum (map (fun hw : nat * nat => fst hw * snd hw * k0 * k1)%nat outs)). intros n.
  unfold list_sum. cbn [fold_right]. lia.
Qed.
(** Normalised importances are proportional to the recorded ones, and a unit without
    recorded cost is rejected. *)
Theorem C81_normalize :
  forall delta f, (delta = 0%nat -> normalize_flops delta f = Raise AssertionError) /\
    ((0 < delta)%nat -> exists f', normalize_flops delta f = Ok f' /\ length f' = length f /\
       forall c, (nth c f' 0 * inject_Z (Z.of_nat delta) == nth c f 0 * inject_Z 1000000000)%Q).
Proof.
  intros delta f. unfold normalize_flops. split.
  - intros ->. reflexivity.
  - intros H. destruct (Nat.ltb_spec 0 delta); [|lia]. cbn [assert_ bind]. eexists. split; [reflexivity|].
    split; [apply map_length|]. intros c.
    assert (Hd : ~ (inject_Z (Z.of_nat delta) == 0)%Q).
    { unfold Qeq, inject_Z. cbn. lia. }
    destruct (Nat.lt_ge_cases c (length f)) as [Hc|Hc].
    + rewrite (nth_indep _ 0%Q ((fun x => x / (inject_Z (Z.of_nat delta) / inject_Z 1000000000))%Q 0%Q)) by (rewrite map_length; exact Hc).
      rewrite (map_nth (fun x => x / (inject_Z (Z.of_nat delta) / inject_Z 1000000000))%Q).
      field. exact Hd.
    + rewrite !nth_overflow by (rewrite ?map_length; exact Hc). ring.
Qed.
Print Assumptions C81_layer.
Print Assumptions C81_flops_partial.
Print Assumptions C81_depthwise_refuted.
Print Assumptions C81_depthwise_twice.
Print Assumptions C81_normalize.
Example C81_example :
  let l := [(FConv 1 3 3 16 8 12 8 [(10, 10); (5, 5)], OutOnly); (FLinear 8 4 1, InOnly)]%nat in
  Forall layer_ok l /\ Forall (fun p => snd p <> Both) l /\
  delta_unit (outs_of l) (ins_of l) = Ok (125 * 9 * 12 + 4)%nat /\
  normalize_flops 2 [4; 0]%Q = Ok [4 / (inject_Z 2 / inject_Z 1000000000); 0 / (inject_Z 2 / inject_Z 1000000000)]%Q.
Proof.
  cbv zeta. split; [repeat constructor; cbn; lia || tauto|]. split; [repeat constructor; discriminate|].
  split; vm_compute; reflexivity.
Qed.

(** * C82 - Checkpoints at resource thresholds *)

Fixpoint descending (l : list Q) : Prop :=
  match l with
  | [] => True
  | x :: r => match r with [] => True | y :: _ => (y <= x)%Q end /\ descending r
  end.
Lemma insert_desc_perm x l : Permutation (insert_desc x l) (x :: l).
Proof.
  induction l as [|y l IH]; cbn; [reflexivity|]. destruct (Qle_bool y x); [reflexivity|].
  rewrite IH. apply perm_swap.
Qed.
Lemma sort_desc_perm l : Permutation (sort_desc l) l.
Proof. induction l as [|x l IH]; cbn; [reflexivity|]. rewrite insert_desc_perm, IH. reflexivity. Qed.
Lemma insert_desc_sorted x l : descending l -> descending (insert_desc x l).
Proof.
  induction l as [|y l IH]; cbn [insert_desc]; intros H; [split; exact I|].
  destruct (Qle_bool y x) eqn:E; [split; [apply Qle_bool_iff, E|exact H]|].
  assert (L : (x <= y)%Q) by (destruct (Qlt_le_dec x y) as [F|F]; [apply Qlt_le_weak, F|apply Qle_bool_iff in F; congruence]).
  destruct l as [|z l]; [split; [exact L|split; exact I]|]. destruct H as [H1 H2]. specialize (IH H2). cbn [insert_desc] in *.
  destruct (Qle_bool z x) eqn:E2.
  - split; [exact L|exact IH].
  - split; [exact H1|exact IH].
Qed.
Lemma sort_desc_sorted l : descending (sort_desc l).
Proof. induction l as [|x l IH]; cbn; [exact I|]. apply insert_desc_sorted, IH. Qed.

Definition is_check (interval : Z) (ip : Z * Q) : bool := fst ip mod interval =? 0.
(** The full claim: once the resource has fallen below every threshold at some check, all
    checkpoints exist; and different thresholds give different files. *)
Definition C82_claim : Prop :=
  forall interval thr its, interval <> 0 -> its <> [] ->
    (exists i p, In (i, p) its /\ i mod interval = 0 /\ forall t, In t thr -> (p < t)%Q) ->
    forall t, In t thr -> exists p, In (t, p) (rh_saved (rhook_run interval false its (rhook_init thr))).
Definition C82_names_claim : Prop := forall t u : Q, ~ (t == u)%Q -> cents t <> cents u.

Lemma rhook_iter_inv interval early i p h :
  let h' := rhook_iter interval early i p h in
  map fst (rh_saved h') ++ rh_thr h' = map fst (rh_saved h) ++ rh_thr h /\
  (exists ext, rh_saved h' = rh_saved h ++ ext /\ (length ext <= 1)%nat /\
     Forall (fun tp => (snd tp < fst tp)%Q /\ snd tp = p /\ i mod interval = 0) ext) /\
  (rh_exit h = false -> (rh_exit h' = true <-> early = true /\ rh_thr h' = [])).
Proof.
  unfold rhook_iter. cbv zeta.
  set (h1 := match rh_thr h with t :: r => _ | [] => h end).
  assert (H1 : map fst (rh_saved h1) ++ rh_thr h1 = map fst (rh_saved h) ++ rh_thr h /\
     (exists ext, rh_saved h1 = rh_saved h ++ ext /\ (length ext <= 1)%nat /\
        Forall (fun tp => (snd tp < fst tp)%Q /\ snd tp = p /\ i mod interval = 0) ext) /\ rh_exit h1 = rh_exit h).
  { subst h1. destruct (rh_thr h) as [|t r] eqn:Et.
    - split; [rewrite Et; reflexivity|]. split; [|reflexivity]. exists []. rewrite app_nil_r. repeat split; [cbn; lia|constructor].
    - destruct ((i mod interval =? 0) && negb (Qle_bool t p)) eqn:E.
      + apply andb_true_iff in E as [E1 E2]. cbn. split; [rewrite map_app, <- app_assoc; reflexivity|]. split; [|reflexivity].
        exists [(t, p)]. split; [reflexivity|]. split; [cbn; lia|]. constructor; [|constructor]. cbn.
        split; [|split; [reflexivity|apply Z.eqb_eq, E1]]. apply Qnot_le_lt. intros F. apply Qle_bool_iff in F. rewrite F in E2. discriminate.
      + split; [rewrite Et; reflexivity|]. split; [|reflexivity]. exists []. rewrite app_nil_r. repeat split; [cbn; lia|constructor]. }
  destruct H1 as (A1 & A2 & A3). destruct (rh_thr h1) as [|t r] eqn:Et; destruct early; cbn [andb];
    cbn [rh_thr rh_saved rh_exit]; rewrite ?Et; (split; [exact A1|]; split; [exact A2|]); intros Hx; rewrite ?A3, ?Hx.
  - tauto.
  - split; [discriminate|intros [F _]; discriminate].
  - split; [discriminate|intros [_ F]; discriminate].
  - split; [discriminate|intros [F _]; discriminate].
Qed.

(** The checkpoints written are, in descending order, the largest thresholds, each once,
    each at a check that found the resource strictly below it; training is stopped exactly
    when early stopping is on and none is left. *)
Theorem C82_saved :
  forall interval early thr its,
    let h := rhook_run interval early its (rhook_init thr) in
    (exists rest, Permutation (map fst (rh_saved h) ++ rest) thr /\ descending (map fst (rh_saved h) ++ rest) /\
       (its <> [] -> (rh_exit h = true <-> early = true /\ rest = []))) /\
    Forall (fun tp => (snd tp < fst tp)%Q /\ exists i, In (i, snd tp) its /\ i mod interval = 0) (rh_saved h).
Proof.
  intros interval early thr its.
  assert (G : forall its h, 
     (rh_exit h = true -> early = true /\ rh_thr h = []) ->
     let h' := rhook_run interval early its h in
     map fst (rh_saved h') ++ rh_thr h' = map fst (rh_saved h) ++ rh_thr h /\
     (exists ext, rh_saved h' = rh_saved h ++ ext /\
        Forall (fun tp => (snd tp < fst tp)%Q /\ exists i, In (i, snd tp) its /\ i mod interval = 0) ext) /\
     (rh_exit h' = true -> early = true /\ rh_thr h' = []) /\
     (its <> [] -> early = true -> rh_thr h' = [] -> rh_exit h' = true)).
  { clear. induction its as [|[i p] its IH]; intros h Hx; cbn [rhook_run].
    - split; [reflexivity|]. split; [exists []; rewrite app_nil_r; split; [reflexivity|constructor]|].
      split; [exact Hx|congruence].
    - destruct (rh_exit h) eqn:Ex.
      + split; [reflexivity|]. split; [exists []; rewrite app_nil_r; split; [reflexivity|constructor]|].
        split; [intros; auto|auto].
      + destruct (rhook_iter_inv interval early i p h) as (A1 & (e1 & A2 & _ & A3) & A4).
        specialize (A4 Ex). set (h1 := rhook_iter interval early i p h) in *.
        destruct (IH h1 ltac:(apply A4)) as (B1 & (e2 & B2 & B3) & B4 & B5).
        split; [congruence|]. split; [|split; [exact B4|]].
        * exists (e1 ++ e2). split; [rewrite B2, A2, app_assoc; reflexivity|]. apply Forall_app. split.
          -- eapply Forall_impl; [|exact A3]. intros [t q] (H1 & H2 & H3). cbn in *. subst q. split; [exact H1|].
             exists i. auto.
          -- eapply Forall_impl; [|exact B3]. intros [t q] (H1 & j & H2 & H3). split; [exact H1|]. exists j. cbn in *. auto.
        * intros _ He Hr. destruct its as [|ip its]; [cbn in *; apply A4; auto|]. apply B5; [discriminate|exact He|exact Hr]. }
  destruct (G its (rhook_init thr)) as (B1 & (e & B2 & B3) & B4 & B5); [discriminate|]. cbv zeta.
  set (h := rhook_run interval early its (rhook_init thr)) in *. cbn in B1, B2. split.
  - exists (rh_thr h). rewrite B1. split; [apply sort_desc_perm|]. split; [apply sort_desc_sorted|].
    intros Hne. split; [exact B4|]. intros [He Hr]. apply B5; assumption.
  - rewrite B2. exact B3.
Qed.

(** With as many low checks as thresholds, every checkpoint is written. *)
Theorem C82_all_saved_partial :
  forall interval thr its tail,
    Forall (fun ip => fst ip mod interval = 0 /\ forall t, In t thr -> (snd ip < t)%Q) tail ->
    (length thr <= length tail)%nat ->
    Permutation (map fst (rh_saved (rhook_run interval false (its ++ tail) (rhook_init thr)))) thr.
Proof.
  intros interval thr its tail Ht Hl.
  assert (App : forall a b h, rh_exit h = false -> rhook_run interval false (a ++ b) h = rhook_run interval false b (rhook_run interval false a h) /\
       rh_exit (rhook_run interval false a h) = false).
  { clear. induction a as [|[i p] a IH]; intros b h Hx; cbn [app rhook_run]; [auto|]. rewrite Hx.
    apply IH. destruct (rhook_iter_inv interval false i p h) as (_ & _ & A). specialize (A Hx).
    destruct (rh_exit (rhook_iter interval false i p h)); [|reflexivity]. destruct (proj1 A eq_refl). discriminate. }
  destruct (App its tail (rhook_init thr) eq_refl) as [-> Hx].
  destruct (C82_saved interval false thr its) as ((rest & Hp & _ & _) & _).
  set (h := rhook_run interval false its (rhook_init thr)) in *.
  assert (Hth : map fst (rh_saved h) ++ rh_thr h = sort_desc thr).
  { subst h. clear. assert (G : forall l h, rh_exit h = false ->
      map fst (rh_saved (rhook_run interval false l h)) ++ rh_thr (rhook_run interval false l h) = map fst (rh_saved h) ++ rh_thr h).
    { induction l as [|[i p] l IH]; intros h Hx; cbn [rhook_run]; [reflexivity|]. rewrite Hx.
      destruct (rhook_iter_inv interval false i p h) as (A1 & _ & A). specialize (A Hx). rewrite IH; [exact A1|].
      destruct (rh_exit (rhook_iter interval false i p h)); [|reflexivity]. destruct (proj1 A eq_refl). discriminate. }
    rewrite G; reflexivity. }
  clearbody h. clear Hp rest.
  assert (Hlen : (length (rh_thr h) <= length tail)%nat).
  { apply (f_equal (@length Q)) in Hth. rewrite app_length, (Permutation_length (sort_desc_perm thr)) in Hth. lia. }
  clear Hl. assert (Hall : incl (rh_thr h) thr).
  { intros t H. apply (Permutation_in _ (sort_desc_perm thr)). rewrite <- Hth. apply in_or_app. auto. }
  assert (G : map fst (rh_saved (rhook_run interval false tail h)) = sort_desc thr).
  { rewrite <- Hth. clear Hth. revert h Hx Hlen Hall. induction Ht as [|[i p] tail [H1 H2] _ IH]; intros h Hx Hlen Hall.
    - cbn in *. destruct (rh_thr h); [|cbn in Hlen; lia]. rewrite app_nil_r. reflexivity.
    - cbn [rhook_run fst snd] in *. rewrite Hx. destruct (rhook_iter_inv interval false i p h) as (A1 & _ & A). specialize (A Hx).
      assert (Hx' : rh_exit (rhook_iter interval false i p h) = false).
      { destruct (rh_exit (rhook_iter interval false i p h)); [|reflexivity]. destruct (proj1 A eq_refl). discriminate. }
      rewrite IH; [exact A1|exact Hx'| |].
      + unfold rhook_iter. rewrite H1. cbn [Z.eqb andb]. destruct (rh_thr h) as [|t r] eqn:Et; [rewrite Et; cbn; lia|].
        destruct (Qle_bool t p) eqn:E.
        * apply Qle_bool_iff in E. specialize (H2 t (Hall t (or_introl eq_refl))). lra.
        * cbn in *. lia.
      + intros t H. apply Hall. assert (In t (map fst (rh_saved (rhook_iter interval false i p h)) ++ rh_thr (rhook_iter interval false i p h)))
          by (apply in_or_app; auto). clear - H. unfold rhook_iter in H. cbn [andb] in H.
        destruct (rh_thr h) as [|t0 r] eqn:Et; [rewrite Et in H; exact H|].
        destruct ((i mod interval =? 0) && negb (Qle_bool t0 p)); cbn in H; [right; exact H|rewrite Et in H; exact H]. }
  rewrite G. apply sort_desc_perm.
Qed.
(** One check writes at most one checkpoint: thresholds 1/2 and 2/5, a single check at 3/10. *)
Theorem C82_delay_refuted : ~ C82_claim.
Proof.
  intros H. specialize (H 10 [1 # 2; 2 # 5]%Q [(10, (3 # 10)%Q)] ltac:(discriminate) ltac:(discriminate)).
  destruct (H) with (t := (2 # 5)%Q) as (p & Hp).
  - exists 10, (3 # 10)%Q. split; [left; reflexivity|]. split; [reflexivity|].
    intros t [<-|[<-|[]]]; reflexivity.
  - right. left. reflexivity.
  - vm_compute in Hp. destruct Hp as [Hp|[]]. inversion Hp.
Qed.
(** The thresholds 0.501 and 0.502 are written to the same file. *)
Theorem C82_names_refuted : ~ C82_names_claim.
Proof.
  intros H. apply (H (501 # 1000) (502 # 1000))%Q; [|vm_compute; reflexivity].
  intros E. unfold Qeq in E. cbn in E. discriminate.
Qed.
(** Thresholds that are whole hundredths do not collide. *)
Theorem C82_names_partial : forall a b : Z, a <> b -> cents (a # 100) <> cents (b # 100).
Proof.
  assert (C : forall a, cents (a # 100) = a).
  { intros a. unfold cents.
    assert (E : ((a # 100) * inject_Z 200 + 1 == inject_Z (2 * a + 1))%Q) by (unfold Qeq, Qplus, Qmult, inject_Z; cbn [Qnum Qden]; lia).
    rewrite (Qround.Qfloor_comp _ _ E), Qround.Qfloor_Z.
    replace ((2 * a + 1) / 2) with a by (apply Z.div_unique with 1; lia).
    destruct (Qeq_bool _ _) eqn:F; [|reflexivity]. apply Qeq_bool_iff in F. rewrite E in F.
    unfold Qeq, inject_Z in F. cbn [Qnum Qden] in F. lia. }
  intros a b. rewrite !C. auto.
Qed.
Print Assumptions C82_saved.
Print Assumptions C82_all_saved_partial.
Print Assumptions C82_delay_refuted.
Print Assumptions C82_names_refuted.
Print Assumptions C82_names_partial.
Example C82_example :
  let h := rhook_run 10 true [(5, (1 # 10)%Q); (10, (45 # 100)%Q); (20, (3 # 10)%Q); (30, (1 # 10)%Q)] (rhook_init [2 # 5; 1 # 2]%Q) in
  rh_saved h = [(1 # 2, 45 # 100); (2 # 5, 3 # 10)]%Q /\ rh_exit h = true /\ cents (1 # 2) = 50.
Proof. vm_compute. auto. Qed.

(** A unit no layer reads from has no importance. *)
Theorem C80_no_layers : forall mask, batch_fisher mask [] = Raise AttributeError.
Proof. reflexivity. Qed.
Example C80_no_layers_example : batch_fisher [true; false] [] = Raise AttributeError.
Proof. reflexivity. Qed.
Print Assumptions C80_no_layers.
(** Grouped convolutions other than depthwise ones are not supported, once they were called. *)
Theorem C81_grouped : forall g k0 k1 ic oc ai ao outs, g <> 1%nat -> ~ (g = ic /\ ic = oc) -> outs <> [] ->
  delta_out (FConv g k0 k1 ic oc ai ao outs) = Raise NotImplementedError /\ delta_in (FConv g k0 k1 ic oc ai ao outs) = Raise NotImplementedError.
Proof.
  intros g k0 k1 ic oc ai ao outs G N O. cbn [delta_out delta_in]. unfold per_call. destruct outs as [| o outs]; [congruence |].
  destruct (Nat.eqb_spec g 1) as [| _]; [contradiction |]. destruct (Nat.eqb_spec g ic) as [A | A]; cbn [andb]; [| split; reflexivity].
  destruct (Nat.eqb_spec ic oc) as [B | B]; [tauto | split; reflexivity].
Qed.
Example C81_grouped_example : delta_out (FConv 2 3 3 4 8 4 8 [(7, 7)])%nat = Raise NotImplementedError /\ delta_out (FConv 2 3 3 4 8 4 8 [])%nat = Ok 0%nat.
Proof. split; reflexivity. Qed.
Print Assumptions C81_grouped.
