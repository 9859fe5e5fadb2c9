(** C104 - which units the analyzer keeps; C106 - which units are prunable. *)
From Verif Require Import Prelude PyNum Channel_Model Channel_Lemmas Divisible_Model Mutator_Model.

(** * C104 *)

(** ** Specification *)
(** [a] is [b] with some entries left out. *)
Inductive subseq {A} : list A -> list A -> Prop :=
| sub_nil : subseq [] []
| sub_keep : forall x a b, subseq a b -> subseq (x :: a) (x :: b)
| sub_drop : forall x a b, subseq a b -> subseq a (x :: b).

(** The units kept can all be pruned together. *)
Definition C104_claim : Prop :=
  forall passes try, let kept := fst (find_mutable (length try) passes try) in
    kept <> [] -> passes kept = true.

(** ** Theorems *)
(** Units 0 and 1 each pass alone but not together; both are kept. *)
Theorem C104_together_refuted : ~ C104_claim.
Proof.
  intros H. specialize (H (fun l => Nat.leb (length l) 1) [0%nat; 1%nat]). cbn in H.
  assert (X : [0%nat; 1%nat] <> []) by (intros E; discriminate E). specialize (H X). discriminate H.
Qed.
Print Assumptions C104_together_refuted.

Lemma subseq_refl {A} (l : list A) : subseq l l.
Proof. induction l; constructor; auto. Qed.
Lemma subseq_nil {A} (l : list A) : subseq [] l.
Proof. induction l; constructor; auto. Qed.
Lemma subseq_app {A} (a b a' b' : list A) : subseq a b -> subseq a' b' -> subseq (a ++ a') (b ++ b').
Proof. intros H; induction H; cbn; intros; [assumption|constructor; auto|constructor; auto]. Qed.
Lemma subseq_in {A} (a b : list A) x : subseq a b -> In x a -> In x b.
Proof. intros H; induction H; cbn; intros I; [exact I| |right; auto]. destruct I as [->|I]; [left|right]; auto. Qed.

Lemma half (l : list nat) : (1 < length l)%nat -> (1 <= length l / 2 < length l)%nat.
Proof.
  intros H. pose proof (Nat.div_mod (length l) 2 ltac:(lia)). pose proof (Nat.mod_upper_bound (length l) 2 ltac:(lia)). lia.
Qed.

Lemma fm_step fuel passes try :
  (1 < length try)%nat -> passes try = false ->
  find_mutable (S fuel) passes try =
  let h := (length try / 2)%nat in
  (fst (find_mutable fuel passes (firstn h try)) ++ fst (find_mutable fuel passes (skipn h try)),
   try :: snd (find_mutable fuel passes (firstn h try)) ++ snd (find_mutable fuel passes (skipn h try))).
Proof.
  intros H P. destruct try as [|x r]; [cbn in H; lia|]. unfold find_mutable at 1; fold find_mutable. rewrite P.
  assert (E : Nat.eqb (length (x :: r)) 1 = false) by (apply Nat.eqb_neq; lia). rewrite E. cbv zeta.
  destruct (find_mutable fuel passes (firstn _ _)), (find_mutable fuel passes (skipn _ _)). reflexivity.
Qed.
Lemma fm_pass fuel passes try :
  try <> [] -> passes try = true -> find_mutable fuel passes try = (try, [try]).
Proof. intros H P. destruct try as [|x r]; [congruence|]. destruct fuel; cbn; rewrite P; reflexivity. Qed.
Lemma fm_one fuel passes x :
  passes [x] = false -> find_mutable fuel passes [x] = ([], [[x]]).
Proof. intros P. destruct fuel; cbn; rewrite P; reflexivity. Qed.

(** Induction over the runs of [find_mutable]. *)
Lemma fm_ind (passes : list nat -> bool) (P : list nat -> list nat * list (list nat) -> Prop) :
  P [] ([], []) ->
  (forall try, try <> [] -> passes try = true -> P try (try, [try])) ->
  (forall x, passes [x] = false -> P [x] ([], [[x]])) ->
  (forall l r a b, l <> [] -> r <> [] -> passes (l ++ r) = false -> P l a -> P r b ->
     P (l ++ r) (fst a ++ fst b, (l ++ r) :: snd a ++ snd b)) ->
  forall fuel try, (length try <= fuel)%nat -> P try (find_mutable fuel passes try).
Proof.
  intros H0 Hp H1 Hs. induction fuel as [|f IH]; intros try L.
  - destruct try; [exact H0|cbn in L; lia].
  - destruct try as [|x r]; [exact H0|]. destruct (passes (x :: r)) eqn:E.
    + rewrite fm_pass by (auto; discriminate). apply Hp; [discriminate|exact E].
    + destruct r as [|y r]; [rewrite fm_one by exact E; apply H1; exact E|].
      set (t := x :: y :: r) in *. assert (T : (1 < length t)%nat) by (subst t; cbn; lia).
      rewrite fm_step by assumption. cbv zeta. destruct (half t T) as [B1 B2].
      set (h := (length t / 2)%nat) in *. rewrite <- (firstn_skipn h t) at 1.
      replace (t :: _) with ((firstn h t ++ skipn h t) :: snd (find_mutable f passes (firstn h t)) ++ snd (find_mutable f passes (skipn h t)))
        by (rewrite firstn_skipn; reflexivity).
      apply Hs.
      * intros X. apply (f_equal (@length nat)) in X. rewrite firstn_length in X. cbn [length] in X. lia.
      * intros X. apply (f_equal (@length nat)) in X. rewrite skipn_length in X. cbn [length] in X. lia.
      * rewrite firstn_skipn. exact E.
      * apply IH. rewrite firstn_length. lia.
      * apply IH. rewrite skipn_length. lia.
Qed.

(** The units kept are some of the units given, in order; a unit is dropped only if the model
    fails with that unit shrunk alone; every unit kept was shrunk in a passing run; and the model
    is run at most once fewer than twice the number of units. *)
Theorem C104_find_mutable :
  forall passes try,
    let '(kept, tried) := find_mutable (length try) passes try in
    subseq kept try /\
    (forall x, In x try -> passes [x] = true -> In x kept) /\
    (forall x, In x kept -> exists block, In block tried /\ In x block /\ passes block = true /\ subseq block try) /\
    (length tried <= 2 * length try - 1)%nat /\
    (passes try = true -> kept = try).
Proof.
  intros passes try.
  apply (fm_ind passes (fun try r => let '(kept, tried) := r in
    subseq kept try /\
    (forall x, In x try -> passes [x] = true -> In x kept) /\
    (forall x, In x kept -> exists block, In block tried /\ In x block /\ passes block = true /\ subseq block try) /\
    (length tried <= 2 * length try - 1)%nat /\
    (passes try = true -> kept = try))); [| | | |lia].
  - repeat split; [constructor|intros x []|intros x []|cbn; lia].
  - intros t N P. split; [apply subseq_refl|]. split; [auto|]. split; [|split; [|auto]].
    + intros x I. exists t. split; [left; reflexivity|]. split; [exact I|]. split; [exact P|apply subseq_refl].
    + destruct t; [congruence|cbn; lia].
  - intros x P. split; [apply subseq_nil|]. split; [|split; [intros y []|split; [cbn; lia|congruence]]].
    intros y [<-|[]] Q. congruence.
  - intros l r [ka ta] [kb tb] Nl Nr F (A1 & A2 & A3 & A4 & _) (B1 & B2 & B3 & B4 & _). cbn [fst snd].
    split; [apply subseq_app; assumption|]. split; [|split; [|split]].
    + intros x I P. apply in_or_app. apply in_app_or in I. destruct I as [I|I]; [left|right]; auto.
    + intros x I. apply in_app_or in I. destruct I as [I|I].
      * destruct (A3 x I) as (bl & I1 & I2 & I3 & I4). exists bl. split; [right; apply in_or_app; auto|]. split; [exact I2|]. split; [exact I3|].
        rewrite <- (app_nil_r bl). apply subseq_app; [exact I4|apply subseq_nil].
      * destruct (B3 x I) as (bl & I1 & I2 & I3 & I4). exists bl. split; [right; apply in_or_app; auto|]. split; [exact I2|]. split; [exact I3|].
        change bl with ([] ++ bl). apply subseq_app; [apply subseq_nil|exact I4].
    + cbn [length]. rewrite !app_length. destruct l as [|l0 l]; [congruence|]. destruct r as [|r0 r]; [congruence|]. cbn [length] in *. lia.
    + congruence.
Qed.
Print Assumptions C104_find_mutable.

(** When the model runs for two sets of units together as soon as it runs for each of them, the
    units kept can be pruned together; and when it runs exactly if no bad unit is shrunk, exactly
    the good ones are kept.  Missing compared to the claim: units that disturb each other. *)
Theorem C104_together_partial :
  forall passes try,
    (forall a b, passes a = true -> passes b = true -> passes (a ++ b) = true) ->
    let kept := fst (find_mutable (length try) passes try) in
    kept <> [] -> passes kept = true.
Proof.
  intros passes try C.
  apply (fm_ind passes (fun try r => fst r <> [] -> passes (fst r) = true)); cbn [fst]; [congruence|auto|congruence| |lia].
  intros l r [ka ta] [kb tb] _ _ _ A B N. cbn [fst] in *. destruct ka as [|a ka]; [apply B; exact N|].
  destruct kb as [|b kb]; [rewrite app_nil_r; apply A; discriminate|]. apply C; [apply A|apply B]; discriminate.
Qed.
Print Assumptions C104_together_partial.

Theorem C104_exactly_the_good :
  forall (bad : nat -> bool) passes try,
    (forall l, passes l = negb (existsb bad l)) ->
    fst (find_mutable (length try) passes try) = filter (fun x => negb (bad x)) try.
Proof.
  intros bad passes try H.
  assert (G : forall t, existsb bad t = false -> filter (fun x => negb (bad x)) t = t).
  { induction t as [|x t IH]; [reflexivity|]. cbn. destruct (bad x); [discriminate|]. cbn. intros E. rewrite (IH E). reflexivity. }
  apply (fm_ind passes (fun try r => fst r = filter (fun x => negb (bad x)) try)); cbn [fst]; [reflexivity| | | |lia].
  - intros t _ P. rewrite H in P. symmetry. apply G. destruct (existsb bad t); [discriminate|reflexivity].
  - intros x P. rewrite H in P. cbn in *. destruct (bad x); [reflexivity|discriminate].
  - intros l r a b _ _ _ A B. rewrite A, B, filter_app. reflexivity.
Qed.
Print Assumptions C104_exactly_the_good.
(** Five units of which unit 3 breaks the model: it is dropped after seven runs. *)
Example C104_case :
  find_mutable 5 (fun l => negb (existsb (Nat.eqb 3) l)) [0; 1; 2; 3; 4]%nat
  = ([0; 1; 2; 4]%nat, [[0; 1; 2; 3; 4]; [0; 1]; [2; 3; 4]; [2]; [3; 4]; [3]; [4]]%nat).
Proof. reflexivity. Qed.

(** * C106 *)

(** A channel that pruning may shrink, and one whose module takes part in pruning. *)
Definition shrinkable (mi : minfo) (c : chan) : Prop :=
  match mi (ch_name c) with
  | Some (true, dyn) => dyn = true
  | Some (false, _) => True
  | None => ch_name c <> 0%nat /\ ch_name c <> 1%nat
  end.
Definition dynamic (mi : minfo) (c : chan) : Prop := exists p, mi (ch_name c) = Some (p, true).

Lemma chan_mutable_iff mi c : chan_mutable mi c = true <-> shrinkable mi c.
Proof.
  unfold chan_mutable, shrinkable, placeholder. destruct (mi (ch_name c)) as [[p d]|].
  - destruct p, d; cbn; intuition congruence.
  - destruct (Nat.eqb_spec (ch_name c) 0) as [E|E], (Nat.eqb_spec (ch_name c) 1) as [F|F]; cbn; intuition (try congruence; try lia).
Qed.
Lemma chan_dynamic_iff mi c : chan_dynamic mi c = true <-> dynamic mi c.
Proof.
  unfold chan_dynamic, dynamic. destruct (mi (ch_name c)) as [[p d]|]; [|split; [discriminate|intros [p E]; discriminate]].
  split; [intros ->; eauto|]. intros [p' E]. congruence.
Qed.
Lemma traverse_spec mi l h :
  snd (traverse mi l h) = true <-> Forall (shrinkable mi) l.
Proof.
  revert h. induction l as [|c l IH]; intros h; [split; [constructor|reflexivity]|]. cbn [traverse].
  destruct (chan_mutable mi c) eqn:E.
  - apply chan_mutable_iff in E. rewrite IH. split; [constructor; auto|intros H; inversion H; auto].
  - cbn [snd]. split; [discriminate|]. intros H. inversion H as [|a b A B]; subst. apply chan_mutable_iff in A. congruence.
Qed.
Lemma traverse_dyn mi l h :
  snd (traverse mi l h) = true -> (fst (traverse mi l h) = true <-> h = true \/ Exists (dynamic mi) l).
Proof.
  revert h. induction l as [|c l IH]; intros h; cbn [traverse].
  - cbn. intros _. split; [auto|intros [H|H]; [exact H|inversion H]].
  - destruct (chan_mutable mi c); [|discriminate]. intros S. rewrite (IH _ S). rewrite orb_true_iff, chan_dynamic_iff.
    split; [intros [[A|A]|A]; auto|intros [A|A]; [auto|]]. inversion A; subst; auto.
Qed.

(** A unit is prunable exactly if a dynamic op reads its channels, a dynamic op writes them, and
    nothing related to it forbids shrinking. *)
Theorem C106_is_mutable :
  forall mi u,
    is_mutable mi u = true <->
    Exists (dynamic mi) (m_in u) /\ Exists (dynamic mi) (m_out u) /\
    Forall (shrinkable mi) (m_in u ++ m_out u).
Proof.
  intros mi u. unfold is_mutable.
  pose proof (traverse_spec mi (m_in u) false) as A1. pose proof (traverse_dyn mi (m_in u) false) as A2.
  pose proof (traverse_spec mi (m_out u) false) as B1. pose proof (traverse_dyn mi (m_out u) false) as B2.
  destruct (traverse mi (m_in u) false) as [id ia], (traverse mi (m_out u) false) as [od oa]. cbn [fst snd] in *.
  rewrite !andb_true_iff, Forall_app. split.
  - intros (((((_ & _) & I) & J) & K) & L). subst. destruct (proj1 (A2 eq_refl) eq_refl) as [X|X]; [discriminate|].
    destruct (proj1 (B2 eq_refl) eq_refl) as [Y|Y]; [discriminate|]. tauto.
  - intros (I & O & FI & FO). assert (ia = true) by tauto. assert (oa = true) by tauto. subst.
    assert (id = true) by (apply A2; auto). assert (od = true) by (apply B2; auto). subst.
    repeat split; apply negb_true_iff, Nat.eqb_neq; intros E.
    + destruct (m_out u); [inversion O|discriminate].
    + destruct (m_in u); [inversion I|discriminate].
Qed.
Print Assumptions C106_is_mutable.
Definition ex_mi : minfo := fun n =>
  match n with 2 => Some (true, true) | 3 => Some (true, true) | 4 => Some (true, false) | 5 => Some (false, false) | _ => None end%nat.
Definition ex_unit (i o : list nat) : munit :=
  let c out n := {| ch_name := n; ch_start := 0; ch_end := 8; ch_out := out |} in
  {| m_cls := CSeq; m_cfg := {| u_n := 8; u_num := true; u_div := 1; u_min := 1; u_ratio := 9 # 10 |};
     m_cands := []; m_in := map (c false) i; m_out := map (c true) o; m_name := None; m_ch := new_seq 8 true |}.
(** 2 and 3 are dynamic ops, 4 holds parameters that cannot be pruned, 5 is a ReLU, 1 the output. *)
Example C106_case :
  is_mutable ex_mi (ex_unit [3; 5]%nat [2; 5]%nat) = true /\
  is_mutable ex_mi (ex_unit [3; 4]%nat [2]%nat) = false /\
  is_mutable ex_mi (ex_unit [3; 1]%nat [2]%nat) = false /\
  is_mutable ex_mi (ex_unit [5]%nat [2]%nat) = false.
Proof. repeat split; reflexivity. Qed.
