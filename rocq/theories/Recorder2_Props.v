(** C27, continued: nothing is recorded outside a block; negative record indices. *)
From Verif Require Import Prelude Recorder_Model Recorder_Props.

Lemma exit_on rs : forall w r, In r rs -> r_kind r = RModule -> w_on (exit_all rs w) (r_id r) = false.
Proof.
  assert (K : forall rs w i, w_on w i = false -> w_on (exit_all rs w) i = false).
  { induction rs0 as [|r rs0 IH]; intros w i H; [exact H|]. change (w_on (exit_all rs0 (exit_ r w)) i = false). apply IH.
    unfold exit_. destruct (r_kind r); cbn; auto. unfold upd. destruct (Nat.eqb (r_id r) i); auto. }
  induction rs as [|r0 rs IH]; intros w r Hin Hk; [destruct Hin|]. change (w_on (exit_all rs (exit_ r0 w)) (r_id r) = false).
  destruct Hin as [->|Hin]; [|apply IH; assumption]. apply K. unfold exit_. rewrite Hk. cbn. apply upd_same.
Qed.
Lemma step_outside rs w e : (forall t, exists n, w_env w t = FOrig n) -> (forall r, In r rs -> r_kind r = RModule -> w_on w (r_id r) = false) ->
  w_buf (step rs w e) = w_buf w.
Proof.
  intros He Ho. destruct e as [t [v|]|n [v|]]; cbn [step]; try reflexivity.
  - destruct (He t) as [k ->]. reflexivity.
  - cbn [set_buf w_buf]. generalize (w_buf w) as b. revert Ho. induction rs as [|r rs IH]; intros Ho b; [reflexivity|]. cbn [fold_left].
    destruct (r_kind r) eqn:Ek; try (apply IH; intros; apply Ho; [right; assumption|assumption]).
    rewrite (Ho r (or_introl eq_refl) Ek), andb_false_r. apply IH. intros. apply Ho; [right; assumption|assumption].
Qed.
(** After the blocks, whatever the program calls or runs, no recorder's data changes. *)
Theorem C27_outside_block :
  forall rs bs evs later w, NoDup (map r_id rs) -> pristine w -> separate rs -> built_in rs w ->
    forall r, In r rs ->
      data_of (fold_left (step rs) later (run_block rs evs (run_blocks rs bs w))) r = data_of (run_block rs evs (run_blocks rs bs w)) r.
Proof.
  intros rs bs evs later w Hnd Hp Hs Hb r Hin. set (w1 := run_block rs evs (run_blocks rs bs w)).
  assert (Ew : forall t, exists n, w_env w1 t = FOrig n).
  { intros t. unfold w1. assert (E : run_block rs evs (run_blocks rs bs w) = run_blocks rs (bs ++ [evs]) w).
    { unfold run_blocks. rewrite fold_left_app. reflexivity. }
    rewrite E, C26_restored_partial by assumption. apply Hp. }
  assert (Eo : forall r, In r rs -> r_kind r = RModule -> w_on w1 (r_id r) = false).
  { intros r' Hr' Hk. unfold w1, run_block. apply exit_on; assumption. }
  clearbody w1. revert w1 Ew Eo. induction later as [|e later IH]; intros w1 Ew Eo; [reflexivity|]. cbn [fold_left].
  destruct (step_env rs w1 e) as (A & B & _ & D). rewrite IH.
  - unfold data_of. rewrite B, step_outside by assumption. reflexivity.
  - rewrite A. exact Ew.
  - rewrite D. exact Eo.
Qed.
Print Assumptions C27_outside_block.
Example C27_outside_block_case :
  let w := run_block ex_rs ex_evs w_start in
  data_of (fold_left (step ex_rs) [EForward "conv" (Some (VAtom 9)); ECall "m.f" (Some (VAtom 8))] w) (nth 3 ex_rs {| r_id := 0; r_kind := RFunc; r_target := "" |})
  = [VAtom 5] /\
  (* the same events inside the block are recorded *)
  data_of (run_block ex_rs (ex_evs ++ [EForward "conv" (Some (VAtom 9))]) w_start) (nth 3 ex_rs {| r_id := 0; r_kind := RFunc; r_target := "" |})
  = [VAtom 5; VAtom 9].
Proof. split; vm_compute; reflexivity. Qed.

(** Negative indices count from the end; below the first record the error is IndexError, not
    the assertion that guards the other side. *)
Theorem C27_negative_index :
  forall (buf : list val) (k : nat),
    get_record_data buf (- Z.of_nat (S k)) None =
    if (k <? length buf)%nat then match nth_error (rev buf) k with Some v => Ok v | None => Raise KeyError end
    else Raise IndexError.
Proof.
  intros buf k. unfold get_record_data, py_index.
  destruct (Z.ltb_spec (- Z.of_nat (S k)) (Z.of_nat (length buf))); [|lia]. cbn [assert_ bind].
  destruct (Z.ltb_spec (- Z.of_nat (S k)) 0); [|lia]. destruct (Nat.ltb_spec k (length buf)) as [L|L].
  - destruct (Z.ltb_spec (- Z.of_nat (S k) + Z.of_nat (length buf)) 0); [lia|].
    replace (Z.to_nat (- Z.of_nat (S k) + Z.of_nat (length buf))) with (length buf - S k)%nat by lia.
    assert (E : nth_error (rev buf) k = nth_error buf (length buf - S k)).
    { destruct (nth_error buf (length buf - S k)) as [v|] eqn:E.
      - rewrite <- (rev_involutive buf) in E at 1.
        assert (D : forall d, nth k (rev buf) d = v).
        { intros d. rewrite rev_nth by exact L. apply nth_error_nth with (d := d) in E. rewrite rev_involutive in E. exact E. }
        rewrite <- (D (VAtom 0)). apply nth_error_nth'. rewrite rev_length. exact L.
      - apply nth_error_None in E. lia. }
    rewrite E. destruct (nth_error buf (length buf - S k)) eqn:E2; [reflexivity|]. apply nth_error_None in E2. lia.
  - destruct (Z.ltb_spec (- Z.of_nat (S k) + Z.of_nat (length buf)) 0); [reflexivity|lia].
Qed.
Print Assumptions C27_negative_index.
Example C27_negative_index_case :
  get_record_data [VAtom 1; VAtom 2] (-2) None = Ok (VAtom 1) /\ get_record_data [VAtom 1; VAtom 2] (-3) None = Raise IndexError /\
  get_record_data [VAtom 1; VAtom 2] 2 None = Raise AssertionError.
Proof. repeat split. Qed.
