(** C15 (values of new entries, listed subnets) and C16 (metrics that are not estimated). *)
From Verif Require Import Prelude Candidates_Model Candidates_Props.

(** What appending an item does: a plain subnet becomes an object of its own whose four
    indicators are -1; an existing dictionary keeps its keys and every recorded number, and
    gets 0 for what it lacks.  All other objects stay as they are. *)
Theorem C15_append :
  forall w it w', extend w [it] = Ok w' ->
    exists id, w_data w' = w_data w ++ [id] /\
      match it with
      | Plain s => id = length (w_heap w) /\
          nth_error (w_heap w') id = Some [(s, fun _ => Some (-1)%Q)]
      | Ref i => id = i /\ exists o o', nth_error (w_heap w) id = Some o /\
          nth_error (w_heap w') id = Some o' /\ map fst o' = map fst o /\
          forall j nm v nm' v', nth_error o j = Some (nm, v) -> nth_error o' j = Some (nm', v') ->
            forall k, v' k = match v k with Some x => Some x | None => Some 0%Q end
      end /\
      forall j, j <> id -> nth_error (w_heap w') j = nth_error (w_heap w) j.
Proof.
  intros w it w' H. unfold extend in H. cbn [format_items] in H.
  destruct it as [s|i]; cbn [format_item] in H.
  - cbn in H. inversion H; subst. cbn. exists (length (w_heap w)). split; [reflexivity|].
    split; [split; [reflexivity|]|].
    + rewrite nth_error_app2, Nat.sub_diag by lia. reflexivity.
    + intros j Hj. destruct (Nat.lt_ge_cases j (length (w_heap w))).
      * apply nth_error_app1. auto.
      * rewrite (proj2 (nth_error_None (w_heap w) j)) by auto. apply nth_error_None. rewrite app_length. cbn. lia.
  - destruct (nth_error (w_heap w) i) as [[|p o]|] eqn:E; cbn in H; try discriminate.
    inversion H; subst. cbn. exists i. split; [reflexivity|]. split.
    + split; [reflexivity|]. exists (p :: o). eexists. split; [exact E|].
      rewrite nth_hupd, Nat.eqb_refl, E. cbn [option_map]. split; [reflexivity|]. split.
      { rewrite map_map. reflexivity. }
      intros j nm v nm' v' H1 H2 k. rewrite nth_error_map, H1 in H2. cbn in H2. inversion H2; subst.
      unfold fill. cbn. unfold setdefault.
      destruct (v Score) eqn:E1; destruct (v Flops) eqn:E2; destruct (v Params) eqn:E3; destruct (v Latency) eqn:E4;
        unfold vset; cbn; rewrite ?E1, ?E2, ?E3, ?E4; cbn; rewrite ?E1, ?E2, ?E3, ?E4; cbn;
        rewrite ?E1, ?E2, ?E3, ?E4; cbn; destruct k; cbn; rewrite ?E1, ?E2, ?E3, ?E4; reflexivity.
    + intros j Hj. rewrite nth_hupd. destruct (Nat.eqb_spec i j); [congruence|reflexivity].
Qed.
Print Assumptions C15_append.
Example C15_append_case :
  let w := crun [NewDict [("a"%string, fun k => match k with Score => Some (3#1) | _ => None end)];
                 Extend [Plain "b"; Ref 0]] in
  w_data w = [1; 0]%nat /\ column w Score = [(-1)%Q; (3#1)] /\ column w Flops = [(-1)%Q; 0%Q].
Proof. vm_compute. auto. Qed.

(** [insert] puts the new entry at index [i]; negative indices count from the end, and
    indices out of range are clamped. *)
Theorem C15_insert :
  forall w i it w', insert w i it = Ok w' ->
    let n := Z.of_nat (length (w_data w)) in
    exists l1 l2 id, w_data w = l1 ++ l2 /\ w_data w' = l1 ++ id :: l2 /\
      extend w [it] = Ok {| w_heap := w_heap w'; w_data := w_data w ++ [id] |} /\
      (0 <= i <= n -> Z.of_nat (length l1) = i) /\ (n < i -> l2 = []) /\
      (- n <= i < 0 -> Z.of_nat (length l2) = - i) /\ (i < - n -> l1 = []).
Proof.
  intros w i it w' H n. unfold insert in H. destruct (format_item (w_heap w) it) as [[h id]|] eqn:F; cbn in H; [|discriminate].
  apply Ok_inj in H. subst w'. cbn [w_data w_heap]. set (p := insert_pos (length (w_data w)) i).
  exists (firstn p (w_data w)), (skipn p (w_data w)), id.
  split; [symmetry; apply firstn_skipn|]. split; [reflexivity|].
  split; [unfold extend; cbn [format_items]; rewrite F; reflexivity|].
  assert (P : (p <= length (w_data w))%nat).
  { unfold p, insert_pos. destruct (Z.ltb_spec i 0); lia. }
  rewrite firstn_length, skipn_length. unfold p, insert_pos, n in *.
  destruct (Z.ltb_spec i 0).
  - repeat split; intros; try lia. rewrite Z.max_l by lia. reflexivity.
  - repeat split; intros; try lia. rewrite Nat.min_l by lia. apply skipn_all.
Qed.
Print Assumptions C15_insert.
Example C15_insert_case :
  w_data (crun [Extend [Plain "a"; Plain "b"; Plain "c"]; Insert 1 (Plain "d"); Insert (-1) (Plain "e")]) = [0; 3; 1; 4; 2]%nat.
Proof. reflexivity. Qed.

(** A negative index addresses the entry counted from the end; out of range it raises. *)
Theorem C15_set_index :
  forall w i x k, let n := Z.of_nat (length (w_data w)) in
    (0 <= i < n -> set_resource w (i - n) x k = set_resource w i x k /\
       exists id, nth_error (w_data w) (Z.to_nat i) = Some id /\
         set_resource w i x k = Ok {| w_heap := hupd (w_heap w) id (set_parts k x); w_data := w_data w |}) /\
    (i < - n \/ n <= i -> set_resource w i x k = Raise IndexError).
Proof.
  intros w i x k n. unfold set_resource, py_nth. fold n. split.
  - intros R. destruct (Z.ltb_spec (i - n) 0); [|lia]. destruct (Z.ltb_spec i 0); [lia|].
    destruct (Z.ltb_spec (n + (i - n)) 0); [lia|]. replace (n + (i - n)) with i by lia. split; [reflexivity|].
    destruct (nth_error (w_data w) (Z.to_nat i)) as [id|] eqn:E; [eauto|].
    apply nth_error_None in E. lia.
  - intros R. destruct (Z.ltb_spec i 0).
    + destruct (Z.ltb_spec (n + i) 0); [reflexivity|lia].
    + rewrite (proj2 (nth_error_None (w_data w) (Z.to_nat i))) by lia. reflexivity.
Qed.
Print Assumptions C15_set_index.
Example C15_set_index_case :
  let w := crun [Extend [Plain "a"; Plain "b"]; SetResource (-1) (5#1) Flops] in
  column w Flops = [(-1)%Q; (5#1)].
Proof. reflexivity. Qed.

(** With one subnet per entry the listed subnets are the entries' keys, in order; in the
    two-part format one subnet is listed per entry. *)
Theorem C15_subnets :
  forall w, w_data w <> [] ->
    (forall id, In id (w_data w) -> exists nm v, nth_error (w_heap w) id = Some [(nm, v)] /\ nm <> "value_subnet"%string) ->
    exists l, subnets w = Ok l /\ length l = length (w_data w) /\
      forall j id, nth_error (w_data w) j = Some id ->
        exists nm v, nth_error (w_heap w) id = Some [(nm, v)] /\ nth_error l j = Some nm.
Proof.
  intros w NE H. unfold subnets. destruct (w_data w) as [|id0 r] eqn:D; [congruence|].
  destruct (H id0 (or_introl eq_refl)) as (nm0 & v0 & E0 & N0). rewrite E0. cbn [existsb fst].
  destruct (String.eqb_spec nm0 "value_subnet"); [congruence|]. cbn [orb]. eexists. split; [reflexivity|].
  clear D NE E0 N0 n. revert H. generalize (id0 :: r) as l. clear id0 r nm0 v0.
  induction l as [|id l IH]; intros H.
  - split; [reflexivity|]. intros [|j] id E; discriminate.
  - destruct (H id (or_introl eq_refl)) as (nm & v & E & _).
    destruct IH as [L V]; [intros; apply H; right; auto|].
    cbn [flat_map length]. rewrite E. cbn [map app fst length]. split; [congruence|].
    intros [|j] id' E'; cbn in E' |- *.
    + inversion E'; subst. eauto.
    + apply V. exact E'.
Qed.
Theorem C15_subnets_two_part :
  forall w id0 r o v, w_data w = id0 :: r -> nth_error (w_heap w) id0 = Some o ->
    In ("value_subnet"%string, v) o ->
    exists l, subnets w = Ok l /\ length l = length (w_data w).
Proof.
  intros w id0 r o v D E I. unfold subnets. rewrite D, E.
  rewrite (proj2 (existsb_exists _ o)).
  - eexists. split; [reflexivity|]. apply map_length.
  - exists ("value_subnet"%string, v). split; [exact I|]. reflexivity.
Qed.
Print Assumptions C15_subnets.
Print Assumptions C15_subnets_two_part.
Example C15_subnets_case : subnets (crun [Extend [Plain "x"; Plain "y"]]) = Ok ["x"; "y"]%string.
Proof. reflexivity. Qed.
Example C15_subnets_two_part_case :
  subnets (crun [NewDict two_part; Extend [Ref 0; Ref 0]]) = Ok ["value_subnet"; "value_subnet"]%string.
Proof. reflexivity. Qed.

(** A constraint on a metric that is not estimated is never passed: once the constraints
    before it hold the check raises KeyError, and if one of them fails the answer is no. *)
Theorem C16_missing_metric :
  forall results pre k c post,
    NoDup (map fst results) ->
    (forall k c, In (k, c) pre -> In k (map fst results)) -> ~ In k (map fst results) ->
    check_resources results (Some (pre ++ (k, c) :: post)) =
    match check_resources results (Some pre) with Ok true => Raise KeyError | o => o end.
Proof.
  intros results pre k c post ND A N. cbn [check_resources].
  induction pre as [|[k0 c0] pre IH]; cbn [app check_loop].
  - assert (F : find (fun p => String.eqb (fst p) k) results = None).
    { destruct (find _ results) as [[k1 x]|] eqn:F; [|reflexivity]. apply find_some in F as [I E].
      apply String.eqb_eq in E. cbn in E. subst k1. exfalso. apply N. change k with (fst (k, x)). apply in_map. exact I. }
    rewrite F. destruct c; reflexivity.
  - destruct (match c0 with Between lo hi => (lo, hi) | AtMost hi => (0%Q, hi) end) as [lo hi].
    destruct (find _ results) as [p|] eqn:F.
    + destruct (_ || _); [reflexivity|]. apply IH. intros; eapply A; right; eassumption.
    + reflexivity.
Qed.
Print Assumptions C16_missing_metric.
Example C16_missing_case :
  check_resources [("flops"%string, 3%Q)] (Some [("flops"%string, AtMost 5); ("latency"%string, AtMost 1)]) = Raise KeyError.
Proof. reflexivity. Qed.
