(** C15, C16. *)
From Verif Require Import Prelude Candidates_Model.
From Coq Require Import Permutation Sorted.

(** * Stable sorting *)
Section Stable.
Context {A : Type} (key : A -> Q).
Definition desc (x y : A) : bool := negb (Qle_bool (key x) (key y)).   (* key x > key y *)
Definition asc (x y : A) : bool := negb (Qle_bool (key y) (key x)).    (* key x < key y *)

Lemma ins_perm before (x : A) l : Permutation (stable_insert before x l) (x :: l).
Proof.
  induction l as [|y r IH]; cbn; [reflexivity|]. destruct (before y x); [|reflexivity].
  rewrite IH. apply perm_swap.
Qed.
Lemma stable_perm before (l : list A) : Permutation (stable_sort before l) l.
Proof.
  induction l as [|x r IH]; cbn; [reflexivity|]. unfold stable_sort in IH. rewrite ins_perm, IH. reflexivity.
Qed.

Lemma ins_sorted (rel : A -> A -> Prop) before x l :
  (forall a b, before a b = true -> rel a b) ->
  (forall a b, before a b = false -> rel b a) ->
  (forall a b c, rel a b -> rel b c -> rel a c) ->
  StronglySorted rel l -> StronglySorted rel (stable_insert before x l).
Proof.
  intros H1 H2 H3 Hs. induction Hs as [|y r Hs IH Hf]; cbn; [repeat constructor|].
  destruct (before y x) eqn:E.
  - constructor; [exact IH|]. apply Forall_forall. intros z Hz.
    apply (Permutation_in _ (ins_perm before x r)) in Hz as [<-|Hz]; [apply H1; exact E|].
    rewrite Forall_forall in Hf. apply Hf. exact Hz.
  - constructor; [constructor; assumption|]. constructor; [apply H2; exact E|].
    apply H2 in E. rewrite Forall_forall in *. intros z Hz. eapply H3; eauto.
Qed.
Lemma stable_sorted (rel : A -> A -> Prop) before l :
  (forall a b, before a b = true -> rel a b) ->
  (forall a b, before a b = false -> rel b a) ->
  (forall a b c, rel a b -> rel b c -> rel a c) ->
  StronglySorted rel (stable_sort before l).
Proof.
  intros H1 H2 H3. induction l as [|x r IH]; cbn; [constructor|]. apply ins_sorted; auto.
Qed.

(** Equal elements keep their relative order. *)
Lemma ins_filter before (p : A -> bool) x l :
  (forall y, p x = true -> p y = true -> before y x = false) ->
  filter p (stable_insert before x l) = filter p (x :: l).
Proof.
  intros H. induction l as [|y r IH]; [reflexivity|]. cbn [stable_insert].
  destruct (before y x) eqn:E; [|reflexivity]. cbn [filter]. rewrite IH. cbn [filter].
  destruct (p y) eqn:Ey; destruct (p x) eqn:Ex; try reflexivity.
  rewrite (H y eq_refl Ey) in E. discriminate.
Qed.
Lemma stable_filter before (p : A -> bool) l :
  (forall x y, p x = true -> p y = true -> before y x = false) ->
  filter p (stable_sort before l) = filter p l.
Proof.
  intros H. induction l as [|x r IH]; [reflexivity|]. cbn [stable_sort fold_right].
  change (fold_right (stable_insert before) [] r) with (stable_sort before r).
  rewrite ins_filter by auto. cbn [filter]. rewrite IH. reflexivity.
Qed.
End Stable.

Lemma Qle_bool_false a b : Qle_bool a b = false -> (b <= a)%Q.
Proof.
  intros H. apply Qlt_le_weak, Qnot_le_lt. intros Hc. apply Qle_bool_iff in Hc. congruence.
Qed.

(** * C15 *)

(** The four indicators of a dictionary are all present. *)
Definition complete (o : obj) : Prop := forall nm v k, In (nm, v) o -> v k <> None.

Lemma nth_hupd h i f j : nth_error (hupd h i f) j = if Nat.eqb i j then option_map f (nth_error h j) else nth_error h j.
Proof.
  revert i j. induction h as [|o h IH]; intros [|i] [|j]; cbn; try reflexivity.
  - destruct (Nat.eqb i j); reflexivity.
  - apply IH.
Qed.
Lemma len_hupd h i f : length (hupd h i f) = length h.
Proof. revert i. induction h as [|o h IH]; intros [|i]; cbn; auto. Qed.

Lemma fill_complete v k : fill v k <> None.
Proof.
  unfold fill. cbn. unfold setdefault.
  destruct (v Score) eqn:E1; destruct (v Flops) eqn:E2; destruct (v Params) eqn:E3; destruct (v Latency) eqn:E4;
    unfold vset; cbn; rewrite ?E1, ?E2, ?E3, ?E4; cbn; rewrite ?E1, ?E2, ?E3, ?E4; cbn;
    rewrite ?E1, ?E2, ?E3, ?E4; cbn; destruct k; cbn; rewrite ?E1, ?E2, ?E3, ?E4; discriminate.
Qed.
Lemma vset_complete v k x k' : v k' <> None -> vset v k x k' <> None.
Proof. unfold vset. destruct (ind_eqb k' k); [discriminate|auto]. Qed.
Lemma complete_map o (f : vals -> vals) : (forall v k, v k <> None -> f v k <> None) ->
  complete o -> complete (map (fun p => (fst p, f (snd p))) o).
Proof.
  intros Hf Ho nm v k Hin. apply in_map_iff in Hin as ([nm' v'] & He & Hin). inversion He; subst.
  apply Hf. eapply Ho. exact Hin.
Qed.
Lemma complete_fill o : complete (map (fun p => (fst p, fill (snd p))) o).
Proof.
  intros nm v k Hin. apply in_map_iff in Hin as ([nm' v'] & He & Hin). inversion He; subst. apply fill_complete.
Qed.
Lemma complete_set o k x : complete o -> complete (set_parts k x o).
Proof. unfold set_parts. intros H. apply (complete_map o (fun v => vset v k x)); [|exact H]. intros; apply vset_complete; assumption. Qed.
Lemma complete_upd o r : complete o -> complete (upd_parts r o).
Proof.
  unfold upd_parts. intros H.
  apply (complete_map o (fun v => fold_left (fun v kx => vset v (fst kx) (snd kx)) r v)); [|exact H].
  clear. induction r as [|kx r IH]; intros v k Hv; [exact Hv|]. cbn. apply IH. apply vset_complete. exact Hv.
Qed.

(** Every object of the heap that is part of the collection is complete and non-empty. *)
Definition ok_obj (h : list obj) (id : nat) : Prop := exists o, nth_error h id = Some o /\ o <> [] /\ complete o.
Definition Inv (w : world) : Prop := forall id, In id (w_data w) -> ok_obj (w_heap w) id.

Lemma ok_hupd h i f id : (forall o, o <> [] -> complete o -> f o <> [] /\ complete (f o)) ->
  ok_obj h id -> ok_obj (hupd h i f) id.
Proof.
  intros Hf (o & E & Hn & Hc). unfold ok_obj. rewrite nth_hupd, E. destruct (Nat.eqb i id); cbn.
  - destruct (Hf o Hn Hc). eauto.
  - eauto.
Qed.
Lemma map_nonnil {A B} (f : A -> B) l : l <> [] -> map f l <> [].
Proof. destruct l; cbn; congruence. Qed.

Lemma format_ok h it h' i : format_item h it = Ok (h', i) ->
  (forall id, ok_obj h id -> ok_obj h' id) /\ ok_obj h' i.
Proof.
  destruct it as [s|id0]; cbn; intros H.
  - inversion H; subst. split.
    + intros id (o & E & Ho). exists o. split; [|exact Ho]. rewrite nth_error_app1; [exact E|].
      apply nth_error_Some. congruence.
    + exists [(s, fresh_vals)]. split; [rewrite nth_error_app2 by lia; rewrite Nat.sub_diag; reflexivity|].
      split; [discriminate|]. intros nm v k [He|[]]. inversion He; subst. discriminate.
  - destruct (nth_error h id0) as [[|p o]|] eqn:E; try discriminate. inversion H; subst. split.
    + intros id. apply ok_hupd. intros o' Hn Hc. split; [apply map_nonnil; exact Hn|apply complete_fill].
    + exists (map (fun q => (fst q, fill (snd q))) (p :: o)). rewrite nth_hupd, Nat.eqb_refl, E. cbn [option_map].
      split; [reflexivity|]. split; [discriminate|apply complete_fill].
Qed.
Lemma formats_ok its : forall h h' is_, format_items h its = Ok (h', is_) ->
  (forall id, ok_obj h id -> ok_obj h' id) /\ (forall i, In i is_ -> ok_obj h' i) /\ length is_ = length its.
Proof.
  induction its as [|it its IH]; intros h h' is_ H; cbn in H.
  - inversion H; subst. split; [auto|]. split; [intros i []|reflexivity].
  - destruct (format_item h it) as [[h1 i]|] eqn:E1; cbn in H; [|discriminate].
    destruct (format_items h1 its) as [[h2 is2]|] eqn:E2; cbn in H; [|discriminate].
    inversion H; subst. destruct (format_ok _ _ _ _ E1) as [A1 A2]. destruct (IH _ _ _ E2) as (B1 & B2 & B3).
    split; [auto|]. split; [|cbn; congruence]. intros j [<-|Hj]; auto.
Qed.
Lemma update_loop_ok ids : forall h rs id, ok_obj h id -> ok_obj (update_loop h ids rs) id.
Proof.
  induction ids as [|i ids IH]; intros h rs id H; [destruct rs; exact H|]. destruct rs as [|r rs]; [exact H|].
  cbn. apply IH. apply ok_hupd; [|exact H]. intros o Hn Hc. split; [apply map_nonnil; exact Hn|apply complete_upd; exact Hc].
Qed.
Lemma mapM_length {A B} (f : A -> outcome B) l ys : mapM f l = Ok ys -> length ys = length l.
Proof.
  revert ys. induction l as [|x l IH]; intros ys H; cbn in H; [inversion H; reflexivity|].
  destruct (f x); cbn in H; [|discriminate]. destruct (mapM f l) eqn:E; cbn in H; [|discriminate].
  inversion H; subst. cbn. f_equal. apply IH. reflexivity.
Qed.
Lemma combine_snd {A B} (l : list A) (l' : list B) : length l = length l' -> map snd (combine l l') = l'.
Proof. revert l'. induction l as [|x l IH]; intros [|y l'] H; cbn in *; try discriminate; [reflexivity|]. f_equal. apply IH. lia. Qed.

Lemma exec_inv w c : Inv w -> match cexec w c with Ok w' => Inv w' | Raise _ => True end.
Proof.
  intros HI. destruct c as [o|its|i it|i x k|rs st|k r]; cbn [cexec].
  - intros id Hid. destruct (HI id Hid) as (o' & E & Ho). exists o'. split; [|exact Ho].
    cbn. rewrite nth_error_app1; [exact E|]. apply nth_error_Some. congruence.
  - unfold extend. destruct (format_items (w_heap w) its) as [[h is_]|] eqn:E; cbn; [|exact I].
    destruct (formats_ok _ _ _ _ E) as (A1 & A2 & _). intros id Hid. cbn in *.
    apply in_app_iff in Hid as [Hid|Hid]; auto.
  - unfold insert. destruct (format_item (w_heap w) it) as [[h j]|] eqn:E; cbn; [|exact I].
    destruct (format_ok _ _ _ _ E) as (A1 & A2). intros id Hid. cbn in *.
    apply in_app_iff in Hid as [Hid|[<-|Hid]]; auto; apply A1, HI.
    + rewrite <- (firstn_skipn (insert_pos (length (w_data w)) i)). apply in_app_iff. auto.
    + rewrite <- (firstn_skipn (insert_pos (length (w_data w)) i)). apply in_app_iff. auto.
  - unfold set_resource. destruct (py_nth (w_data w) i) as [id0|]; [|exact I]. intros id Hid. cbn in *.
    apply ok_hupd; [|apply HI; exact Hid]. intros o Hn Hc. split; [apply map_nonnil; exact Hn|apply complete_set; exact Hc].
  - unfold update_resources. destruct (_ <=? _)%nat; cbn; [|exact I]. intros id Hid. cbn in *.
    apply update_loop_ok. apply HI. exact Hid.
  - unfold sort_by. destruct (mapM _ (w_data w)) as [ks|] eqn:E; cbn; [|exact I]. intros id Hid. cbn in *.
    apply HI. rewrite <- (combine_snd ks (w_data w) (mapM_length _ _ _ E)).
    apply in_map_iff in Hid as (p & Hp & Hin). apply (Permutation_in _ (stable_perm _ _)) in Hin.
    apply in_map_iff. eauto.
Qed.
Lemma run_inv cs : Inv (crun cs).
Proof.
  unfold crun. assert (H : forall w, Inv w -> Inv (fold_left (fun w c => match cexec w c with Ok w' => w' | Raise _ => w end) cs w)).
  { induction cs as [|c cs IH]; intros w HI; [exact HI|]. cbn. apply IH.
    pose proof (exec_inv w c HI) as H. destruct (cexec w c); [exact H|exact HI]. }
  apply H. intros id [].
Qed.

(** After any history every entry carries all four indicators. *)
Theorem C15_entries_complete :
  forall cs id, In id (w_data (crun cs)) ->
  exists o, nth_error (w_heap (crun cs)) id = Some o /\ o <> [] /\
    forall nm v k, In (nm, v) o -> exists x, v k = Some x.
Proof.
  intros cs id Hid. destruct (run_inv cs id Hid) as (o & E & Hn & Hc). exists o. split; [exact E|]. split; [exact Hn|].
  intros nm v k Hin. specialize (Hc nm v k Hin). destruct (v k); [eauto|congruence].
Qed.
Print Assumptions C15_entries_complete.

(** Alignment of the columns with the entries. *)
Definition C15_claim_aligned : Prop :=
  forall cs, length (column (crun cs) Score) = length (w_data (crun cs)).
Definition two_part : obj := [("value_subnet"%string, fun _ => None); ("channel_subnet"%string, fun _ => None)].
(** One candidate in the documented value/channel format yields two scores but one subnet. *)
Theorem C15_aligned_refuted : ~ C15_claim_aligned.
Proof. intros H. specialize (H [NewDict two_part; Extend [Ref 0]]). vm_compute in H. discriminate. Qed.
Print Assumptions C15_aligned_refuted.

(** With single-part entries the i-th score, resource and subnet belong to the i-th entry. *)
Theorem C15_aligned_partial :
  forall cs, let w := crun cs in
    (forall id o, In id (w_data w) -> nth_error (w_heap w) id = Some o ->
       exists s v, o = [(s, v)] /\ s <> "value_subnet"%string) ->
    w_data w <> [] ->
    exists names, subnets w = Ok names /\ length names = length (w_data w) /\
      forall k, length (column w k) = length (w_data w) /\
      forall i id, nth_error (w_data w) i = Some id ->
        exists s v x, nth_error (w_heap w) id = Some [(s, v)] /\ v k = Some x /\
          nth_error names i = Some s /\ nth_error (column w k) i = Some x.
Proof.
  intros cs w H1 Hne. pose proof (run_inv cs) as HI. fold w in HI.
  set (nm := fun id => match nth_error (w_heap w) id with Some o => map fst o | None => [] end).
  assert (Hsub : subnets w = Ok (flat_map nm (w_data w))).
  { unfold subnets. destruct (w_data w) as [|id0 ids] eqn:Ed; [congruence|].
    destruct (HI id0) as (o & E & _); [rewrite Ed; left; reflexivity|]. rewrite E.
    destruct (H1 id0 o (or_introl eq_refl) E) as (s & v & -> & Hs).
    cbn. destruct (String.eqb_spec s "value_subnet"); [congruence|]. reflexivity. }
  exists (flat_map nm (w_data w)). split; [exact Hsub|].
  clear Hsub Hne. unfold column. revert HI H1. unfold Inv. generalize (w_data w) as ids.
  induction ids as [|id ids IH]; intros HI H1.
  - split; [reflexivity|]. intros k. split; [reflexivity|]. intros [|i] id H; discriminate.
  - destruct IH as [IH1 IH2]; [intros; apply HI; right; assumption|intros; eapply H1; [right; eassumption|eassumption]|].
    destruct (HI id (or_introl eq_refl)) as (o & E & _ & Hc).
    destruct (H1 id o (or_introl eq_refl) E) as (s & v & -> & Hs).
    assert (En : nm id = [s]) by (unfold nm; rewrite E; reflexivity).
    cbn [flat_map]. rewrite En, E. cbn [map app snd]. split; [cbn; congruence|].
    intros k. destruct (IH2 k) as [IH3 IH4]. split; [cbn; congruence|].
    intros [|i] id' Hid; cbn in Hid.
    + inversion Hid; subst. pose proof (Hc s v k (or_introl eq_refl)) as Hk.
      destruct (v k) as [x|] eqn:Ek; [|congruence]. exists s, v, x. cbn. rewrite Ek. auto.
    + destruct (IH4 i id' Hid) as (s' & v' & x & G1 & G2 & G3 & G4). exists s', v', x. auto.
Qed.
Print Assumptions C15_aligned_partial.

(** Writing one entry leaves the others alone. *)
Definition value_at (w : world) (i : nat) : option (list (string * list (option Q))) :=
  match nth_error (w_data w) i with
  | None => None
  | Some id => option_map (map (fun p => (fst p, map (snd p) [Score; Flops; Params; Latency])))
                          (nth_error (w_heap w) id)
  end.
Definition C15_claim_set : Prop :=
  forall cs i x k w' j, set_resource (crun cs) (Z.of_nat i) x k = Ok w' -> i <> j ->
    value_at w' j = value_at (crun cs) j.
(** Appending the same dictionary twice makes two entries that change together. *)
Theorem C15_set_resource_refuted : ~ C15_claim_set.
Proof.
  intros H.
  specialize (H [NewDict [("net"%string, fun _ => None)]; Extend [Ref 0]; Extend [Ref 0]] 0%nat 5%Q Score _ 1%nat eq_refl).
  assert (Hne : 0%nat <> 1%nat) by discriminate. specialize (H Hne). vm_compute in H. discriminate.
Qed.
Print Assumptions C15_set_resource_refuted.

Lemma nth_nodup_neq (l : list nat) i j a b : NoDup l -> nth_error l i = Some a -> nth_error l j = Some b -> i <> j -> a <> b.
Proof.
  intros Hnd Hi Hj Hne ->. apply Hne. eapply NoDup_nth_error; [exact Hnd| |congruence].
  apply nth_error_Some. congruence.
Qed.
Theorem C15_set_resource_partial :
  forall cs i x k w',
    NoDup (w_data (crun cs)) ->
    set_resource (crun cs) (Z.of_nat i) x k = Ok w' ->
    w_data w' = w_data (crun cs) /\
    (forall j, i <> j -> value_at w' j = value_at (crun cs) j) /\
    (exists o, (match nth_error (w_data (crun cs)) i with Some id => nth_error (w_heap w') id | None => None end) = Some o /\
       forall nm v, In (nm, v) o -> v k = Some x) /\
    (forall k', k' <> k -> column w' k' = column (crun cs) k').
Proof.
  intros cs i x k w' Hnd H. set (w := crun cs) in *. unfold set_resource, py_nth in H.
  destruct (Z.ltb_spec (Z.of_nat i) 0); [lia|]. rewrite Nat2Z.id in H.
  destruct (nth_error (w_data w) i) as [id|] eqn:Ei; [|discriminate]. inversion H; subst w'. cbn [w_data w_heap].
  split; [reflexivity|]. split; [|split].
  - intros j Hj. unfold value_at. cbn. destruct (nth_error (w_data w) j) as [id'|] eqn:Ej; [|reflexivity].
    rewrite nth_hupd. destruct (Nat.eqb_spec id id') as [<-|]; [|reflexivity].
    exfalso. eapply (nth_nodup_neq _ i j id id); eauto.
  - destruct (run_inv cs id) as (o & E & _); [apply nth_error_In with i; exact Ei|].
    exists (set_parts k x o). rewrite nth_hupd, Nat.eqb_refl. fold w in E. rewrite E. split; [reflexivity|].
    intros nm v Hin. apply in_map_iff in Hin as ([nm' v'] & He & _). inversion He; subst.
    unfold vset. cbn. destruct k; reflexivity.
  - intros k' Hk. unfold column. cbn. apply flat_map_ext. intros id'. rewrite nth_hupd.
    destruct (Nat.eqb id id'); [|reflexivity]. destruct (nth_error (w_heap w) id') as [o|]; [|reflexivity].
    cbn. unfold set_parts. rewrite map_map. apply map_ext. intros p. cbn. unfold vset.
    destruct k', k; cbn; try reflexivity; congruence.
Qed.
Print Assumptions C15_set_resource_partial.

(** update_resources writes exactly the addressed window (entries without aliasing). *)
Lemma update_loop_other : forall ids h rs id, ~ In id (firstn (length rs) ids) ->
  nth_error (update_loop h ids rs) id = nth_error h id.
Proof.
  induction ids as [|i ids IH]; intros h rs id H; [destruct rs; reflexivity|].
  destruct rs as [|r rs]; [reflexivity|]. cbn in *. rewrite IH by tauto. rewrite nth_hupd.
  destruct (Nat.eqb_spec i id) as [->|]; [tauto|reflexivity].
Qed.
Lemma update_loop_at : forall ids h rs j id r, NoDup ids ->
  nth_error ids j = Some id -> nth_error rs j = Some r ->
  nth_error (update_loop h ids rs) id = option_map (upd_parts r) (nth_error h id).
Proof.
  induction ids as [|i ids IH]; intros h rs j id r Hnd Hj Hr; [destruct j; discriminate|].
  destruct rs as [|r0 rs]; [destruct j; discriminate|]. inversion Hnd; subst. cbn.
  destruct j as [|j]; cbn in *.
  - inversion Hj; subst. inversion Hr; subst. rewrite update_loop_other.
    + rewrite nth_hupd, Nat.eqb_refl. reflexivity.
    + intros Hc. apply H1. rewrite <- (firstn_skipn (length rs)). apply in_app_iff. auto.
  - rewrite (IH _ rs j id r); auto. rewrite nth_hupd. destruct (Nat.eqb_spec i id) as [->|]; [|reflexivity].
    exfalso. apply H1. apply nth_error_In with j. exact Hj.
Qed.
Lemma nth_firstn_lt {A} (l : list A) n i : (i < n)%nat -> nth_error (firstn n l) i = nth_error l i.
Proof. revert n i. induction l as [|x l IH]; intros [|n] [|i] H; cbn; try lia; auto. apply IH. lia. Qed.
Lemma nth_skipn {A} (l : list A) n i : nth_error (skipn n l) i = nth_error l (n + i).
Proof. revert n. induction l as [|x l IH]; intros [|n]; cbn; auto. destruct i; reflexivity. Qed.
Lemma nodup_firstn {A} (l : list A) n : NoDup l -> NoDup (firstn n l).
Proof.
  revert n. induction l as [|x l IH]; intros [|n] H; cbn; try constructor; inversion H; subst.
  - intros Hc. apply H2. rewrite <- (firstn_skipn n). apply in_app_iff. auto.
  - auto.
Qed.
Lemma nodup_skipn {A} (l : list A) n : NoDup l -> NoDup (skipn n l).
Proof. revert n. induction l as [|x l IH]; intros [|n] H; cbn; auto. inversion H; auto. Qed.

Theorem C15_update_resources_partial :
  forall cs rs start,
    let w := crun cs in
    NoDup (w_data w) ->
    ((start + length rs > length (w_data w))%nat -> update_resources w rs start = Raise AssertionError) /\
    ((start + length rs <= length (w_data w))%nat -> exists w', update_resources w rs start = Ok w' /\
      w_data w' = w_data w /\
      (forall j, (j < start \/ start + length rs <= j)%nat -> value_at w' j = value_at w j) /\
      (forall j r id, nth_error rs j = Some r -> nth_error (w_data w) (start + j) = Some id ->
         exists o, nth_error (w_heap w) id = Some o /\ nth_error (w_heap w') id = Some (upd_parts r o))).
Proof.
  intros cs rs start w Hnd. unfold update_resources. split; intros Hl.
  - destruct (Nat.leb_spec (start + length rs) (length (w_data w))); [lia|reflexivity].
  - destruct (Nat.leb_spec (start + length rs) (length (w_data w))); [|lia]. cbn [assert_ bind].
    eexists. split; [reflexivity|]. cbn [w_data w_heap]. split; [reflexivity|].
    set (ids := firstn (length rs) (skipn start (w_data w))).
    assert (Hids : NoDup ids) by (apply nodup_firstn, nodup_skipn; exact Hnd).
    split.
    + intros j Hj. unfold value_at. cbn. destruct (nth_error (w_data w) j) as [id|] eqn:Ej; [|reflexivity].
      rewrite update_loop_other; [reflexivity|]. intros Hc.
      assert (Hc' : In id ids) by (rewrite <- (firstn_skipn (length rs) ids); apply in_app_iff; auto).
      apply In_nth_error in Hc' as [m Hm].
      assert (Hml : (m < length rs)%nat).
      { assert (m < length ids)%nat by (apply nth_error_Some; congruence). unfold ids in *. rewrite firstn_length in *. lia. }
      unfold ids in Hm. rewrite nth_firstn_lt in Hm by exact Hml. rewrite nth_skipn in Hm.
      assert (start + m = j)%nat; [|lia].
      apply (proj1 (NoDup_nth_error _) Hnd); [apply nth_error_Some; congruence|congruence].
    + intros j r id Hr Hid. destruct (run_inv cs id) as (o & E & _); [apply nth_error_In with (start + j)%nat; exact Hid|].
      exists o. split; [exact E|]. rewrite (update_loop_at ids _ rs j id r); auto.
      * fold w in E. rewrite E. reflexivity.
      * unfold ids. assert (j < length rs)%nat by (apply nth_error_Some; congruence).
        rewrite nth_firstn_lt by assumption. rewrite nth_skipn. exact Hid.
Qed.
Print Assumptions C15_update_resources_partial.

(** Appending and inserting keep the order of the other entries. *)
Theorem C15_entry_order :
  forall cs its i it,
    let w := crun cs in
    (forall w', extend w its = Ok w' -> exists new, w_data w' = w_data w ++ new /\ length new = length its) /\
    (forall w', insert w i it = Ok w' -> exists l1 l2 x, w_data w = l1 ++ l2 /\ w_data w' = l1 ++ x :: l2).
Proof.
  intros cs its i it w. split; intros w' H.
  - unfold extend in H. destruct (format_items (w_heap w) its) as [[h is_]|] eqn:E; cbn in H; [|discriminate].
    inversion H; subst. exists is_. split; [reflexivity|]. apply (formats_ok _ _ _ _ E).
  - unfold insert in H. destruct (format_item (w_heap w) it) as [[h j]|] eqn:E; cbn in H; [|discriminate].
    inversion H; subst. cbn. exists (firstn (insert_pos (length (w_data w)) i) (w_data w)),
      (skipn (insert_pos (length (w_data w)) i) (w_data w)), j. rewrite firstn_skipn. auto.
Qed.
Print Assumptions C15_entry_order.

(** The value an entry is sorted by. *)
Definition entry_value (w : world) (k : indicator) (id : nat) (x : Q) : Prop :=
  exists s v o, nth_error (w_heap w) id = Some ((s, v) :: o) /\ v k = Some x.
Lemma keys_exist w k : Inv w -> exists ks, mapM (sort_key (w_heap w) k) (w_data w) = Ok ks /\
  Forall2 (fun id x => entry_value w k id x) (w_data w) ks.
Proof.
  unfold Inv. generalize (w_data w) as ids. induction ids as [|id ids IH]; intros HI.
  - exists []. split; [reflexivity|constructor].
  - destruct IH as (ks & E & F); [intros; apply HI; right; assumption|].
    destruct (HI id (or_introl eq_refl)) as (o & Eo & Hn & Hc). destruct o as [|[s v] o]; [congruence|].
    pose proof (Hc s v k (or_introl eq_refl)) as Hv. destruct (v k) as [x|] eqn:Ev; [|congruence].
    exists (x :: ks). cbn. unfold sort_key at 1. rewrite Eo, Ev. cbn. rewrite E. split; [reflexivity|].
    constructor; [exists s, v, o; auto|exact F].
Qed.

(** sort_by never fails; the result is a permutation, sorted (descending by default), and
    entries whose values are equal keep their order. *)
Theorem C15_sort_by :
  forall cs k (reverse : bool),
    let w := crun cs in
    exists w', sort_by w k reverse = Ok w' /\ w_heap w' = w_heap w /\
      Permutation (w_data w') (w_data w) /\
      (forall l1 a l2 b l3 x y, w_data w' = l1 ++ a :: l2 ++ b :: l3 ->
         entry_value w k a x -> entry_value w k b y -> if reverse then (y <= x)%Q else (x <= y)%Q) /\
      (forall (p : nat -> bool),
         (forall a b x y, p a = true -> p b = true -> entry_value w k a x -> entry_value w k b y -> (x == y)%Q) ->
         filter p (w_data w') = filter p (w_data w)).
Proof.
  intros cs k reverse w. pose proof (run_inv cs) as HI. fold w in HI.
  destruct (keys_exist w k HI) as (ks & E & F). unfold sort_by. rewrite E. cbn [bind].
  set (before := fun a b : Q * nat => if reverse then negb (Qle_bool (fst a) (fst b)) else negb (Qle_bool (fst b) (fst a))).
  eexists. split; [reflexivity|]. cbn [w_heap w_data]. split; [reflexivity|].
  pose proof (combine_snd ks (w_data w) (mapM_length _ _ _ E)) as Hsnd.
  set (L := combine ks (w_data w)) in *.
  assert (HL : forall p, In p L -> entry_value w k (snd p) (fst p)).
  { unfold L. clear - F. induction F as [|id x ids ks H F IH]; cbn; [intros p []|]. intros p [<-|Hp]; [exact H|auto]. }
  split; [|split].
  - rewrite <- Hsnd. apply Permutation_map. apply stable_perm.
  - set (rel := fun a b : Q * nat => if reverse then (fst b <= fst a)%Q else (fst a <= fst b)%Q).
    assert (HS : StronglySorted rel (stable_sort before L)).
    { apply stable_sorted.
      - intros a b Hb. unfold before in Hb. unfold rel. destruct reverse; apply negb_true_iff in Hb; apply Qle_bool_false; exact Hb.
      - intros a b Hb. unfold before in Hb. unfold rel. destruct reverse; apply negb_false_iff in Hb; apply Qle_bool_iff; exact Hb.
      - intros a b c. unfold rel. destruct reverse; intros; eapply Qle_trans; eassumption. }
    intros l1 a l2 b l3 x y Hd Ha Hb.
    apply map_eq_app in Hd as (m1 & m2 & Hm & <- & Hm2).
    destruct m2 as [|pa m2]; [discriminate|]. cbn in Hm2. inversion Hm2 as [[Hpa Hm3]].
    apply map_eq_app in Hm3 as (m3 & m4 & -> & <- & Hm4).
    destruct m4 as [|pb m4]; [discriminate|]. cbn in Hm4. inversion Hm4 as [[Hpb Hm5]].
    rewrite Hm in HS.
    assert (Hrel : rel pa pb).
    { clear - HS. induction m1 as [|z m1 IH]; cbn in HS.
      - inversion HS as [|? ? _ Hf]; subst. rewrite Forall_forall in Hf. apply Hf. apply in_app_iff. right. left. reflexivity.
      - inversion HS; subst. auto. }
    assert (Hin : forall p, In p (m1 ++ pa :: m3 ++ pb :: m4) -> entry_value w k (snd p) (fst p)).
    { intros p Hp. apply HL. rewrite <- Hm in Hp. apply (Permutation_in _ (stable_perm _ _)) in Hp. exact Hp. }
    assert (Hfun : forall id u v, entry_value w k id u -> entry_value w k id v -> u = v).
    { intros id u v (s1 & v1 & o1 & A1 & A2) (s2 & v2 & o2 & B1 & B2). rewrite A1 in B1. inversion B1; subst. congruence. }
    assert (Ea : x = fst pa).
    { apply (Hfun a); [exact Ha|]. rewrite <- Hpa. apply Hin. apply in_app_iff. right. left. reflexivity. }
    assert (Eb : y = fst pb).
    { apply (Hfun b); [exact Hb|]. rewrite <- Hpb. apply Hin. apply in_app_iff. right. right. apply in_app_iff. right. left. reflexivity. }
    subst x y. exact Hrel.
  - intros p Hp. rewrite <- Hsnd.
    assert (Hmf : forall l : list (Q * nat), filter p (map snd l) = map snd (filter (fun q => p (snd q)) l)).
    { induction l as [|z l IH]; cbn; [reflexivity|]. destruct (p (snd z)); cbn; rewrite IH; reflexivity. }
    rewrite !Hmf. f_equal.
    set (p' := fun q : Q * nat => p (snd q) && existsb (fun r => Qeq_bool (fst q) (fst r) && Nat.eqb (snd q) (snd r)) L).
    assert (Hp' : forall l, (forall q, In q l -> In q L) -> filter (fun q => p (snd q)) l = filter p' l).
    { intros l Hl. apply filter_ext_in. intros q Hq. unfold p'.
      assert (Hx : existsb (fun r => Qeq_bool (fst q) (fst r) && Nat.eqb (snd q) (snd r)) L = true).
      { apply existsb_exists. exists q. split; [apply Hl; exact Hq|]. rewrite Nat.eqb_refl. cbn.
        rewrite andb_true_r. apply Qeq_bool_iff. reflexivity. }
      rewrite Hx, andb_true_r. reflexivity. }
    rewrite (Hp' (stable_sort before L)) by (intros q Hq; apply (Permutation_in _ (stable_perm _ _)) in Hq; exact Hq).
    rewrite (Hp' L) by auto. apply stable_filter. intros q r Hq Hr. unfold p' in Hq, Hr.
    apply andb_true_iff in Hq as [Hq1 Hq2]. apply andb_true_iff in Hr as [Hr1 Hr2].
    apply existsb_exists in Hq2 as (q' & Hq' & Hq3). apply existsb_exists in Hr2 as (r' & Hr' & Hr3).
    apply andb_true_iff in Hq3 as [Hq3 Hq4]. apply andb_true_iff in Hr3 as [Hr3 Hr4].
    apply Qeq_bool_iff in Hq3. apply Qeq_bool_iff in Hr3. apply Nat.eqb_eq in Hq4. apply Nat.eqb_eq in Hr4.
    pose proof (HL q' Hq') as V1. pose proof (HL r' Hr') as V2. rewrite <- Hq4 in V1. rewrite <- Hr4 in V2.
    pose proof (Hp _ _ _ _ Hq1 Hr1 V1 V2) as Heq.
    assert (Heq' : (fst q == fst r)%Q) by (rewrite Hq3, Hr3; exact Heq).
    unfold before. destruct reverse; apply negb_false_iff; apply Qle_bool_iff; rewrite Heq'; apply Qle_refl.
Qed.
Print Assumptions C15_sort_by.

Example C15_example :
  let cs := [Extend [Plain "net1"; Plain "net2"]; SetResource 0 3%Q Score; SetResource (-1) 7%Q Score;
             Insert 1 (Plain "net3"); UpdateResources [[(Flops, 2%Q)]; [(Flops, 1%Q); (Params, 9%Q)]] 1;
             SortBy Score true] in
  subnets (crun cs) = Ok ["net2"; "net1"; "net3"]%string /\
  column (crun cs) Score = [7; 3; (-1)]%Q /\ column (crun cs) Flops = [1; (-1); 2]%Q /\
  NoDup (w_data (crun cs)).
Proof.
  cbv zeta. split; [vm_compute; reflexivity|]. split; [vm_compute; reflexivity|].
  split; [vm_compute; reflexivity|]. vm_compute. repeat constructor; cbn; intuition discriminate.
Qed.

(** * C16 *)
Definition within (c : constraint) (x : Q) : Prop :=
  match c with Between lo hi => (lo <= x /\ x <= hi)%Q | AtMost hi => (0 <= x /\ x <= hi)%Q end.

(** The check passes exactly when every constrained metric is in its range (bounds
    included), provided the estimator reports every constrained metric. *)
Theorem C16_check_exact :
  forall results cs,
    NoDup (map fst results) ->
    (forall k c, In (k, c) cs -> In k (map fst results)) ->
    exists b, check_resources results (Some cs) = Ok b /\
      (b = true <-> forall k c x, In (k, c) cs -> In (k, x) results -> within c x).
Proof.
  intros results cs Hnd Hall. cbn [check_resources].
  assert (Hfind : forall k x, In (k, x) results -> find (fun p => String.eqb (fst p) k) results = Some (k, x)).
  { clear - Hnd. induction results as [|[k0 x0] r IH]; intros k x Hin; [destruct Hin|]. cbn in *. inversion Hnd; subst.
    destruct (String.eqb_spec k0 k) as [->|Hne].
    - destruct Hin as [H|H]; [congruence|]. exfalso. apply H1. change k with (fst (k, x)). apply in_map. exact H.
    - destruct Hin as [H|H]; [congruence|auto]. }
  induction cs as [|[k c] cs IH]; cbn [check_loop].
  - exists true. split; [reflexivity|]. split; [intros _ k c x []|reflexivity].
  - destruct IH as (b & E & Hb); [intros; eapply Hall; right; eassumption|].
    pose proof (Hall k c (or_introl eq_refl)) as Hk. apply in_map_iff in Hk as ([k0 x] & Hk0 & Hin). cbn in Hk0. subst k0.
    rewrite (Hfind k x Hin). cbn [snd].
    set (lohi := match c with Between lo hi => (lo, hi) | AtMost hi => (0%Q, hi) end).
    assert (Hw : within c x <-> (fst lohi <= x /\ x <= snd lohi)%Q) by (destruct c; reflexivity).
    destruct lohi as [lo hi]. cbn in Hw.
    destruct (Qle_bool lo x) eqn:E1; destruct (Qle_bool x hi) eqn:E2; cbn [negb orb].
    + apply Qle_bool_iff in E1. apply Qle_bool_iff in E2. exists b. split; [exact E|].
      rewrite Hb. split.
      * intros H k' c' x' [Hkc|Hkc] Hx'; [|eapply H; eassumption].
        inversion Hkc; subst. pose proof (Hfind _ _ Hin) as F1. pose proof (Hfind _ _ Hx') as F2.
        rewrite F1 in F2. inversion F2; subst. apply Hw. auto.
      * intros H k' c' x' Hkc Hx'. eapply H; [right; eassumption|eassumption].
    + exists false. split; [reflexivity|]. split; [discriminate|]. intros H.
      pose proof (H k c x (or_introl eq_refl) Hin) as Hc. apply Hw in Hc. destruct Hc as [_ Hc].
      apply Qle_bool_iff in Hc. congruence.
    + exists false. split; [reflexivity|]. split; [discriminate|]. intros H.
      pose proof (H k c x (or_introl eq_refl) Hin) as Hc. apply Hw in Hc. destruct Hc as [Hc _].
      apply Qle_bool_iff in Hc. congruence.
    + exists false. split; [reflexivity|]. split; [discriminate|]. intros H.
      pose proof (H k c x (or_introl eq_refl) Hin) as Hc. apply Hw in Hc. destruct Hc as [Hc _].
      apply Qle_bool_iff in Hc. congruence.
Qed.
Print Assumptions C16_check_exact.
(** Without constraints every subnet passes; a result is never [true] while an earlier
    reported metric is out of range, even if some constrained metric is not reported. *)
Theorem C16_no_constraints : forall results, check_resources results None = Ok true.
Proof. reflexivity. Qed.
Print Assumptions C16_no_constraints.
Example C16_example :
  let r := [("flops"%string, 330); ("params"%string, 5)]%Q in
  check_resources r (Some [("flops"%string, Between 0 330); ("params"%string, AtMost 5)]) = Ok true /\
  check_resources r (Some [("flops"%string, Between 331 400)]) = Ok false /\
  check_resources r (Some [("params"%string, AtMost 4)]) = Ok false.
Proof. vm_compute. auto. Qed.
