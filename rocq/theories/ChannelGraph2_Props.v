(** C99: channel numbers, check_channel and the success of ChannelGraph.forward. *)
From Verif Require Import Prelude UnionFind_Model UnionFind_Props ChannelGraph_Model ChannelGraph_Props.
Local Open Scope nat_scope.

(** ** Specification *)

(** Inputs of a node: an input node has none, most nodes have one, and the three that combine
    tensors have at least one. *)
Definition arity_ok (nd : cnode) : Prop :=
  match c_kind nd with
  | KInput _ => c_prev nd = []
  | KBind | KCat | KEnd => c_prev nd <> []
  | _ => exists p, c_prev nd = [p]
  end.
(** The numbers read off a module make sense: positive, groups divide the channels. *)
Definition numbers_ok (k : kind) : Prop :=
  match k with
  | KConv i o g => 0 < i /\ 0 < o /\ 0 < g /\ (exists a, i = g * a) /\ (exists b, o = g * b)
  | KLinear i o => 0 < i /\ 0 < o
  | KBn c | KInput c => 0 < c
  | KGn c g => 0 < c /\ 0 < g /\ exists a, c = g * a
  | KExpand r => 0 < r
  | KPass | KPassUnion | KBind | KCat | KEnd => True
  end.
Definition is_module (k : kind) : Prop :=
  match k with KConv _ _ _ | KLinear _ _ | KBn _ | KGn _ _ => True | _ => False end.
(** Nodes in topological order, nothing behind an end node, and nodes of one module agree. *)
Record well_formed (g : list cnode) : Prop := {
  wf_topo : forall i nd p, nth_error g i = Some nd -> In p (c_prev nd) -> p < i;
  wf_end : forall i nd p q, nth_error g i = Some nd -> In p (c_prev nd) -> nth_error g p = Some q -> c_kind q <> KEnd;
  wf_arity : forall nd, In nd g -> arity_ok nd;
  wf_numbers : forall nd, In nd g -> numbers_ok (c_kind nd);
  wf_shared : forall i j a b m, nth_error g i = Some a -> nth_error g j = Some b -> c_mod a = Some m -> c_mod b = Some m ->
    c_kind a = c_kind b /\ is_module (c_kind a) }.

(** [W i] are the numbers of input and output channels of node [i]: what its module says, or
    what it receives; and what it receives fits. *)
Definition count_ok (W : nat -> nat * nat) (i : nat) (nd : cnode) : Prop :=
  match c_kind nd with
  | KConv a b _ | KLinear a b => W i = (a, b) /\ forall p, In p (c_prev nd) -> snd (W p) = a
  | KBn c | KGn c _ => W i = (c, c) /\ forall p, In p (c_prev nd) -> snd (W p) = c
  | KInput c => W i = (c, c)
  | KPass | KPassUnion | KBind => fst (W i) = snd (W i) /\ forall p, In p (c_prev nd) -> snd (W p) = fst (W i)
  | KCat => let c := list_sum (map (fun p => snd (W p)) (c_prev nd)) in W i = (c, c)
  | KExpand r => snd (W i) = fst (W i) * r /\ forall p, In p (c_prev nd) -> snd (W p) = fst (W i)
  | KEnd => fst (W i) = snd (W i) /\ exists p l, c_prev nd = p :: l /\ snd (W p) = fst (W i)
  end.
Definition counts (g : list cnode) (W : nat -> nat * nat) : Prop :=
  forall i nd, nth_error g i = Some nd -> count_ok W i nd.

(** ** The table of channel numbers *)
Lemma table_app tab nd g : fold_left (fun tab nd => tab ++ [channels_of tab nd]) g (tab ++ [channels_of tab nd]) =
  fold_left (fun tab nd => tab ++ [channels_of tab nd]) (nd :: g) tab.
Proof. reflexivity. Qed.
Lemma table_prefix : forall g tab, exists r, fold_left (fun tab nd => tab ++ [channels_of tab nd]) g tab = tab ++ r /\ length r = length g.
Proof.
  induction g as [|nd g IH]; intros tab; cbn [fold_left]; [exists []; rewrite app_nil_r; auto|].
  destruct (IH (tab ++ [channels_of tab nd])) as (r & E & Lr). exists (channels_of tab nd :: r). rewrite E, <- app_assoc. cbn. auto.
Qed.
Lemma table_length g : length (channel_table g) = length g.
Proof. destruct (table_prefix g []) as (r & E & Lr). unfold channel_table. rewrite E. exact Lr. Qed.
Lemma out_of_app tab r p : p < length tab -> out_of (tab ++ r) p = out_of tab p.
Proof. intros H. unfold out_of. rewrite nth_error_app1 by exact H. reflexivity. Qed.
Lemma mapM_ext {A B} (f h : A -> outcome B) l : (forall x, In x l -> f x = h x) -> mapM f l = mapM h l.
Proof. induction l as [|x l IH]; intros H; cbn; [reflexivity|]. rewrite (H x), IH; auto with datatypes. Qed.
Lemma channels_of_app tab r nd : (forall p, In p (c_prev nd) -> p < length tab) -> channels_of (tab ++ r) nd = channels_of tab nd.
Proof.
  intros H. assert (E : in_by_prev (tab ++ r) (c_kind nd) (c_prev nd) = in_by_prev tab (c_kind nd) (c_prev nd)).
  { unfold in_by_prev. destruct (c_kind nd), (c_prev nd) as [|p [|q l]]; try reflexivity; try (apply out_of_app, H; left; reflexivity).
    all: rewrite (mapM_ext _ (out_of tab)); [reflexivity|]; intros x Hx; apply out_of_app, H; exact Hx. }
  unfold channels_of. destruct (c_kind nd); rewrite ?E; reflexivity.
Qed.
Lemma table_nth g : (forall i nd p, nth_error g i = Some nd -> In p (c_prev nd) -> p < i) ->
  forall i nd, nth_error g i = Some nd -> nth_error (channel_table g) i = Some (channels_of (channel_table g) nd).
Proof.
  intros H i nd Hi. apply nth_error_split in Hi as (l1 & l2 & Eg & Hl1). subst i.
  assert (Hp : forall p, In p (c_prev nd) -> p < length l1).
  { intros p Hp. apply (H (length l1) nd p); [|exact Hp]. rewrite Eg, nth_error_app2, Nat.sub_diag by lia. reflexivity. }
  unfold channel_table. rewrite Eg, fold_left_app. cbn [fold_left].
  fold (channel_table l1). set (tab := channel_table l1). pose proof (table_length l1 : length tab = length l1) as Lt.
  destruct (table_prefix l2 (tab ++ [channels_of tab nd])) as (r & E & _). rewrite E.
  rewrite <- app_assoc. rewrite nth_error_app2 by lia. rewrite Lt, Nat.sub_diag. cbn [nth_error app]. f_equal.
  symmetry. apply channels_of_app. intros p Hp'. rewrite Lt. auto.
Qed.

Section Counts.
Variable g : list cnode.
Hypothesis wf : well_formed g.
Lemma mapM_all_ok {A B} (f : A -> outcome B) (h : A -> B) l : (forall x, In x l -> f x = Ok (h x)) -> mapM f l = Ok (map h l).
Proof. induction l as [|x l IH]; intros H; cbn; [reflexivity|]. rewrite (H x (or_introl eq_refl)). cbn. rewrite IH by (intros; apply H; right; assumption). reflexivity. Qed.
(** A numbering that fits is the one computed. *)
Lemma counts_table W : counts g W -> forall i, i < length g -> nth_error (channel_table g) i = Some (Ok (W i)).
Proof.
  intros HW i. induction i as [i IH] using lt_wf_ind. intros Hi.
  destruct (nth_error g i) as [nd|] eqn:E; [|apply nth_error_None in E; lia].
  rewrite (table_nth g (wf_topo g wf) i nd E). f_equal.
  assert (Ho : forall p, In p (c_prev nd) -> out_of (channel_table g) p = Ok (snd (W p))).
  { intros p Hp. pose proof (wf_topo g wf i nd p E Hp). unfold out_of. rewrite IH by lia. reflexivity. }
  pose proof (HW i nd E) as HC. pose proof (wf_arity g wf nd (nth_error_In _ _ E)) as HA.
  unfold channels_of, count_ok, arity_ok, in_by_prev in *. destruct (c_kind nd) as [a b c|a b|a|a b| | | | |r|c|].
  - destruct HC as [-> _]. reflexivity.
  - destruct HC as [-> _]. reflexivity.
  - destruct HC as [-> _]. reflexivity.
  - destruct HC as [-> _]. reflexivity.
  - destruct HA as [p Ep], HC as [H1 H2]. rewrite Ep in *. rewrite (Ho p) by (left; reflexivity). cbn. rewrite (H2 p) by (left; reflexivity).
    rewrite (surjective_pairing (W i)), <- H1. reflexivity.
  - destruct HA as [p Ep], HC as [H1 H2]. rewrite Ep in *. rewrite (Ho p) by (left; reflexivity). cbn. rewrite (H2 p) by (left; reflexivity).
    rewrite (surjective_pairing (W i)), <- H1. reflexivity.
  - destruct HC as [H1 H2]. destruct (c_prev nd) as [|p l]; [congruence|]. rewrite (Ho p) by (left; reflexivity). cbn. rewrite (H2 p) by (left; reflexivity).
    rewrite (surjective_pairing (W i)), <- H1. reflexivity.
  - cbv zeta in HC. destruct (c_prev nd) as [|p l] eqn:Ep; [congruence|]. rewrite <- Ep in *. rewrite (mapM_all_ok _ (fun p => snd (W p)) _ Ho). cbn [bind]. rewrite HC. reflexivity.
  - destruct HA as [p Ep], HC as [H1 H2]. rewrite Ep in *. rewrite (Ho p) by (left; reflexivity). cbn [bind]. rewrite (H2 p) by (left; reflexivity).
    destruct (W i) as [x y]. cbn [fst snd] in *. rewrite H1. reflexivity.
  - rewrite HC. reflexivity.
  - destruct HC as (H1 & p & l & Ep & H2). rewrite Ep in *. rewrite (Ho p) by (left; reflexivity). cbn. rewrite H2.
    rewrite (surjective_pairing (W i)), <- H1. reflexivity.
Qed.
(** Every entry of the table is a pair of numbers. *)
Definition W0 (i : nat) : nat * nat := match nth_error (channel_table g) i with Some (Ok io) => io | _ => (0, 0) end.
Lemma table_total : forall i, i < length g -> nth_error (channel_table g) i = Some (Ok (W0 i)).
Proof.
  intros i. induction i as [i IH] using lt_wf_ind. intros Hi. unfold W0.
  destruct (nth_error g i) as [nd|] eqn:E; [|apply nth_error_None in E; lia].
  rewrite (table_nth g (wf_topo g wf) i nd E).
  assert (Ho : forall p, In p (c_prev nd) -> out_of (channel_table g) p = Ok (snd (W0 p))).
  { intros p Hp. pose proof (wf_topo g wf i nd p E Hp). unfold out_of. rewrite IH by lia. reflexivity. }
  pose proof (wf_arity g wf nd (nth_error_In _ _ E)) as HA.
  assert (exists io, channels_of (channel_table g) nd = Ok io); [|destruct H as [io ->]; reflexivity].
  unfold channels_of, arity_ok, in_by_prev in *. destruct (c_kind nd) as [a b c|a b|a|a b| | | | |r|c|]; eauto.
  - destruct HA as [p Ep]. rewrite Ep in *. rewrite (Ho p) by (left; reflexivity). cbn. eauto.
  - destruct HA as [p Ep]. rewrite Ep in *. rewrite (Ho p) by (left; reflexivity). cbn. eauto.
  - destruct (c_prev nd) as [|p l]; [congruence|]. rewrite (Ho p) by (left; reflexivity). cbn. eauto.
  - destruct (c_prev nd) as [|p l] eqn:Ep; [congruence|]. rewrite <- Ep in *. rewrite (mapM_all_ok _ (fun p => snd (W0 p)) _ Ho). cbn [bind]. eauto.
  - destruct HA as [p Ep]. rewrite Ep in *. rewrite (Ho p) by (left; reflexivity). cbn [bind]. eauto.
  - destruct (c_prev nd) as [|p l]; [congruence|]. rewrite (Ho p) by (left; reflexivity). cbn. eauto.
Qed.
End Counts.

Lemma all_true l : forallb (fun b : bool => b) l = true <-> forall b, In b l -> b = true.
Proof. rewrite forallb_forall. reflexivity. Qed.

(** [check_channel] accepts every node exactly when there is a numbering that fits everywhere. *)
Theorem C99_check :
  forall g, well_formed g ->
    ((forall nd, In nd g -> check_channel (channel_table g) nd = Ok true) <-> exists W, counts g W).
Proof.
  intros g wf. split.
  - intros H. exists (W0 g). intros i nd E. pose proof (wf_arity g wf nd (nth_error_In _ _ E)) as HA.
    specialize (H nd (nth_error_In _ _ E)).
    assert (Hi : i < length g) by (apply nth_error_Some; congruence).
    pose proof (table_total g wf i Hi) as HT. rewrite (table_nth g (wf_topo g wf) i nd E) in HT. injection HT as HT.
    assert (Ho : forall p, In p (c_prev nd) -> out_of (channel_table g) p = Ok (snd (W0 g p))).
    { intros p Hp. pose proof (wf_topo g wf i nd p E Hp). unfold out_of. rewrite (table_total g wf) by lia. reflexivity. }
    assert (HP : c_kind nd <> KEnd -> c_kind nd <> KCat -> forall p, In p (c_prev nd) -> snd (W0 g p) = fst (W0 g i)).
    { intros N1 N2 p Hp. unfold check_channel in H.
      assert (G : (do bs <- mapM (fun p0 => do o <- out_of (channel_table g) p0; do io <- channels_of (channel_table g) nd; Ok (Nat.eqb o (fst io))) (c_prev nd);
                   Ok (forallb (fun b : bool => b) bs)) = Ok true) by (destruct (c_kind nd); congruence).
      rewrite (mapM_all_ok _ (fun p => Nat.eqb (snd (W0 g p)) (fst (W0 g i)))) in G.
      2:{ intros x Hx. rewrite (Ho x Hx). cbn [bind]. rewrite HT. reflexivity. }
      cbn [bind] in G. apply Ok_inj in G. rewrite all_true in G. apply Nat.eqb_eq, G. apply in_map_iff. exists p. auto. }
    unfold count_ok. unfold channels_of, arity_ok, in_by_prev in *. destruct (c_kind nd) as [a b c|a b|a|a b| | | | |r|c|].
    + apply Ok_inj in HT. rewrite <- HT in *. split; [reflexivity|]. intros p Hp. apply HP; auto; discriminate.
    + apply Ok_inj in HT. rewrite <- HT in *. split; [reflexivity|]. intros p Hp. apply HP; auto; discriminate.
    + apply Ok_inj in HT. rewrite <- HT in *. split; [reflexivity|]. intros p Hp. apply HP; auto; discriminate.
    + apply Ok_inj in HT. rewrite <- HT in *. split; [reflexivity|]. intros p Hp. apply HP; auto; discriminate.
    + destruct HA as [p Ep]. rewrite Ep in *. rewrite (Ho p) in HT by (left; reflexivity). cbn in HT. apply Ok_inj in HT.
      split; [rewrite <- HT; reflexivity|]. apply HP; discriminate.
    + destruct HA as [p Ep]. rewrite Ep in *. rewrite (Ho p) in HT by (left; reflexivity). cbn in HT. apply Ok_inj in HT.
      split; [rewrite <- HT; reflexivity|]. apply HP; discriminate.
    + destruct (c_prev nd) as [|p l]; [congruence|]. rewrite (Ho p) in HT by (left; reflexivity). cbn in HT. apply Ok_inj in HT.
      split; [rewrite <- HT; reflexivity|]. apply HP; discriminate.
    + cbv zeta. destruct (c_prev nd) as [|p l] eqn:Ep; [congruence|]. rewrite <- Ep in *. rewrite (mapM_all_ok _ (fun p => snd (W0 g p)) _ Ho) in HT.
      cbn [bind] in HT. apply Ok_inj in HT. auto.
    + destruct HA as [p Ep]. rewrite Ep in *. rewrite (Ho p) in HT by (left; reflexivity). cbn [bind] in HT. apply Ok_inj in HT.
      split; [rewrite <- HT; reflexivity|]. apply HP; discriminate.
    + apply Ok_inj in HT. auto.
    + destruct (c_prev nd) as [|p l]; [congruence|]. rewrite (Ho p) in HT by (left; reflexivity). cbn in HT. apply Ok_inj in HT.
      split; [rewrite <- HT; reflexivity|]. exists p, l. rewrite <- HT. auto.
  - intros [W HW] nd Hin. apply In_nth_error in Hin as [i E].
    assert (Hi : i < length g) by (apply nth_error_Some; congruence).
    pose proof (counts_table g wf W HW i Hi) as HT. rewrite (table_nth g (wf_topo g wf) i nd E) in HT. injection HT as HT.
    assert (Ho : forall p, In p (c_prev nd) -> out_of (channel_table g) p = Ok (snd (W p))).
    { intros p Hp. pose proof (wf_topo g wf i nd p E Hp). unfold out_of. rewrite (counts_table g wf W HW) by lia. reflexivity. }
    pose proof (HW i nd E) as HC.
    assert (HP : (forall p, In p (c_prev nd) -> snd (W p) = fst (W i)) ->
       (do bs <- mapM (fun p0 => do o <- out_of (channel_table g) p0; do io <- channels_of (channel_table g) nd; Ok (Nat.eqb o (fst io))) (c_prev nd);
        Ok (forallb (fun b : bool => b) bs)) = Ok true).
    { intros G. rewrite (mapM_all_ok _ (fun p => Nat.eqb (snd (W p)) (fst (W i)))).
      2:{ intros x Hx. rewrite (Ho x Hx). cbn [bind]. rewrite HT. reflexivity. }
      cbn [bind]. f_equal. apply all_true. intros b Hb. apply in_map_iff in Hb as (p & <- & Hp). apply Nat.eqb_eq, G, Hp. }
    pose proof (wf_arity g wf nd (nth_error_In _ _ E)) as HA.
    unfold check_channel, count_ok, arity_ok in *. destruct (c_kind nd) as [a b c|a b|a|a b| | | | |r|c|].
    + destruct HC as [HW1 HC]. rewrite HW1 in HP. apply HP. exact HC.
    + destruct HC as [HW1 HC]. rewrite HW1 in HP. apply HP. exact HC.
    + destruct HC as [HW1 HC]. rewrite HW1 in HP. apply HP. exact HC.
    + destruct HC as [HW1 HC]. rewrite HW1 in HP. apply HP. exact HC.
    + apply HP, HC.
    + apply HP, HC.
    + apply HP, HC.
    + cbv zeta in HC. rewrite (mapM_all_ok _ (fun p => snd (W p)) _ Ho). cbn [bind]. rewrite HT. cbn [bind]. rewrite HC. cbn [fst]. rewrite Nat.eqb_refl. reflexivity.
    + apply HP, HC.
    + apply HP. rewrite HA. intros p [].
    + reflexivity.
Qed.
Print Assumptions C99_check.

(** ** Forward succeeds *)
Lemma pairs_ok : forall l u, Inv u -> (forall a b, In (a, b) l -> a < uf_n u /\ b < uf_n u) ->
  exists u', union_pairs u l = Ok u' /\ Inv u' /\ uf_n u' = uf_n u.
Proof.
  induction l as [|[a b] l IH]; intros u HI H; [exists u; auto|]. destruct (H a b (or_introl eq_refl)) as [Ha Hb].
  destruct (union_ok u a b HI Ha Hb) as (u1 & ra & rb & E & I1 & N1 & _). cbn. rewrite E. cbn [bind].
  destruct (IH u1 I1) as (u2 & E2 & I2 & N2); [intros x y Hxy; rewrite N1; apply H; right; exact Hxy|]. exists u2. split; [exact E2|split; [exact I2|lia]].
Qed.
(** Every element has a base, which is not behind it. *)
Definition BI (s : fstate) : Prop := length (f_base s) = uf_n (f_uf s) /\ forall e, e < uf_n (f_uf s) -> base_of (f_base s) e <= e.
Definition fine (s s' : fstate) : Prop :=
  Inv (f_uf s') /\ (uf_n (f_uf s) <= uf_n (f_uf s') /\ (BI s -> BI s')) /\ f_nodes s' = f_nodes s.
Lemma base_grow base n k e : length base = n -> base_of (base ++ repeat n k) e = if Nat.ltb e n then base_of base e else if Nat.ltb e (n + k) then n else 0.
Proof.
  intros L. unfold base_of. destruct (Nat.ltb_spec e n).
  - rewrite app_nth1 by lia. reflexivity.
  - rewrite app_nth2 by lia. rewrite L. destruct (Nat.ltb_spec e (n + k)).
    + assert (E : forall m d, d < m -> nth d (repeat n m) 0 = n) by (induction m; intros [|d] Hd; cbn; try lia; apply IHm; lia). apply E. lia.
    + apply nth_overflow. rewrite repeat_length. lia.
Qed.
Lemma BI_grow s s' k : BI s -> uf_n (f_uf s') = uf_n (f_uf s) + k -> f_base s' = f_base s ++ repeat (uf_n (f_uf s)) k -> BI s'.
Proof.
  intros [L B] N E. split; [rewrite E, app_length, repeat_length; lia|]. intros e He. rewrite E, (base_grow _ _ _ _ L).
  destruct (Nat.ltb_spec e (uf_n (f_uf s))); [apply B; assumption|]. destruct (Nat.ltb_spec e (uf_n (f_uf s) + k)); lia.
Qed.
Lemma fine_trans a b c : fine a b -> fine b c -> fine a c.
Proof. intros (A1 & A2 & A3) (B1 & B2 & B3). split; [exact B1|]. destruct A2, B2. split; [split; [lia|auto]|congruence]. Qed.
Lemma fine_refl s : Inv (f_uf s) -> fine s s.
Proof. intros H. split; [exact H|split; [split; [lia|auto]|reflexivity]]. Qed.
Lemma fine_valid s s' t : fine s s' -> valid s t -> valid s' t.
Proof. intros (_ & H & _) V e He. specialize (V e He). lia. Qed.
Lemma union_fine s a b : Inv (f_uf s) -> valid s a -> valid s b -> length a = length b -> exists s', f_union s a b = Ok s' /\ fine s s'.
Proof.
  intros HI Va Vb L. unfold f_union, tensor_union. rewrite L, Nat.eqb_refl. cbn [assert_ bind].
  destruct (pairs_ok (combine a b) (f_uf s) HI) as (u & E & I1 & N1).
  { intros x y Hxy. destruct (combine_in_both _ _ _ _ Hxy). split; [apply Va|apply Vb]; assumption. }
  rewrite E. cbn [bind]. exists (with_uf s u). split; [reflexivity|]. split; [exact I1|split; [|reflexivity]]. split; [cbn; lia|]. intros [L1 B1]. unfold BI. cbn. rewrite N1. auto.
Qed.
Lemma fresh_fine s k : Inv (f_uf s) -> fine s (fst (fresh s k)) /\ valid (fst (fresh s k)) (snd (fresh s k)) /\ length (snd (fresh s k)) = k.
Proof.
  intros HI. split; [|split].
  - split; [apply (inv_new (f_uf s) k HI)|split; [|reflexivity]]. split; [cbn; lia|]. intros B. eapply (BI_grow s _ k B); reflexivity.
  - intros e He. cbn in *. apply in_seq in He. lia.
  - cbn. apply seq_length.
Qed.
Lemma expand_fine s t r : Inv (f_uf s) -> valid s t -> exists s' o, f_expand s t r = Ok (s', o) /\ fine s s' /\ valid s' o /\ length o = r * length t.
Proof.
  intros HI V. unfold f_expand, tensor_expand. cbn [new_tensor].
  set (u1 := {| uf_n := uf_n (f_uf s) + r * length t; uf_parent := uf_parent (f_uf s); uf_subs := uf_subs (f_uf s) |}).
  set (nw := seq (uf_n (f_uf s)) (r * length t)).
  destruct (pairs_ok (flat_map (fun i => map (fun j => (nth i t 0, nth (i * r + j) nw 0)) (seq 0 r)) (seq 0 (length t))) u1) as (u2 & E & I2 & N2).
  { apply (inv_new (f_uf s) (r * length t) HI). }
  { intros a b Hab. apply expand_pairs_in in Hab as (i & j & Hi & Hj & -> & ->).
    assert (nth i t 0 < uf_n (f_uf s)) by (apply V, nth_In; exact Hi).
    assert (In (nth (i * r + j) nw 0) nw) by (apply nth_In; unfold nw; rewrite seq_length; nia). apply in_seq in H0. cbn. lia. }
  rewrite E. cbn [bind fst snd]. eexists _, _. split; [reflexivity|]. split; [|split].
  - split; [exact I2|split; [|reflexivity]]. split; [cbn; rewrite N2; cbn; lia|]. intros B. eapply (BI_grow s _ (r * length t) B); [cbn; rewrite N2; reflexivity|reflexivity].
  - intros e He. apply in_seq in He. cbn. rewrite N2. cbn. lia.
  - apply seq_length.
Qed.
Lemma group_fine s t groups gt : Inv (f_uf s) -> valid s t -> valid s gt -> groups <> 0 -> length t = groups * length gt ->
  exists s', group_union s t groups gt = Ok s' /\ fine s s'.
Proof.
  intros HI Vt Vg Hg L. unfold group_union. rewrite L, Nat.eqb_refl. cbn [assert_ bind].
  rewrite (Nat.mul_comm groups), Nat.div_mul by exact Hg. set (c := length gt).
  assert (HF : forall l s0, (forall i, In i l -> i < groups) -> fine s s0 ->
     exists s1, foldM (fun s i => f_union s (firstn ((i + 1) * c - i * c) (skipn (i * c) t)) gt) l s0 = Ok s1 /\ fine s s1).
  { induction l as [|i l IH]; intros s0 Hl F0; [exists s0; auto|]. cbn [foldM].
    replace ((i + 1) * c - i * c) with c by lia.
    assert (Hi : i < groups) by (apply Hl; left; reflexivity).
    destruct (union_fine s0 (firstn c (skipn (i * c) t)) gt) as (s1 & E1 & F1).
    - apply F0.
    - intros e He. apply (fine_valid _ _ _ F0 Vt). rewrite <- (firstn_skipn (i * c) t). apply in_or_app. right.
      rewrite <- (firstn_skipn c (skipn (i * c) t)). apply in_or_app. left. exact He.
    - apply (fine_valid _ _ _ F0 Vg).
    - rewrite firstn_length, skipn_length, L. fold c. nia.
    - rewrite E1. cbn [bind]. apply IH; [intros j Hj; apply Hl; right; exact Hj|]. eapply fine_trans; eauto. }
  apply HF; [intros i Hi; apply in_seq in Hi; lia|apply fine_refl; exact HI].
Qed.
Lemma group_fresh_fine s t groups : Inv (f_uf s) -> valid s t -> groups <> 0 -> (exists a, length t = groups * a) ->
  exists s', group_union_fresh s t groups = Ok s' /\ fine s s'.
Proof.
  intros HI Vt Hg [a L]. unfold group_union_fresh. destruct (Nat.eqb_spec groups 0); [contradiction|].
  destruct (fresh_fine s (length t / groups) HI) as (F1 & V1 & L1). destruct (fresh s (length t / groups)) as [s1 gt]. cbn [fst snd] in *.
  assert (Ha : length t / groups = a) by (rewrite L, Nat.mul_comm; apply Nat.div_mul; exact Hg).
  destruct (group_fine s1 t groups gt) as (s2 & E2 & F2); [apply F1|apply (fine_valid _ _ _ F1 Vt)|exact V1|exact Hg|congruence|].
  exists s2. split; [exact E2|eapply fine_trans; eauto].
Qed.

Definition tvalid (s : fstate) (tr : trip) : Prop := valid s (t_in tr) /\ valid s (t_out tr) /\ valid s (t_ret tr).
(** The number of channels on every side. *)
Definition tlen (k : kind) (w : nat * nat) (tr : trip) : Prop :=
  match k with
  | KPass => length (t_in tr) = 1 /\ length (t_out tr) = 1 /\ length (t_ret tr) = snd w
  | KEnd => length (t_in tr) = 1 /\ length (t_out tr) = 1 /\ length (t_ret tr) = 1
  | _ => length (t_in tr) = fst w /\ length (t_out tr) = snd w /\ length (t_ret tr) = snd w
  end.

(** What [channel_forward] receives. *)
Definition ts_ok (k : kind) (w : nat * nat) (ts : list (list nat)) : Prop :=
  match k with
  | KConv a b _ | KLinear a b => w = (a, b) /\ exists t, ts = [t] /\ length t = a
  | KBn c | KGn c _ => w = (c, c) /\ exists t, ts = [t] /\ length t = c
  | KInput c => w = (c, c)
  | KPass | KPassUnion => fst w = snd w /\ exists t, ts = [t] /\ length t = fst w
  | KBind => fst w = snd w /\ ts <> [] /\ forall t, In t ts -> length t = fst w
  | KCat => fst w = snd w /\ length (concat ts) = fst w
  | KExpand r => snd w = fst w * r /\ exists t, ts = [t] /\ length t = fst w
  | KEnd => True
  end.
Lemma cf_fine s k w ts : Inv (f_uf s) -> (forall t, In t ts -> valid s t) -> numbers_ok k -> 0 < fst w -> ts_ok k w ts ->
  exists s' tr, channel_forward s k (Ok w) ts = Ok (s', tr) /\ fine s s' /\ tvalid s' tr /\ tlen k w tr.
Proof.
  intros HI V HN Hw HT.
  assert (PU : forall t r, ts = t :: r -> fst w = snd w -> pass_union s (Ok w) ts = Ok (s, {| t_in := t; t_out := t; t_ret := t |})).
  { intros t r -> Hww. unfold pass_union. cbn [hd_tensor bind]. rewrite Hww, Nat.eqb_refl. reflexivity. }
  assert (MX : forall t c, ts = [t] -> exists s' tr, mix s c ts = Ok (s', tr) /\ fine s s' /\ tvalid s' tr /\
     length (t_in tr) = length t /\ length (t_out tr) = c /\ length (t_ret tr) = c).
  { intros t c ->. unfold mix. destruct (fresh_fine s c HI) as (F & V1 & L1). destruct (fresh s c) as [s1 o]. cbn [fst snd] in *.
    eexists _, _. split; [reflexivity|]. split; [exact F|]. split; [|auto].
    split; [|split; exact V1]. apply (fine_valid _ _ _ F). apply V. left. reflexivity. }
  destruct k as [cin cout groups|cin cout|c|c groups| | | | |r|c|]; cbn [ts_ok] in HT; cbn [channel_forward tlen].
  - destruct HT as (-> & t & Et & Lt). cbn [fst snd] in *. destruct HN as (Hi & Ho & Hg & Ha & Hb).
    unfold conv_type_of. destruct (Nat.eqb_spec groups 1) as [->|Hg1].
    { destruct (MX t cout Et) as (s' & tr & E & F & TV & T1 & T2 & T3). exists s', tr. rewrite T1. auto 7. }
    assert (GW : exists s' tr, match ts with
          | [t] => do s1 <- group_union_fresh s t groups; let '(s2, o) := fresh s1 cout in do s3 <- group_union_fresh s2 o groups; Ok (s3, {| t_in := t; t_out := o; t_ret := o |})
          | _ => Raise AssertionError end = Ok (s', tr) /\ fine s s' /\ tvalid s' tr /\ length (t_in tr) = cin /\ length (t_out tr) = cout /\ length (t_ret tr) = cout).
    { rewrite Et. assert (Vt : valid s t) by (apply V; rewrite Et; left; reflexivity).
      destruct (group_fresh_fine s t groups HI Vt) as (s1 & E1 & F1); [lia|rewrite Lt; exact Ha|]. rewrite E1. cbn [bind].
      destruct (fresh_fine s1 cout (proj1 F1)) as (F2 & V2 & L2). destruct (fresh s1 cout) as [s2 o]. cbn [fst snd] in *.
      destruct (group_fresh_fine s2 o groups (proj1 F2) V2) as (s3 & E3 & F3); [lia|rewrite L2; exact Hb|]. rewrite E3. cbn [bind].
      eexists _, _. split; [reflexivity|]. split; [eapply fine_trans; [exact F1|eapply fine_trans; eauto]|]. split; [|auto].
      pose proof (fine_valid _ _ _ F3 V2). split; [|split; assumption].
      apply (fine_valid _ _ _ F3), (fine_valid _ _ _ F2), (fine_valid _ _ _ F1). exact Vt. }
    destruct (Nat.eqb_spec cin cout) as [Hc|Hc], (Nat.eqb_spec cout groups) as [Hc2|Hc2]; cbn [andb]; try exact GW.
    rewrite (PU t [] Et Hc). eexists _, _. split; [reflexivity|]. split; [apply fine_refl; exact HI|].
    assert (valid s t) by (apply V; rewrite Et; left; reflexivity). split; [split; [|split]; assumption|]. cbn. repeat split; lia.
  - destruct HT as (-> & t & Et & Lt). cbn [fst snd] in *. destruct (MX t cout Et) as (s' & tr & E & F & TV & T1 & T2 & T3). exists s', tr. rewrite T1. auto 7.
  - destruct HT as (-> & t & Et & Lt). cbn [fst snd] in *. rewrite (PU t [] Et eq_refl). eexists _, _. split; [reflexivity|]. split; [apply fine_refl; exact HI|].
    assert (valid s t) by (apply V; rewrite Et; left; reflexivity). split; [split; [|split]; assumption|]. cbn. auto.
  - destruct HT as (-> & t & Et & Lt). cbn [fst snd] in *. rewrite (PU t [] Et eq_refl). cbn [bind]. destruct HN as (Hc & Hg & a & Ha).
    destruct (Nat.eqb_spec groups 0); [lia|]. assert (Vt : valid s t) by (apply V; rewrite Et; left; reflexivity).
    destruct (fresh_fine s (c / groups) HI) as (F2 & V2 & L2). destruct (fresh s (c / groups)) as [s2 gt]. cbn [fst snd t_ret] in *.
    assert (Hd : c / groups = a) by (rewrite Ha, Nat.mul_comm; apply Nat.div_mul; assumption).
    destruct (group_fine s2 t groups gt) as (s3 & E3 & F3); [apply F2|apply (fine_valid _ _ _ F2 Vt)|exact V2|assumption|congruence|].
    rewrite E3. cbn [bind]. eexists _, _. split; [reflexivity|]. pose proof (fine_trans _ _ _ F2 F3) as F. split; [exact F|].
    pose proof (fine_valid _ _ _ F Vt). split; [split; [|split]; assumption|]. cbn. auto.
  - destruct HT as (Hww & t & Et & Lt). rewrite Et. assert (Vt : valid s t) by (apply V; rewrite Et; left; reflexivity).
    destruct (fresh_fine s 1 HI) as (F1 & V1 & L1). destruct (fresh s 1) as [s1 a]. cbn [fst snd] in *.
    destruct (fresh_fine s1 1 (proj1 F1)) as (F2 & V2 & L2). destruct (fresh s1 1) as [s2 b]. cbn [fst snd] in *.
    eexists _, _. split; [reflexivity|]. pose proof (fine_trans _ _ _ F1 F2) as F. split; [exact F|].
    split; [split; [apply (fine_valid _ _ _ F2 V1)|split; [exact V2|apply (fine_valid _ _ _ F Vt)]]|]. cbn. repeat split; congruence.
  - destruct HT as (Hww & t & Et & Lt). rewrite (PU t [] Et Hww). eexists _, _. split; [reflexivity|]. split; [apply fine_refl; exact HI|].
    assert (valid s t) by (apply V; rewrite Et; left; reflexivity). split; [split; [|split]; assumption|]. cbn. repeat split; congruence.
  - destruct HT as (Hww & Hne & HL). destruct ts as [|t r]; [congruence|].
    assert (HF : forall r s0, fine s s0 -> (forall t', In t' r -> valid s t' /\ length t' = length t) ->
       exists s1, foldM (fun s t' => f_union s t t') r s0 = Ok s1 /\ fine s s1).
    { assert (Vt : valid s t) by (apply V; left; reflexivity). clear r Hne HL PU MX V. induction r as [|t' r IH]; intros s0 F0 H; [exists s0; auto|]. cbn [foldM].
      destruct (H t' (or_introl eq_refl)) as [Vt' Lt'].
      destruct (union_fine s0 t t' (proj1 F0)) as (s2 & E2 & F2); [apply (fine_valid _ _ _ F0 Vt)|apply (fine_valid _ _ _ F0 Vt')|congruence|].
      rewrite E2. cbn [bind]. apply IH; [eapply fine_trans; eauto|intros; apply H; right; assumption]. }
    destruct (HF r s (fine_refl _ HI)) as (s1 & E1 & F1).
    { intros t' Ht'. split; [apply V; right; exact Ht'|]. rewrite !HL; auto with datatypes. }
    rewrite E1. cbn [bind]. eexists _, _. split; [reflexivity|]. split; [exact F1|].
    assert (valid s1 t) by (apply (fine_valid _ _ _ F1), V; left; reflexivity). split; [split; [|split]; assumption|]. cbn.
    rewrite (HL t) by (left; reflexivity). auto.
  - destruct HT as (Hww & HL). eexists _, _. split; [reflexivity|]. split; [apply fine_refl; exact HI|].
    assert (valid s (concat ts)). { intros e He. apply in_concat in He as (t & Ht & He). apply (V t Ht e He). }
    split; [split; [|split]; assumption|]. cbn. repeat split; congruence.
  - destruct HT as (Hww & t & Et & Lt). rewrite Et. cbn [bind]. assert (Vt : valid s t) by (apply V; rewrite Et; left; reflexivity).
    cbn [numbers_ok] in HN. assert (HB : Nat.leb (fst w) (snd w) = true) by (apply Nat.leb_le; rewrite Hww; nia). rewrite HB. cbn [assert_ bind].
    destruct (Nat.eqb_spec (fst w) 0); [lia|]. assert (HM : Nat.eqb (snd w mod fst w) 0 = true).
    { apply Nat.eqb_eq. rewrite Hww, Nat.mul_comm. apply Nat.mod_mul. assumption. }
    rewrite HM. cbn [assert_ bind]. destruct (expand_fine s t r HI Vt) as (s1 & o & E1 & F1 & V1 & L1). rewrite E1. cbn [bind fst snd].
    eexists _, _. split; [reflexivity|]. split; [exact F1|]. split; [split; [apply (fine_valid _ _ _ F1 Vt)|split; exact V1]|]. cbn. rewrite L1, Lt, Hww. repeat split; lia.
  - destruct (fresh_fine s c HI) as (F1 & V1 & L1). destruct (fresh s c) as [s1 a]. cbn [fst snd] in *. rewrite HT. cbn [fst snd].
    eexists _, _. split; [reflexivity|]. split; [exact F1|]. split; [split; [|split]; exact V1|]. auto.
  - destruct (fresh_fine s 1 HI) as (F1 & V1 & L1). destruct (fresh s 1) as [s1 a]. cbn [fst snd] in *.
    assert (HF : forall ts s0, fine s1 s0 -> (forall t, In t ts -> valid s t) ->
       exists s2, foldM (fun s t => do se <- f_expand s a (length t); f_union (fst se) t (snd se)) ts s0 = Ok s2 /\ fine s1 s2).
    { clear ts V PU MX HT. induction ts as [|t ts IH]; intros s0 F0 V; [exists s0; auto|]. cbn [foldM].
      destruct (expand_fine s0 a (length t) (proj1 F0)) as (s2 & o & E2 & F2 & V2 & L2); [apply (fine_valid _ _ _ F0 V1)|]. rewrite E2. cbn [bind fst snd].
      pose proof (fine_trans _ _ _ F0 F2) as F02.
      destruct (union_fine s2 t o (proj1 F2)) as (s3 & E3 & F3); [|exact V2|rewrite L2, L1; lia|].
      { apply (fine_valid _ _ _ F02), (fine_valid _ _ _ F1), V. left. reflexivity. }
      rewrite E3. cbn [bind]. apply IH; [eapply fine_trans; eauto|]. intros t' Ht'. apply V. right. exact Ht'. }
    destruct (HF ts s1 (fine_refl _ (proj1 F1)) V) as (s2 & E2 & F2). rewrite E2. cbn [bind].
    eexists _, _. split; [reflexivity|]. split; [eapply fine_trans; eauto|]. pose proof (fine_valid _ _ _ F2 V1). split; [split; [|split]; assumption|]. cbn. auto.
Qed.

Section Run.
Variable g : list cnode.
Variable W : nat -> nat * nat.
Hypothesis wf : well_formed g.
Hypothesis HW : counts g W.
Lemma counts_pos : forall i, i < length g -> 0 < fst (W i) /\ 0 < snd (W i).
Proof.
  intros i. induction i as [i IH] using lt_wf_ind. intros Hi.
  destruct (nth_error g i) as [nd|] eqn:E; [|apply nth_error_None in E; lia].
  assert (HP : forall p, In p (c_prev nd) -> 0 < snd (W p)).
  { intros p Hp. pose proof (wf_topo g wf i nd p E Hp). apply IH; lia. }
  pose proof (HW i nd E) as HC. pose proof (wf_arity g wf nd (nth_error_In _ _ E)) as HA. pose proof (wf_numbers g wf nd (nth_error_In _ _ E)) as HN.
  unfold count_ok, arity_ok, numbers_ok in *. destruct (c_kind nd) as [a b c|a b|a|a b| | | | |r|c|].
  - destruct HC as [-> _]. cbn. lia.
  - destruct HC as [-> _]. cbn. lia.
  - destruct HC as [-> _]. cbn. lia.
  - destruct HC as [-> _]. cbn. lia.
  - destruct HA as [p Ep], HC as [H1 H2]. specialize (HP p). specialize (H2 p). rewrite Ep in *. cbn in *. lia.
  - destruct HA as [p Ep], HC as [H1 H2]. specialize (HP p). specialize (H2 p). rewrite Ep in *. cbn in *. lia.
  - destruct HC as [H1 H2]. destruct (c_prev nd) as [|p l]; [congruence|]. specialize (HP p (or_introl eq_refl)). specialize (H2 p (or_introl eq_refl)). lia.
  - cbv zeta in HC. rewrite HC. cbn [fst snd]. destruct (c_prev nd) as [|p l]; [congruence|]. specialize (HP p (or_introl eq_refl)). cbn. lia.
  - destruct HA as [p Ep], HC as [H1 H2]. specialize (HP p). specialize (H2 p). rewrite Ep in *. cbn in *. nia.
  - rewrite HC. cbn. lia.
  - destruct HC as (H1 & p & l & Ep & H2). specialize (HP p). rewrite Ep in *. cbn in *. lia.
Qed.
Definition Good2 (s : fstate) : Prop :=
  Inv (f_uf s) /\ forall j nd, j < length (f_nodes s) -> nth_error g j = Some nd ->
    tvalid s (trip_of s j) /\ tlen (c_kind nd) (W j) (trip_of s j).
Lemma mapM_ret s : forall ps, (forall p, In p ps -> p < length (f_nodes s)) -> mapM (ret_of s) ps = Ok (map (fun p => t_ret (trip_of s p)) ps).
Proof.
  intros ps H. apply mapM_all_ok. intros p Hp. unfold ret_of, trip_of. specialize (H p Hp).
  rewrite (nth_error_nth' _ {| t_in := []; t_out := []; t_ret := [] |} H). reflexivity.
Qed.
Lemma tvalid_fine s s' tr : fine s s' -> tvalid s tr -> tvalid s' tr.
Proof. intros F (A & B & C). split; [|split]; eapply fine_valid; eauto. Qed.
Lemma node_ok numin s nd : Good2 s -> nth_error g (length (f_nodes s)) = Some nd ->
  exists s', forward_node numin (channel_table g) s nd = Ok s' /\ Good2 s' /\ length (f_nodes s') = S (length (f_nodes s)) /\ (BI s -> BI s').
Proof.
  intros [HI HG] E. set (i := length (f_nodes s)) in *.
  assert (Hi : i < length g) by (apply nth_error_Some; congruence).
  pose proof (counts_table g wf W HW i Hi) as HT. rewrite (table_nth g (wf_topo g wf) i nd E) in HT. injection HT as HT.
  assert (Hret : forall p, In p (c_prev nd) -> p < i /\ valid s (t_ret (trip_of s p)) /\ length (t_ret (trip_of s p)) = snd (W p)).
  { intros p Hp. pose proof (wf_topo g wf i nd p E Hp) as Hpi. split; [exact Hpi|].
    destruct (nth_error g p) as [q|] eqn:Eq; [|apply nth_error_None in Eq; lia].
    destruct (HG p q Hpi Eq) as [(_ & _ & V) T]. split; [exact V|]. pose proof (wf_end g wf i nd p q E Hp Eq) as NE.
    unfold tlen in T. destruct (c_kind q); try congruence; apply T. }
  pose proof (HW i nd E) as HC. pose proof (wf_arity g wf nd (nth_error_In _ _ E)) as HA. pose proof (wf_numbers g wf nd (nth_error_In _ _ E)) as HN.
  pose proof (counts_pos i Hi) as [HP _].
  assert (HCF : exists s1 tr, (match c_prev nd with
      | [] => let '(s1, t) := fresh s numin in channel_forward s1 (c_kind nd) (channels_of (channel_table g) nd) [t]
      | ps => do ts <- mapM (ret_of s) ps; channel_forward s (c_kind nd) (channels_of (channel_table g) nd) ts end) = Ok (s1, tr) /\
     fine s s1 /\ tvalid s1 tr /\ tlen (c_kind nd) (W i) tr).
  { rewrite HT. destruct (c_prev nd) as [|p0 ps0] eqn:Ep.
    - destruct (fresh_fine s numin HI) as (F1 & V1 & L1). destruct (fresh s numin) as [s1 t]. cbn [fst snd] in *.
      assert (HK : exists c, c_kind nd = KInput c).
      { unfold arity_ok in HA. rewrite Ep in HA. destruct (c_kind nd); try congruence; try (destruct HA; discriminate). eauto. }
      destruct HK as [c HK]. unfold count_ok in HC. rewrite HK in *.
      destruct (cf_fine s1 (KInput c) (W i) [t]) as (s2 & tr & E2 & F2 & TV & TL); [apply F1|intros t' [<-|[]]; exact V1|exact HN|exact HP|exact HC|].
      exists s2, tr. split; [exact E2|]. split; [eapply fine_trans; eauto|auto].
    - rewrite <- Ep in *. assert (Epp : exists p ps, c_prev nd = p :: ps) by eauto.
      rewrite mapM_ret by (intros p Hp; apply Hret; exact Hp). cbn [bind].
      set (ts := map (fun p => t_ret (trip_of s p)) (c_prev nd)).
      assert (HV : forall t, In t ts -> valid s t) by (intros t Ht; apply in_map_iff in Ht as (p & <- & Hp); apply Hret; exact Hp).
      apply (cf_fine s (c_kind nd) (W i) ts HI HV HN HP).
      assert (Hone : forall p, c_prev nd = [p] -> ts = [t_ret (trip_of s p)] /\ length (t_ret (trip_of s p)) = snd (W p)).
      { intros p Epr. unfold ts. rewrite Epr. split; [reflexivity|]. apply Hret. rewrite Epr. left. reflexivity. }
      unfold ts_ok, count_ok, arity_ok in *. destruct (c_kind nd) as [a b c|a b|a|a b| | | | |r|c|].
      + destruct HA as [p Epr], HC as [H1 H2]. destruct (Hone p Epr) as [H3 H4]. split; [exact H1|]. eexists. split; [exact H3|]. rewrite H4. apply H2. rewrite Epr. left. reflexivity.
      + destruct HA as [p Epr], HC as [H1 H2]. destruct (Hone p Epr) as [H3 H4]. split; [exact H1|]. eexists. split; [exact H3|]. rewrite H4. apply H2. rewrite Epr. left. reflexivity.
      + destruct HA as [p Epr], HC as [H1 H2]. destruct (Hone p Epr) as [H3 H4]. split; [exact H1|]. eexists. split; [exact H3|]. rewrite H4. apply H2. rewrite Epr. left. reflexivity.
      + destruct HA as [p Epr], HC as [H1 H2]. destruct (Hone p Epr) as [H3 H4]. split; [exact H1|]. eexists. split; [exact H3|]. rewrite H4. apply H2. rewrite Epr. left. reflexivity.
      + destruct HA as [p Epr], HC as [H1 H2]. destruct (Hone p Epr) as [H3 H4]. split; [exact H1|]. eexists. split; [exact H3|]. rewrite H4. apply H2. rewrite Epr. left. reflexivity.
      + destruct HA as [p Epr], HC as [H1 H2]. destruct (Hone p Epr) as [H3 H4]. split; [exact H1|]. eexists. split; [exact H3|]. rewrite H4. apply H2. rewrite Epr. left. reflexivity.
      + destruct HC as [H1 H2]. split; [exact H1|]. split; [unfold ts; intros H; apply map_eq_nil in H; contradiction|].
        intros t Ht. apply in_map_iff in Ht as (p & <- & Hp). rewrite (proj2 (proj2 (Hret p Hp))). apply H2. exact Hp.
      + cbv zeta in HC. rewrite HC. cbn [fst snd]. split; [reflexivity|]. unfold ts. clear - Hret.
        assert (G : forall l, (forall p, In p l -> length (t_ret (trip_of s p)) = snd (W p)) ->
          length (concat (map (fun p => t_ret (trip_of s p)) l)) = list_sum (map (fun p => snd (W p)) l)).
        { induction l as [|p l IH]; intros H; cbn; [reflexivity|]. rewrite app_length, H, IH; auto with datatypes. }
        apply G. intros p Hp. apply Hret. exact Hp.
      + destruct HA as [p Epr], HC as [H1 H2]. destruct (Hone p Epr) as [H3 H4]. split; [exact H1|]. eexists. split; [exact H3|]. rewrite H4. apply H2. rewrite Epr. left. reflexivity.
      + exact HC.
      + exact I. }
  destruct HCF as (s1 & tr & E1 & F1 & TV & TL). unfold forward_node. rewrite E1.
  exists (add_trip s1 tr). split; [reflexivity|]. destruct F1 as (I1 & N1 & D1).
  split; [|split; [cbn; rewrite app_length, D1; cbn; unfold i; lia|exact (proj2 N1)]].
  split; [exact I1|]. intros j nd' Hj Ej. cbn in Hj. rewrite app_length, D1 in Hj. cbn in Hj. fold i in Hj.
  destruct (Nat.eq_dec j i) as [->|Hne].
  - assert (nd' = nd) by congruence. subst nd'. assert (Ei : i = length (f_nodes s1)) by (unfold i; rewrite D1; reflexivity).
    rewrite Ei at 1 3. rewrite trip_of_last. split; [exact TV|exact TL].
  - rewrite trip_of_add by (rewrite D1; unfold i in *; lia). rewrite (trip_of_nodes _ _ _ D1).
    destruct (HG j nd' ltac:(unfold i in *; lia) Ej) as [HV HL]. split; [|exact HL].
    change (tvalid s1 (trip_of s j)). apply (tvalid_fine s s1); [|exact HV]. split; [exact I1|split; [exact N1|exact D1]].
Qed.
Lemma nodes_ok numin : forall l s, Good2 s -> (forall k nd, nth_error l k = Some nd -> nth_error g (length (f_nodes s) + k) = Some nd) ->
  exists s', foldM (forward_node numin (channel_table g)) l s = Ok s' /\ Good2 s' /\ length (f_nodes s') = length (f_nodes s) + length l /\ (BI s -> BI s').
Proof.
  induction l as [|nd l IH]; intros s HG Hl; [exists s; split; [reflexivity|]; split; [exact HG|split; [cbn; lia|auto]]|]. cbn [foldM].
  destruct (node_ok numin s nd HG) as (s1 & E1 & G1 & L1 & B1); [rewrite <- (Nat.add_0_r (length _)); apply Hl; reflexivity|]. rewrite E1. cbn [bind].
  destruct (IH s1 G1) as (s2 & E2 & G2 & L2 & B2).
  { intros k nd' Hk. rewrite L1. replace (S (length (f_nodes s)) + k) with (length (f_nodes s) + S k) by lia. apply Hl. exact Hk. }
  exists s2. split; [exact E2|]. split; [exact G2|]. split; [rewrite L2, L1; cbn; lia|auto].
Qed.
Lemma good2_fine s s' : fine s s' -> Good2 s -> Good2 s'.
Proof.
  intros F [_ HG]. split; [apply F|]. destruct F as (A & B & C). intros j nd Hj E. rewrite C in Hj. rewrite (trip_of_nodes _ _ _ C).
  destruct (HG j nd Hj E) as [V T]. split; [|exact T]. apply (tvalid_fine s s'); [split; [exact A|split; assumption]|exact V].
Qed.
Lemma same_module i j m : mod_of g i = Some m -> mod_of g j = Some m ->
  exists a b, nth_error g i = Some a /\ nth_error g j = Some b /\ W i = W j /\ c_kind a = c_kind b /\ is_module (c_kind a).
Proof.
  unfold mod_of. destruct (nth_error g i) as [a|] eqn:Ea; [|discriminate]. destruct (nth_error g j) as [b|] eqn:Eb; [|discriminate].
  intros Ma Mb. destruct (wf_shared g wf i j a b m Ea Eb Ma Mb) as [K M]. exists a, b. repeat split; auto.
  pose proof (HW i a Ea) as Ha. pose proof (HW j b Eb) as Hb. unfold count_ok in *. rewrite <- K in Hb.
  destruct (c_kind a); try contradiction; destruct Ha as [-> _], Hb as [-> _]; reflexivity.
Qed.
Lemma merge_two_ok s i j m : Good2 s -> i < length (f_nodes s) -> j < length (f_nodes s) -> mod_of g i = Some m -> mod_of g j = Some m ->
  exists s', merge_two s i j = Ok s' /\ fine s s'.
Proof.
  intros [HI HG] Hi Hj Mi Mj. destruct (same_module i j m Mi Mj) as (a & b & Ea & Eb & EW & K & M).
  destruct (HG i a Hi Ea) as [(V1 & V2 & _) T1]. destruct (HG j b Hj Eb) as [(V3 & V4 & _) T2]. rewrite <- K, <- EW in T2.
  assert (L : length (t_in (trip_of s i)) = length (t_in (trip_of s j)) /\ length (t_out (trip_of s i)) = length (t_out (trip_of s j))).
  { unfold tlen in *. destruct (c_kind a); try contradiction; destruct T1 as (A1 & A2 & _), T2 as (B1 & B2 & _); split; congruence. }
  unfold merge_two. destruct (union_fine s _ _ HI V1 V3 (proj1 L)) as (s1 & E1 & F1). rewrite E1. cbn [bind].
  destruct (union_fine s1 _ _ (proj1 F1) (fine_valid _ _ _ F1 V2) (fine_valid _ _ _ F1 V4) (proj2 L)) as (s2 & E2 & F2).
  exists s2. split; [exact E2|eapply fine_trans; eauto].
Qed.
Lemma merge_all_ok : forall ms s, Good2 s -> length (f_nodes s) = length g ->
  exists s', foldM (merge_module g) ms s = Ok s' /\ fine s s'.
Proof.
  induction ms as [|m ms IH]; intros s HG HL; [exists s; split; [reflexivity|apply fine_refl; apply HG]|]. cbn [foldM].
  assert (H1 : exists s1, merge_module g s m = Ok s1 /\ fine s s1).
  { unfold merge_module. destruct (nodes_of g m) as [|i r] eqn:En; [exists s; split; [reflexivity|apply fine_refl; apply HG]|].
    assert (Hin : forall j, In j (i :: r) -> j < length g /\ mod_of g j = Some m).
    { intros j Hj. rewrite <- En in Hj. unfold nodes_of in Hj. apply filter_In in Hj as [H1 H2]. apply in_seq in H1. split; [lia|].
      unfold has_mod in H2. destruct (mod_of g j) as [m'|]; [|discriminate]. apply Nat.eqb_eq in H2. congruence. }
    clear En. destruct (Hin i (or_introl eq_refl)) as [Hi Mi].
    assert (HF : forall l s0, (forall j, In j l -> j < length g /\ mod_of g j = Some m) -> fine s s0 ->
       exists s1, foldM (fun s j => merge_two s i j) l s0 = Ok s1 /\ fine s s1).
    { induction l as [|j l IHl]; intros s0 Hl F0; [exists s0; auto|]. cbn [foldM]. destruct (Hl j (or_introl eq_refl)) as [Hj Mj].
      destruct (merge_two_ok s0 i j m (good2_fine _ _ F0 HG)) as (s1 & E1 & F1); try assumption; try (destruct F0 as (_ & _ & C); rewrite C, HL; assumption).
      rewrite E1. cbn [bind]. apply IHl; [intros; apply Hl; right; assumption|eapply fine_trans; eauto]. }
    apply HF; [intros j Hj; apply Hin; right; exact Hj|apply fine_refl; apply HG]. }
  destruct H1 as (s1 & E1 & F1). rewrite E1. cbn [bind].
  destruct (IH s1 (good2_fine _ _ F1 HG)) as (s2 & E2 & F2); [destruct F1 as (_ & _ & C); congruence|].
  exists s2. split; [exact E2|eapply fine_trans; eauto].
Qed.
End Run.

(** A graph whose channel numbers fit can be run, whatever the number of input channels passed,
    and the tensors of every node have those numbers of channels. *)
Definition widths_ok (s : fstate) (i : nat) (k : kind) (w : nat * nat) : Prop :=
  match k with
  | KPass => width s i SIn = 1 /\ width s i SOut = 1 /\ width s i SRet = snd w
  | KEnd => width s i SIn = 1 /\ width s i SOut = 1 /\ width s i SRet = 1
  | _ => width s i SIn = fst w /\ width s i SOut = snd w /\ width s i SRet = snd w
  end.
Lemma forward_good g W numin : well_formed g -> counts g W ->
  exists s, forward g numin = Ok s /\ Good2 g W s /\ BI s /\ length (f_nodes s) = length g.
Proof.
  intros wf HW. unfold forward, forward_nodes.
  destruct (nodes_ok g W wf HW numin g f_init) as (s & E & G & L & B).
  - split; [exact inv_empty|]. cbn. lia.
  - intros k nd Hk. exact Hk.
  - rewrite E. cbn [bind]. unfold merge_same_module. cbn in L.
    destruct (merge_all_ok g W wf HW (modules g []) s G L) as (s' & E' & F). exists s'. split; [exact E'|].
    split; [apply (good2_fine g W _ _ F G)|]. destruct F as (_ & (_ & FB) & C).
    split; [apply FB, B; split; [reflexivity|cbn; lia]|rewrite C; exact L].
Qed.
Theorem C99_forward :
  forall g W numin, well_formed g -> counts g W ->
  exists s, forward g numin = Ok s /\
    forall i nd, nth_error g i = Some nd -> widths_ok s i (c_kind nd) (W i).
Proof.
  intros g W numin wf HW. destruct (forward_good g W numin wf HW) as (s & E & [_ G] & _ & L). exists s. split; [exact E|].
  intros i nd Hi. assert (Hl : i < length (f_nodes s)) by (rewrite L; apply nth_error_Some; congruence).
  destruct (G i nd Hl Hi) as [_ T]. unfold widths_ok, width, tlen in *. destruct (c_kind nd); exact T.
Qed.
Print Assumptions C99_forward.

(** Together: what [check_channel] accepts can be run. *)
Corollary C99_checked_runs :
  forall g numin, well_formed g -> (forall nd, In nd g -> check_channel (channel_table g) nd = Ok true) ->
  exists s, forward g numin = Ok s.
Proof.
  intros g numin wf H. apply (C99_check g wf) in H. destruct H as [W HW]. destruct (C99_forward g W numin wf HW) as (s & E & _). eauto.
Qed.
Print Assumptions C99_checked_runs.

(** Two branches sharing a convolution, concatenated, a group norm, a flatten that multiplies the
    channels, and the end node. *)
Definition ex_mixed : list cnode :=
  [nd_ (KInput 3) [] None 0; nd_ (KConv 3 4 1) [0] (Some 1) 1; nd_ (KConv 3 4 1) [0] (Some 1) 1;
   nd_ KCat [1; 2] None 3; nd_ (KGn 8 4) [3] (Some 4) 4; nd_ KPass [4] None 5; nd_ (KExpand 9) [5] None 6;
   nd_ (KLinear 72 10) [6] (Some 7) 7; nd_ KEnd [7] None 8].
Definition ex_mixed_W (i : nat) : nat * nat :=
  nth i [(3, 3); (3, 4); (3, 4); (8, 8); (8, 8); (8, 8); (8, 72); (72, 10); (10, 10)] (0, 0).
Lemma nth_pairs {A} (l : list A) i x : nth_error l i = Some x -> In (i, x) (combine (seq 0 (length l)) l).
Proof.
  intros H. apply nth_error_combine with i; [|exact H]. rewrite (nth_error_nth' _ 0); [rewrite seq_nth|rewrite seq_length]; try reflexivity; apply nth_error_Some; congruence.
Qed.
Ltac each H := apply nth_pairs in H; cbn in H; repeat (destruct H as [[= <- <-]|H]); [..|destruct H].
Lemma ex_mixed_wf : well_formed ex_mixed.
Proof.
  split.
  - intros i nd p H. each H; cbn; lia.
  - intros i nd p q H. each H; cbn; intros H; repeat (destruct H as [<-|H]; [intros [= <-]; discriminate|]); destruct H.
  - intros nd H. repeat (destruct H as [<-|H]; [cbn; eauto; try discriminate|]). destruct H.
  - intros nd H. repeat (destruct H as [<-|H]; [cbn; repeat split; try lia|]); [..|destruct H].
    + exists 3. reflexivity.
    + exists 4. reflexivity.
    + exists 3. reflexivity.
    + exists 4. reflexivity.
    + exists 2. reflexivity.
  - intros i j a b m H1 H2. each H1; each H2; cbn; intros E1 E2; try discriminate; try congruence; split; try reflexivity; exact I.
Qed.
Example C99_case : well_formed ex_mixed /\ counts ex_mixed ex_mixed_W /\
  (exists s, forward ex_mixed 3 = Ok s /\ width s 3 SOut = 8 /\ width s 6 SOut = 72 /\ width s 8 SIn = 1) /\
  check_channel (channel_table (ex_mixed ++ [nd_ (KLinear 9 2) [7] (Some 9) 9])) (nd_ (KLinear 9 2) [7] (Some 9) 9) = Ok false.
Proof.
  assert (HC : counts ex_mixed ex_mixed_W).
  { intros i nd H. each H; cbn; try (split; [reflexivity|]); try reflexivity; try (intros p [<-|[]]; reflexivity). exists 7, []. auto. }
  split; [exact ex_mixed_wf|]. split; [exact HC|]. split; [|vm_compute; reflexivity].
  destruct (C99_forward ex_mixed ex_mixed_W 3 ex_mixed_wf HC) as (s & E & H). exists s. split; [exact E|].
  split; [apply (H 3 _ eq_refl)|]. split; [apply (H 6 _ eq_refl)|apply (H 8 _ eq_refl)].
Qed.

(** A node without inputs whose kind says nothing about channels is given three, or raises. *)
Theorem C99_no_inputs g i nd :
  (forall i nd p, nth_error g i = Some nd -> In p (c_prev nd) -> p < i) ->
  nth_error g i = Some nd -> c_prev nd = [] ->
  nth_error (channel_table g) i = Some
    (match c_kind nd with
     | KConv a b _ | KLinear a b => Ok (a, b)
     | KBn c | KGn c _ | KInput c => Ok (c, c)
     | KPass | KCat => Raise AssertionError
     | KExpand r => Ok (3, 3 * r)
     | KPassUnion | KBind | KEnd => Ok (3, 3)
     end).
Proof. intros H Hi P. rewrite (table_nth g H i nd Hi). f_equal. unfold channels_of, in_by_prev. rewrite P. destruct (c_kind nd); reflexivity. Qed.
Print Assumptions C99_no_inputs.
Example C99_no_inputs_case :
  channel_table [nd_ (KExpand 4) [] None 0; nd_ KBind [0] None 1; nd_ KCat [] None 2] = [Ok (3, 12); Ok (12, 12); Raise AssertionError].
Proof. reflexivity. Qed.
