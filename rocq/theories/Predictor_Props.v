(** Encoding candidates for predictors (C173), predicting with what was trained (C174) and using the predictor in the search (C175). *)
From Coq Require Import List Arith Bool String Lia.
From Verif Require Import Prelude Evolution_Model FixSubnet_Model FixSubnet_Props Groups_Model Groups2_Props Predictor_Model.
Import ListNotations.
Local Open Scope nat_scope.

(** ** Specification *)
(** A candidate names every group in order and chooses one of the choices of its first mutable. *)
Definition valid (choices : nat -> list string) (g : groups) (c : list (string * string)) : Prop :=
  Forall2 (fun ng kc => fst kc = fst ng /\ exists m l, snd ng = m :: l /\ In (snd kc) (choices m)) g c.
Definition plain (c : list (string * string)) : list (string * entry) := map (fun kc => (fst kc, Plain (snd kc))) c.
(** The number of choices of a group. *)
Definition size (choices : nat -> list string) (ng : string * list nat) : nat := match snd ng with [] => 0 | m :: _ => List.length (choices m) end.

(** ** Lemmas *)
Lemma index_in c l : In c l -> exists i, index_of c l = Ok i /\ nth_error l i = Some c.
Proof.
  induction l as [|x l IH]; intros H; [destruct H|]. cbn [index_of]. destruct (String.eqb_spec x c) as [E|E].
  - subst x. exists 0. split; reflexivity.
  - destruct H as [H|H]; [contradiction|]. destruct (IH H) as [i [I N]]. exists (S i). rewrite I. split; [reflexivity|exact N].
Qed.
Lemma index_nth c l i : index_of c l = Ok i -> nth_error l i = Some c.
Proof.
  revert i. induction l as [|x l IH]; intros i; cbn [index_of]; [discriminate|]. destruct (String.eqb_spec x c) as [E|E].
  - intros H. apply Ok_inj in H. subst. reflexivity.
  - destruct (index_of c l) as [j|] eqn:J; cbn [bind]; [|discriminate]. intros H. apply Ok_inj in H. subst i. cbn. apply IH. reflexivity.
Qed.
Lemma onehot_length n i : List.length (onehot n i) = n.
Proof. unfold onehot. rewrite map_length, seq_length. reflexivity. Qed.
Lemma first_one_zeros k i a : k <= i -> first_one (map (fun j => if j =? i then 1 else 0) (seq k (i - k)) ++ 1 :: a) = Ok (i - k).
Proof.
  intros L. remember (i - k) as d eqn:D. revert k L D. induction d as [|d IH]; intros k L D; [reflexivity|].
  cbn [seq map app first_one]. destruct (Nat.eqb_spec k i) as [E|E]; [lia|]. cbn [Nat.eqb]. rewrite (IH (S k)) by lia. reflexivity.
Qed.
Lemma onehot_split n i : i < n -> onehot n i = map (fun j => if j =? i then 1 else 0) (seq 0 i) ++ 1 :: map (fun j => if j =? i then 1 else 0) (seq (S i) (n - S i)).
Proof.
  intros L. unfold onehot. replace n with (i + S (n - S i)) at 1 by lia. rewrite seq_app, map_app. cbn [seq map plus]. rewrite Nat.eqb_refl. reflexivity.
Qed.
Lemma first_onehot n i : i < n -> first_one (onehot n i) = Ok i.
Proof. intros L. rewrite onehot_split by exact L. pose proof (first_one_zeros 0 i (map (fun j => if j =? i then 1 else 0) (seq (S i) (n - S i))) ltac:(lia)) as H. rewrite Nat.sub_0_r in H. exact H. Qed.
Lemma group_of_in g k l : NoDup (map fst g) -> In (k, l) g -> group_of g k = Ok l.
Proof.
  induction g as [|[n l0] g IH]; cbn [map fst group_of]; intros N H; [destruct H|]. inversion N; subst. destruct H as [H|H].
  - injection H as -> ->. rewrite String.eqb_refl. reflexivity.
  - destruct (String.eqb_spec n k) as [E|E]; [|apply IH; assumption]. subst n. exfalso. apply H2. apply in_map_iff. exists (k, l). split; [reflexivity|exact H].
Qed.
(** Encoding part of the groups. *)
Lemma encode_part choices full : NoDup (map fst full) -> forall g c, incl g full -> valid choices g c ->
  exists es, mapM (encode_entry choices full) (plain c) = Ok es /\
    Forall2 (fun ng e => fst e = size choices ng /\ snd e < fst e) g es /\
    decode choices Normal g (map snd es) = Ok c /\ decode choices Onehot g (flat_map (fun e => onehot (fst e) (snd e)) es) = Ok c.
Proof.
  intros N g c I V. induction V as [|[n l0] [k c0] g c [E [m [l [L CI]]]] V IH]; cbn [plain map mapM].
  - exists []. repeat split. constructor.
  - cbn in E, L. subst k l0. destruct IH as [es [M [F [D1 D2]]]]. { intros x X. apply I. right. exact X. }
    destruct (index_in _ _ CI) as [i [IX NX]]. cbn in IX, NX.
    assert (LT : i < List.length (choices m)). { apply nth_error_Some. rewrite NX. discriminate. }
    unfold encode_entry at 1. cbn [fst snd]. rewrite (group_of_in full n (m :: l)) by (try exact N; apply I; left; reflexivity). cbn [bind]. rewrite IX. cbn [bind].
    fold (plain c). rewrite M. cbn [bind]. exists ((List.length (choices m), i) :: es). split; [reflexivity|]. split; [constructor; [cbn; split; [reflexivity|exact LT]|exact F]|].
    assert (NC : nth_choice (choices m) (if 1 <? List.length (choices m) then i else 0) = Ok c0).
    { unfold nth_choice. destruct (Nat.ltb_spec 1 (List.length (choices m))) as [T|T]; [rewrite NX; reflexivity|]. replace i with 0 in NX by lia. rewrite NX. reflexivity. }
    split; cbn [decode map flat_map fst snd].
    + cbn [bind skipn]. rewrite NC. cbn [bind]. rewrite D1. reflexivity.
    + rewrite firstn_app, onehot_length, Nat.sub_diag. cbn [firstn]. rewrite app_nil_r. rewrite <- (onehot_length (List.length (choices m)) i) at 1. rewrite firstn_all.
      rewrite first_onehot by exact LT. cbn [bind]. rewrite NC. cbn [bind]. rewrite skipn_app, onehot_length, Nat.sub_diag. cbn [skipn].
      rewrite <- (onehot_length (List.length (choices m)) i) at 1. rewrite skipn_all. cbn [app]. rewrite D2. reflexivity.
Qed.
Lemma Forall2_length_eq {A B} (P : A -> B -> Prop) l r : Forall2 P l r -> List.length l = List.length r.
Proof. induction 1; cbn; congruence. Qed.
Definition ones (v : list nat) : nat := List.length (filter (fun x => x =? 1) v).
Lemma ones_app a b : ones (a ++ b) = ones a + ones b.
Proof. unfold ones. rewrite filter_app, app_length. reflexivity. Qed.
Lemma ones_none k n i : i < k \/ k + n <= i -> ones (map (fun j => if j =? i then 1 else 0) (seq k n)) = 0.
Proof.
  revert k. induction n as [|n IH]; intros k H; [reflexivity|]. cbn [seq map]. destruct (Nat.eqb_spec k i) as [E|E]; [lia|]. unfold ones in *. cbn [filter Nat.eqb]. apply IH. lia.
Qed.
Lemma ones_onehot n i : i < n -> ones (onehot n i) = 1.
Proof.
  intros L. rewrite onehot_split by exact L. rewrite ones_app, ones_none by lia. change (1 :: map (fun j => if j =? i then 1 else 0) (seq (S i) (n - S i))) with ([1] ++ map (fun j => if j =? i then 1 else 0) (seq (S i) (n - S i))).
  rewrite ones_app, ones_none by lia. reflexivity.
Qed.

(** ** C173 *)
(** Every candidate of the search space is encoded: one entry for each group, or one block for each group with a single 1. *)
Theorem C173_encode : forall choices g c, NoDup (map fst g) -> valid choices g c ->
  exists n o, model2vector choices g (plain c) = Ok (n, o) /\ List.length n = List.length g /\ Forall2 (fun ng i => i < size choices ng) g n /\
    List.length o = list_sum (map (size choices) g) /\ ones o = List.length g.
Proof.
  intros choices g c N V. destruct (encode_part choices g N g c (incl_refl _) V) as [es [M [F _]]]. exists (map snd es), (flat_map (fun e => onehot (fst e) (snd e)) es).
  assert (L : List.length g = List.length es) by (eapply Forall2_length_eq; exact F).
  split.
  { unfold model2vector, plain. rewrite map_length. rewrite <- (Forall2_length_eq _ _ _ V), Nat.eqb_refl. cbn [assert_ bind]. fold (plain c). rewrite M. reflexivity. }
  split; [rewrite map_length; symmetry; exact L|]. clear M V L N. split; [|split].
  - induction F as [|ng e g es [E1 E2] F IH]; cbn; constructor; [lia|exact IH].
  - induction F as [|ng e g es [E1 E2] F IH]; cbn; [reflexivity|]. rewrite app_length, onehot_length, IH, E1. reflexivity.
  - induction F as [|ng e g es [E1 E2] F IH]; cbn [flat_map]; [reflexivity|]. rewrite ones_app, ones_onehot by exact E2. rewrite IH. reflexivity.
Qed.
(** Decoding should give the candidate back. *)
Definition C173_claim : Prop := forall choices g c n o, NoDup (map fst g) -> valid choices g c -> model2vector choices g (plain c) = Ok (n, o) ->
  vector2model choices Normal g n = Ok c /\ vector2model choices Onehot g o = Ok c.
(** It does for vectors of more than one entry. *)
Theorem C173_roundtrip_partial : forall choices g c n o, NoDup (map fst g) -> valid choices g c -> model2vector choices g (plain c) = Ok (n, o) ->
  (List.length n <> 1 -> vector2model choices Normal g n = Ok c) /\ (List.length o <> 1 -> vector2model choices Onehot g o = Ok c).
Proof.
  intros choices g c n o N V E. destruct (encode_part choices g N g c (incl_refl _) V) as [es [M [F [D1 D2]]]].
  unfold model2vector in E. destruct (assert_ _); cbn [bind] in E; [|discriminate E]. rewrite M in E. cbn [bind] in E. apply Ok_inj in E. injection E as <- <-.
  split; intros L; unfold vector2model; destruct g as [|ng g].
  - inversion V; subst. reflexivity.
  - destruct (Nat.eqb_spec (List.length (map snd es)) 1) as [Q|Q]; [contradiction|exact D1].
  - inversion V; subst. reflexivity.
  - match goal with |- (if ?b =? 1 then _ else _) = _ => destruct (Nat.eqb_spec b 1) as [Q|Q] end; [contradiction|exact D2].
Qed.
Definition ex_choices (i : nat) : list string := match i with 0 => ["k3"; "k5"; "k7"] | 1 => ["skip"; "conv"] | _ => ["only"] end%string.
Example C173_roundtrip_at : model2vector ex_choices [("op_0", [0; 2]); ("op_1", [1])]%string (plain [("op_0", "k5"); ("op_1", "skip")]%string) = Ok ([1; 0], [0; 1; 0; 1; 0]) /\
  vector2model ex_choices Onehot [("op_0", [0; 2]); ("op_1", [1])]%string [0; 1; 0; 1; 0] = Ok [("op_0", "k5"); ("op_1", "skip")]%string.
Proof. split; reflexivity. Qed.
(** A search space of one group has normal vectors of one entry, which cannot be decoded. *)
Theorem C173_single_refuted : ~ C173_claim.
Proof.
  intros K. destruct (K ex_choices [("op_0", [0])]%string [("op_0", "k5")]%string [1] [0; 1; 0]) as [K1 _].
  - constructor; [intros []|constructor].
  - constructor; [|constructor]. split; [reflexivity|]. exists 0, []. split; [reflexivity|]. right; left; reflexivity.
  - reflexivity.
  - discriminate K1.
Qed.
(** Two candidates with the same vector, of either kind, are the same. *)
Theorem C173_injective : forall choices g c d n o n' o', NoDup (map fst g) -> valid choices g c -> valid choices g d ->
  model2vector choices g (plain c) = Ok (n, o) -> model2vector choices g (plain d) = Ok (n', o') -> n = n' \/ o = o' -> c = d.
Proof.
  intros choices g c d n o n' o' N VC VD EC ED S.
  destruct (encode_part choices g N g c (incl_refl _) VC) as [es [M [_ [D1 D2]]]]. destruct (encode_part choices g N g d (incl_refl _) VD) as [fs [M' [_ [D1' D2']]]].
  unfold model2vector in EC, ED. destruct (assert_ _); cbn [bind] in EC; [|discriminate EC]. destruct (assert_ _); cbn [bind] in ED; [|discriminate ED].
  rewrite M in EC. rewrite M' in ED. cbn [bind] in EC, ED. apply Ok_inj in EC. apply Ok_inj in ED. injection EC as <- <-. injection ED as <- <-.
  destruct S as [S|S]; rewrite S in *; congruence.
Qed.
(** A choice that is none of its group's, or a model with more or fewer keys, is refused. *)
Theorem C173_refused : forall choices g model,
  List.length model <> List.length g \/
  (exists n c m l, In (n, Plain c) model /\ group_of g n = Ok (m :: l) /\ ~ In c (choices m)) ->
  exists e, model2vector choices g model = Raise e.
Proof.
  intros choices g model H. unfold model2vector. destruct (Nat.eqb_spec (List.length model) (List.length g)) as [L|L]; cbn [assert_ bind]; [|eexists; reflexivity].
  destruct H as [H|[n [c [m [l [I [G NI]]]]]]]; [contradiction|]. clear L.
  assert (X : exists e, mapM (encode_entry choices g) model = Raise e).
  { induction model as [|x model IH]; [destruct I|]. cbn [mapM]. destruct I as [->|I].
    - unfold encode_entry at 1. cbn [fst snd]. rewrite G. cbn [bind]. destruct (index_of c (choices m)) as [i|e] eqn:E; cbn [bind]; [|eexists; reflexivity].
      exfalso. apply NI. eapply nth_error_In, index_nth. exact E.
    - destruct (encode_entry choices g x); cbn [bind]; [|eexists; reflexivity]. destruct (IH I) as [e E]. rewrite E. eexists; reflexivity. }
  destruct X as [e E]. rewrite E. eexists; reflexivity.
Qed.
Example C173_refused_at : model2vector ex_choices [("op_0", [0])]%string (plain [("op_0", "k9")]%string) = Raise ValueError /\
  model2vector ex_choices [("op_0", [0])]%string [] = Raise AssertionError.
Proof. split; reflexivity. Qed.

(** ** C174 *)
(** After a candidate is set, the predictor should be asked with the vector it was trained with for this candidate. *)
Definition C174_claim : Prop := forall choices channel alias gname m custom g c h h' e, (forall i j, gname i = gname j -> i = j) ->
  search_groups channel alias gname m custom = Ok g -> valid choices g c -> set_choices g c h = Ok h' ->
  predict_vector choices channel alias true e g m h' = train_vector choices e g c.
(** An aliased mutable behind one without alias: its group comes first, but it is dumped last. *)
Definition ex_net : net := [("a"%string, KMutable 0); ("b"%string, KMutable 1)].
Definition ex_alias (i : nat) : option string := match i with 1 => Some "shared"%string | _ => None end.
Fixpoint gn (n : nat) : string := match n with O => "g" | S k => String.append "g" (gn k) end%string.
Lemma gn_inj : forall i j, gn i = gn j -> i = j.
Proof. induction i as [|i IH]; destruct j as [|j]; cbn; intros H; [reflexivity|injection H as H; destruct j; discriminate H|injection H as H; destruct i; discriminate H|]. injection H as H. f_equal. apply IH. exact H. Qed.
Theorem C174_order_refuted : ~ C174_claim.
Proof.
  intros K. specialize (K ex_choices (fun _ => false) ex_alias gn ex_net [] [("g", [1]); ("gg", [0])]%string [("g", "conv"); ("gg", "k7")]%string (fun _ => ""%string)).
  edestruct (set_choices [("g", [1]); ("gg", [0])]%string [("g", "conv"); ("gg", "k7")]%string (fun _ => ""%string)) as [h'|] eqn:E; [|discriminate E].
  specialize (K h' Normal gn_inj eq_refl). assert (V : valid ex_choices [("g", [1]); ("gg", [0])]%string [("g", "conv"); ("gg", "k7")]%string).
  { repeat constructor; cbn; eexists; eexists; (split; [reflexivity|]); cbn; tauto. }
  specialize (K V eq_refl). cbn in E. apply Ok_inj in E. subst h'. vm_compute in K. discriminate K.
Qed.
(** Mutables grouped by the user: there are more dumped entries than groups. *)
Example C174_custom_at : exists g h', search_groups (fun _ => false) (fun _ => None) gn ex_net [["a"; "b"]]%string = Ok g /\
  valid (fun _ => ["k3"; "k5"]%string) g [("g", "k5")]%string /\ set_choices g [("g", "k5")]%string (fun _ => ""%string) = Ok h' /\
  train_vector (fun _ => ["k3"; "k5"]%string) Onehot g [("g", "k5")]%string = Ok [0; 1] /\
  predict_vector (fun _ => ["k3"; "k5"]%string) (fun _ => false) (fun _ => None) true Onehot g ex_net h' = Raise AssertionError.
Proof. eexists _, _. split; [reflexivity|]. split; [repeat constructor; eexists _, _; split; [reflexivity|]; cbn; tauto|]. split; [reflexivity|]. split; reflexivity. Qed.

(** A channel mutable anywhere in the model: nothing can be predicted. *)
Theorem C174_channel : forall choices channel alias b e g m h k i, In (k, i) (exported alias m) -> channel i = true ->
  exists x, predict_vector choices channel alias b e g m h = Raise x.
Proof.
  intros choices channel alias b e g m h k i I C. unfold predict_vector, model2vector. destruct (assert_ b); cbn [bind]; [|eexists; reflexivity].
  rewrite map_length. destruct (assert_ _); cbn [bind]; [|eexists; reflexivity].
  assert (X : exists x, mapM (encode_entry choices g) (map (fun ki => (fst ki, dump choices channel h (snd ki))) (exported alias m)) = Raise x).
  { revert I. generalize (exported alias m) as l. induction l as [|x l IH]; intros I; [destruct I|]. cbn [map mapM]. destruct I as [->|I].
    - unfold encode_entry at 1, dump at 1. cbn [fst snd]. rewrite C. cbn [bind]. eexists; reflexivity.
    - destruct (encode_entry choices g _); cbn [bind]; [|eexists; reflexivity]. destruct (IH I) as [y Y]. rewrite Y. eexists; reflexivity. }
  destruct X as [x X]. rewrite X. eexists; reflexivity.
Qed.
Example C174_channel_at : predict_vector ex_choices (fun _ => true) (fun _ => None) true Normal [("u", [0])]%string [("a"%string, KMutable 0)] (fun _ => "k3"%string) = Raise KeyError.
Proof. reflexivity. Qed.

(** Mutables used as modules of different names, no aliases, no groups of the user: the vectors are the same. *)
Definition simple (channel : nat -> bool) (alias : nat -> option string) (m : net) : Prop :=
  (forall n k, In (n, k) m -> match k with KMutable i => channel i = false /\ alias i = None | KDerived _ => False | _ => True end) /\
  NoDup (map fst (uses m)) /\ NoDup (map snd (uses m)).
Lemma put_new {X} (d : list (string * X)) k x : ~ In k (map fst d) -> put d k x = d ++ [(k, x)].
Proof.
  induction d as [|[k0 y] d IH]; cbn [put map fst app]; intros H; [reflexivity|]. destruct (String.eqb_spec k0 k) as [E|E]; [exfalso; apply H; left; exact E|].
  rewrite IH; [reflexivity|]. intros I. apply H. right. exact I.
Qed.
Lemma simple_parts channel alias m : simple channel alias m ->
  grouped_modules channel alias m = map (fun ni => {| md_name := fst ni; md_srcs := [(snd ni, None)] |}) (uses m) /\ exported alias m = uses m /\
  (forall n i, In (n, i) (uses m) -> channel i = false /\ alias i = None).
Proof.
  intros [P [N1 _]].
  assert (A : forall n i, In (n, i) (uses m) -> channel i = false /\ alias i = None).
  { intros n i I. unfold uses in I. apply in_flat_map in I. destruct I as [[n0 k] [I J]]. specialize (P _ _ I). destruct k; cbn in J; try contradiction. destruct J as [J|[]]. injection J as -> ->. exact P. }
  split; [|split; [|exact A]].
  - clear N1 A. induction m as [|[n k] m IH]; [reflexivity|]. assert (P' := P n k (or_introl eq_refl)). unfold uses, grouped_modules in *. cbn [flat_map fst snd].
    rewrite IH by (intros n0 k0 I; apply (P n0); right; exact I). destruct k; try reflexivity; [|contradiction]. destruct P' as [P1 P2]. rewrite P1, P2. reflexivity.
  - unfold exported. clear P.
    assert (G : forall l d, (forall n i, In (n, i) l -> alias i = None) -> NoDup (map fst (d ++ l)) ->
                fold_left (fun d ni => put d match alias (snd ni) with Some a => a | None => fst ni end (snd ni)) l d = d ++ l).
    { induction l as [|[n i] l IH]; intros d H ND; [rewrite app_nil_r; reflexivity|]. cbn [fold_left fst snd]. rewrite (H n i (or_introl eq_refl)).
      rewrite put_new.
      - rewrite IH; [rewrite <- app_assoc; reflexivity|intros n0 i0 I; apply (H n0); right; exact I|rewrite <- app_assoc; exact ND].
      - rewrite map_app in ND. cbn in ND. apply NoDup_remove_2 in ND. intros I. apply ND. apply in_or_app. left. exact I. }
    apply (G (uses m) []); [intros n i I; apply (A n i I)|exact N1].
Qed.
Lemma mapM_ext2 {A B C} (f : A -> outcome C) (h : B -> outcome C) l r : Forall2 (fun a b => f a = h b) l r -> mapM f l = mapM h r.
Proof. induction 1 as [|a b l r E F IH]; cbn [mapM]; [reflexivity|]. rewrite E, IH. reflexivity. Qed.
Lemma combine_fst {A B} (l : list A) (r : list B) : List.length l = List.length r -> map fst (combine l r) = l.
Proof. revert r; induction l as [|a l IH]; intros [|b r] E; cbn in *; try discriminate; [reflexivity|]. f_equal. apply IH. lia. Qed.
Lemma combine_snd {A B} (l : list A) (r : list B) : List.length l = List.length r -> map snd (combine l r) = r.
Proof. revert r; induction l as [|a l IH]; intros [|b r] E; cbn in *; try discriminate; [reflexivity|]. f_equal. apply IH. lia. Qed.
Lemma sget_nodup d k c : NoDup (map fst d) -> In (k, c) d -> sget d k = Some c.
Proof.
  induction d as [|[k0 v] d IH]; cbn [map fst sget]; intros N I; [destruct I|]. inversion N; subst. destruct I as [I|I].
  - injection I as -> ->. rewrite String.eqb_refl. reflexivity.
  - destruct (String.eqb_spec k0 k) as [E|E]; [|apply IH; assumption]. subst. exfalso. apply H1. apply in_map_iff. exists (k, c). split; [reflexivity|exact I].
Qed.
Theorem C174_same_partial : forall choices channel alias gname m g c h h' e, (forall i j, gname i = gname j -> i = j) -> simple channel alias m ->
  search_groups channel alias gname m [] = Ok g -> valid choices g c -> set_choices g c h = Ok h' ->
  predict_vector choices channel alias true e g m h' = train_vector choices e g c.
Proof.
  intros choices channel alias gname m g c h h' e GI SM G V ST. destruct (simple_parts _ _ _ SM) as [P1 [P2 P3]]. destruct SM as [_ [_ N2]].
  unfold search_groups in G. rewrite P1 in G. rewrite C24_no_custom in G.
  2: { intros md s I J. apply in_map_iff in I. destruct I as [ni [<- I]]. destruct J as [<-|[]]. reflexivity. }
  cbn [bind] in G. apply Ok_inj in G.
  assert (FM : flat_map md_srcs (map (fun ni : string * nat => {| md_name := fst ni; md_srcs := [(snd ni, None)] |}) (uses m)) = map (fun ni => (snd ni, None)) (uses m)).
  { generalize (uses m) as l. clear. induction l as [|x l IH]; cbn; [reflexivity|]. rewrite IH. reflexivity. }
  rewrite FM, map_map in G. cbn [fst] in G. rewrite map_length in G.
  set (ids := map snd (uses m)) in *. set (names := map gname (seq 0 (List.length (uses m)))) in *.
  replace (map (fun x : string * nat => [snd x]) (uses m)) with (map (fun i : nat => [i]) ids) in G by (unfold ids; rewrite map_map; reflexivity).
  assert (LN : List.length names = List.length ids) by (unfold names, ids; rewrite !map_length, seq_length; reflexivity).
  assert (NN : NoDup names). { unfold names. apply FinFun.Injective_map_NoDup; [intros i j; apply GI|apply seq_NoDup]. }
  assert (GF : map fst g = names) by (rewrite <- G; apply combine_fst; rewrite map_length; exact LN).
  assert (GS : map snd g = map (fun i => [i]) ids) by (rewrite <- G; apply combine_snd; rewrite map_length; exact LN).
  assert (CF : map fst c = names). { rewrite <- GF. clear - V. induction V as [|ng kc g c [E _] V IH]; cbn; [reflexivity|]. rewrite E, IH. reflexivity. }
  assert (HV : forall n i c0, In (n, [i]) g -> In (n, c0) c -> h' i = c0).
  { intros n i c0 I J. destruct (C63_set_choices g c h) as [h2 [E2 [S2 _]]].
    - rewrite GF. exact NN.
    - rewrite GS. replace (concat (map (fun i0 : nat => [i0]) ids)) with ids; [exact N2|]. clear. induction ids as [|x l IH]; cbn; congruence.
    - intros n0 l0 I0. assert (I1 : In l0 (map snd g)) by (apply in_map_iff; exists (n0, l0); split; [reflexivity|exact I0]). rewrite GS in I1. apply in_map_iff in I1. destruct I1 as [x [<- _]]. discriminate.
    - intros n0 I0. rewrite GF, <- CF in I0. apply in_map_iff in I0. destruct I0 as [[n1 c1] [E1 I1]]. cbn in E1. subst n1. rewrite (sget_nodup c n0 c1); [discriminate|rewrite CF; exact NN|exact I1].
    - rewrite ST in E2. apply Ok_inj in E2. subst h2. specialize (S2 n [i] i I (or_introl eq_refl)). rewrite (sget_nodup c n c0) in S2 by (try exact J; rewrite CF; exact NN). congruence. }
  unfold predict_vector, train_vector. cbn [assert_ bind]. rewrite P2. unfold model2vector. rewrite !map_length.
  assert (LU : List.length (uses m) = List.length c). { rewrite <- (map_length fst c), CF. unfold names. rewrite map_length, seq_length. reflexivity. }
  rewrite LU. destruct (assert_ _); cbn [bind]; [|reflexivity].
  replace (mapM (encode_entry choices g) (map (fun ki : string * nat => (fst ki, dump choices channel h' (snd ki))) (uses m)))
    with (mapM (encode_entry choices g) (map (fun kc : string * string => (fst kc, Plain (snd kc))) c)); [reflexivity|].
  apply mapM_ext2.
  assert (K : forall g0 c0 u0, incl g0 g -> incl c0 c -> incl u0 (uses m) -> map snd g0 = map (fun i => [i]) (map snd u0) -> valid choices g0 c0 ->
            Forall2 (fun a b => encode_entry choices g a = encode_entry choices g b) (map (fun kc : string * string => (fst kc, Plain (snd kc))) c0)
                    (map (fun ki : string * nat => (fst ki, dump choices channel h' (snd ki))) u0)).
  { intros g0 c0 u0 IG IC IU EQ V0. revert u0 IU EQ. induction V0 as [|[n l] [k ch] g0 c0 [E1 [m0 [l0 [E2 E3]]]] V0 IH]; intros [|[n1 i] u0] IU EQ; cbn in EQ; try discriminate EQ; [constructor|].
    cbn in E1, E2, E3. subst k. injection EQ as EQ1 EQ2. subst l. injection EQ1 as -> ->. cbn [map]. constructor.
    - unfold encode_entry, dump. cbn [fst snd]. destruct (P3 n1 i (IU _ (or_introl eq_refl))) as [Q _]. rewrite Q. rewrite (group_of_in g n [i]) by (try (rewrite GF; exact NN); apply IG; left; reflexivity).
      cbn [bind]. rewrite (HV n i ch); [reflexivity|apply IG; left; reflexivity|apply IC; left; reflexivity].
    - apply IH; try (intros x X; first [apply IG|apply IC|apply IU]; right; exact X). exact EQ2. }
  apply (K g c (uses m)); try apply incl_refl; [exact GS|exact V].
Qed.
Example C174_same_at : exists g h', simple (fun _ => false) (fun _ => None) ex_net /\ search_groups (fun _ => false) (fun _ => None) gn ex_net [] = Ok g /\
  set_choices g [("g", "k7"); ("gg", "conv")]%string (fun _ => ""%string) = Ok h' /\
  predict_vector ex_choices (fun _ => false) (fun _ => None) true Onehot g ex_net h' = Ok [0; 0; 1; 0; 1].
Proof.
  eexists _, _. split; [|split; [reflexivity|split; [reflexivity|reflexivity]]]. split; [|split].
  - intros n k [H|[H|[]]]; injection H as <- <-; split; reflexivity.
  - cbn. repeat constructor; cbn; intuition discriminate.
  - cbn. repeat constructor; cbn; intuition discriminate.
Qed.
(** Candidates are trained with one entry for each group, or with one block for each group, as configured. *)
Theorem C174_vector : forall choices g c e v, NoDup (map fst g) -> valid choices g c -> train_vector choices e g c = Ok v ->
  match e with Normal => Forall2 (fun ng i => i < size choices ng) g v | Onehot => List.length v = list_sum (map (size choices) g) /\ ones v = List.length g end.
Proof.
  intros choices g c e v N V H. destruct (C173_encode choices g c N V) as (n & o & M & _ & A & B & C). unfold plain in M. unfold train_vector in H. rewrite M in H. cbn [bind] in H. apply Ok_inj in H. subst v. destruct e; cbn [preprocess fst snd]; auto.
Qed.
Print Assumptions C174_vector.
Print Assumptions C173_encode.
Print Assumptions C173_roundtrip_partial.
Print Assumptions C173_single_refuted.
Print Assumptions C173_injective.
Print Assumptions C173_refused.
Print Assumptions C174_order_refuted.
Print Assumptions C174_channel.
Print Assumptions C174_same_partial.
