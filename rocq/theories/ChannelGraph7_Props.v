(** C102, C103: expand nodes, and inputs used twice. *)
From Verif Require Import Prelude UnionFind_Model UnionFind_Props ChannelGraph_Model ChannelGraph_Props ChannelGraph2_Props ChannelGraph5_Props.
From Coq Require Import Relations.
Local Open Scope nat_scope.

(** ** Specification *)

(** An input with [p] channels fits a node with [cin] channels after repeating every channel. *)
Definition expandable (cin p : nat) : Prop := p < cin /\ exists r, cin = p * r.
(** What reaches the node from an input with [fst e] channels. *)
Definition arriving (e : nat * option nat) : nat := match snd e with None => fst e | Some r => fst e * r end.
(** The full claim: every input that can be expanded is, to the node's channels, and the others
    are left alone. *)
Definition all_expanded (cin : nat) (prevs : list nat) : Prop :=
  (forall e, In e (insert_expand cin prevs) -> In (fst e) prevs /\
     match snd e with
     | Some r => expandable cin (fst e) /\ cin = fst e * r
     | None => ~ expandable cin (fst e)
     end) /\
  (forall p, In p prevs -> exists o, In (p, o) (insert_expand cin prevs)) /\
  length (insert_expand cin prevs) = length prevs.
Definition C102_claim : Prop := forall cin prevs, 0 < cin -> (forall p, In p prevs -> 0 < p) -> all_expanded cin prevs.

(** What the loop does: an input behind one that has just been expanded is not looked at. *)
Fixpoint visited (cin : nat) (skip : bool) (l : list nat) : list (nat * bool) :=
  match l with
  | [] => []
  | p :: r =>
      let e := if skip then false else if Nat.ltb p cin then Nat.eqb (cin mod p) 0 else false in
      (p, e) :: visited cin e r
  end.
Definition kept (l : list (nat * bool)) : list nat := map fst (filter (fun e => negb (snd e)) l).
Definition expanded (l : list (nat * bool)) : list nat := map fst (filter snd l).

(** ** Proof *)
Lemma expandable_b cin p : 0 < p -> wants_expand cin p = true <-> expandable cin p.
Proof.
  intros Hp. unfold wants_expand. rewrite Bool.andb_true_iff, Nat.ltb_lt, Nat.eqb_eq. split; intros [H1 H2]; (split; [exact H1|]).
  - exists (cin / p). apply Nat.div_exact; lia.
  - destruct H2 as [r ->]. rewrite Nat.mul_comm. apply Nat.mod_mul. lia.
Qed.
Lemma wants_if cin p : wants_expand cin p = (if Nat.ltb p cin then Nat.eqb (cin mod p) 0 else false).
Proof. unfold wants_expand. destruct (Nat.ltb p cin); reflexivity. Qed.
Definition exp_ (cin : nat) (p : nat) : nat * option nat := (p, Some (cin / p)).
Lemma nth_mid {A} (l1 : list A) x l2 : nth_error (l1 ++ x :: l2) (length l1) = Some x.
Proof. induction l1; cbn; auto. Qed.
Lemma remove_mid {A} (l1 : list A) x l2 : remove_at (length l1) (l1 ++ x :: l2) = l1 ++ l2.
Proof. unfold remove_at. induction l1; cbn; [reflexivity|]. f_equal. exact IHl1. Qed.
(** Nothing happens to the new nodes at the end of the list. *)
Lemma loop_tail cin : 0 < cin -> forall fuel done ap, (forall e, In e ap -> exists p, 0 < p /\ expandable cin p /\ e = exp_ cin p) ->
  expand_loop fuel cin (length done) (done ++ ap) = done ++ ap.
Proof.
  intros Hc. induction fuel as [|fuel IH]; intros done ap Ha; [reflexivity|]. cbn [expand_loop]. destruct ap as [|e ap].
  - rewrite app_nil_r. assert (H : nth_error done (length done) = None) by (apply nth_error_None; lia). rewrite H. reflexivity.
  - rewrite nth_mid. destruct (Ha e (or_introl eq_refl)) as (p & Hp & (Hlt & r & Er) & ->). unfold exp_.
    assert (Hw : wants_expand cin (p * (cin / p)) = false).
    { rewrite Er, (Nat.mul_comm p r), Nat.div_mul by lia. unfold wants_expand. rewrite (proj2 (Nat.ltb_ge _ _)) by lia. reflexivity. }
    rewrite Hw. specialize (IH (done ++ [(p, Some (cin / p))]) ap). rewrite app_length in IH. cbn [length] in IH. rewrite Nat.add_1_r, <- app_assoc in IH. cbn [app] in IH.
    apply IH. intros e' He'. apply Ha. right. exact He'.
Qed.
Lemma loop_spec cin : 0 < cin -> forall n rest, length rest <= n -> (forall p, In p rest -> 0 < p) -> forall fuel done ap, length rest <= fuel ->
  (forall e, In e ap -> exists p, 0 < p /\ expandable cin p /\ e = exp_ cin p) ->
  expand_loop fuel cin (length done) (done ++ map (fun p => (p, None)) rest ++ ap) =
  done ++ map (fun p => (p, None)) (kept (visited cin false rest)) ++ ap ++ map (exp_ cin) (expanded (visited cin false rest)).
Proof.
  intros Hc. induction n as [|n IH]; intros rest Hl Hp fuel done ap Hf Ha.
  - destruct rest; [|cbn in Hl; lia]. cbn [map visited kept expanded filter app]. rewrite app_nil_r. apply loop_tail; assumption.
  - destruct rest as [|p rest]; [cbn [map visited kept expanded filter app]; rewrite app_nil_r; apply loop_tail; assumption|].
    destruct fuel as [|fuel]; [cbn in Hf; lia|]. cbn [length] in Hf, Hl. assert (Hp0 : 0 < p) by (apply Hp; left; reflexivity).
    cbn [expand_loop map app]. rewrite nth_mid. cbn [visited]. rewrite <- wants_if. destruct (wants_expand cin p) eqn:Ew.
    + rewrite remove_mid. fold (exp_ cin p). assert (Ha' : forall e, In e (ap ++ [exp_ cin p]) -> exists p, 0 < p /\ expandable cin p /\ e = exp_ cin p).
      { intros e He. apply in_app_iff in He as [He|[<-|[]]]; [apply Ha; exact He|]. exists p. split; [exact Hp0|]. split; [apply expandable_b; assumption|reflexivity]. }
      destruct rest as [|q rest].
      * cbn [map app visited kept expanded filter snd negb fst]. destruct ap as [|e ap].
        -- cbn [app]. rewrite app_nil_r. destruct fuel as [|fuel]; [reflexivity|]. cbn [expand_loop].
           assert (H : nth_error (done ++ [exp_ cin p]) (S (length done)) = None) by (apply nth_error_None; rewrite app_length; cbn; lia). rewrite H. reflexivity.
        -- pose proof (loop_tail cin Hc fuel (done ++ [e]) (ap ++ [exp_ cin p])) as LT. rewrite app_length in LT. cbn [length] in LT. rewrite Nat.add_1_r, <- app_assoc in LT.
           cbn [app] in LT. rewrite <- app_assoc. cbn [app]. rewrite LT; [reflexivity|]. intros e' He'. apply Ha'. right. exact He'.
      * cbn [length] in Hl, Hf. cbn [map visited kept expanded filter snd negb fst]. unfold kept, expanded in *.
        cbn [app]. specialize (IH rest ltac:(lia) (fun z Hz => Hp z (or_intror (or_intror Hz))) fuel (done ++ [(q, None)]) (ap ++ [exp_ cin p]) ltac:(lia) Ha').
        rewrite app_length in IH. cbn [length] in IH. rewrite Nat.add_1_r in IH. rewrite <- !app_assoc in IH |- *. cbn [app] in IH |- *. rewrite <- !app_assoc in IH. cbn [app] in IH. rewrite <- (app_assoc (map _ rest)). exact IH.
    + specialize (IH rest ltac:(lia) (fun z Hz => Hp z (or_intror Hz)) fuel (done ++ [(p, None)]) ap ltac:(lia) Ha).
      rewrite app_length in IH. cbn [length] in IH. rewrite Nat.add_1_r in IH. rewrite <- !app_assoc in IH. cbn [app] in IH.
      cbn [kept expanded filter snd negb map fst]. exact IH.
Qed.

(** The inputs of the node afterwards: those not expanded in their order, then those expanded. *)
Theorem C102_expand_exact :
  forall cin prevs, 0 < cin -> (forall p, In p prevs -> 0 < p) ->
    insert_expand cin prevs =
    map (fun p => (p, None)) (kept (visited cin false prevs)) ++ map (fun p => (p, Some (cin / p))) (expanded (visited cin false prevs)).
Proof.
  intros cin prevs Hc Hp. unfold insert_expand. pose proof (loop_spec cin Hc (length prevs) prevs ltac:(lia) Hp (length prevs) [] [] ltac:(lia)) as H.
  cbn [app length] in H. rewrite app_nil_r in H. apply H. intros e [].
Qed.
Print Assumptions C102_expand_exact.
Example C102_exact_case : insert_expand 8 [4; 8; 2; 3] = [(8, None); (3, None); (4, Some 2); (2, Some 4)].
Proof. reflexivity. Qed.

(** Inputs with 8, 4 and 4 channels: the third is not expanded. *)
Theorem C102_all_expanded_refuted : ~ C102_claim.
Proof.
  intros H. destruct (H 8 [8; 4; 4]) as (H1 & _); [lia|cbn; intros p Hp; lia|].
  destruct (H1 (4, None)) as [_ H2]; [vm_compute; auto|]. cbn in H2. apply H2. split; [cbn; lia|]. exists 2. reflexivity.
Qed.
Print Assumptions C102_all_expanded_refuted.

Definition no_neighbours (cin : nat) (prevs : list nat) : Prop :=
  forall l p q r, prevs = l ++ p :: q :: r -> expandable cin p -> ~ expandable cin q.
Lemma visited_all cin : forall l skip, (forall p, In p l -> 0 < p) -> no_neighbours cin l -> (skip = true -> forall p r, l = p :: r -> ~ expandable cin p) ->
  visited cin skip l = map (fun p => (p, wants_expand cin p)) l.
Proof.
  induction l as [|p l IH]; intros skip Hp Hn Hs; [reflexivity|]. cbn [visited map]. rewrite <- wants_if.
  assert (Hp0 : 0 < p) by (apply Hp; left; reflexivity).
  assert (E : (if skip then false else wants_expand cin p) = wants_expand cin p).
  { destruct skip; [|reflexivity]. destruct (wants_expand cin p) eqn:Ew; [|reflexivity]. apply expandable_b in Ew; [|exact Hp0]. destruct (Hs eq_refl p l eq_refl Ew). }
  rewrite E. f_equal. apply IH.
  - intros z Hz. apply Hp. right. exact Hz.
  - intros l1 a b r ->. apply (Hn (p :: l1) a b r). reflexivity.
  - intros Ew q r ->. apply (Hn [] p q r); [reflexivity|]. apply expandable_b; assumption.
Qed.
(** Without two neighbouring inputs that can be expanded the claim holds. *)
Theorem C102_all_expanded_partial :
  forall cin prevs, 0 < cin -> (forall p, In p prevs -> 0 < p) -> no_neighbours cin prevs -> all_expanded cin prevs.
Proof.
  intros cin prevs Hc Hp Hn. unfold all_expanded. rewrite (C102_expand_exact cin prevs Hc Hp). unfold kept, expanded.
  rewrite (visited_all cin prevs false Hp Hn) by discriminate. set (V := map (fun p => (p, wants_expand cin p)) prevs).
  assert (HV : forall p b, In (p, b) V <-> In p prevs /\ b = wants_expand cin p).
  { intros p b. unfold V. rewrite in_map_iff. split; [intros (q & E & Hq); injection E as -> <-; auto|intros [Hq ->]; eauto]. }
  split; [|split].
  - intros e He. apply in_app_iff in He as [He|He]; apply in_map_iff in He as (p & <- & Hin); apply in_map_iff in Hin as ([q b] & <- & Hf); apply filter_In in Hf as [Hf Hb]; cbn [fst snd] in *;
      apply HV in Hf as [Hq ->]; (split; [exact Hq|]).
    + intros He. apply (expandable_b cin q (Hp q Hq)) in He. rewrite He in Hb. discriminate.
    + apply (expandable_b cin q (Hp q Hq)) in Hb. split; [exact Hb|]. destruct Hb as [_ [r ->]]. rewrite (Nat.mul_comm q r), Nat.div_mul by (specialize (Hp q Hq); lia). lia.
  - intros p Hin. destruct (wants_expand cin p) eqn:Ew.
    + exists (Some (cin / p)). apply in_app_iff. right. apply in_map_iff. exists p. split; [reflexivity|]. apply in_map_iff. exists (p, true). split; [reflexivity|]. apply filter_In. split; [apply HV; auto|reflexivity].
    + exists None. apply in_app_iff. left. apply in_map_iff. exists p. split; [reflexivity|]. apply in_map_iff. exists (p, false). split; [reflexivity|]. apply filter_In. split; [apply HV; auto|reflexivity].
  - rewrite app_length, !map_length. replace (length prevs) with (length V) by apply map_length. clear. induction V as [|[p b] V IH]; [reflexivity|]. cbn [filter snd]. destruct b; cbn [negb length]; lia.
Qed.
Print Assumptions C102_all_expanded_partial.
Example C102_case : all_expanded 8 [8; 4; 8; 2] /\ no_neighbours 8 [8; 4; 8; 2].
Proof.
  assert (H : no_neighbours 8 [8; 4; 8; 2]).
  { intros l p q r E [H1 _] [H2 _]. destruct l as [|a [|b [|c l]]]; cbn in E; injection E; intros; subst; try lia; destruct l as [|? [|? ?]]; discriminate. }
  split; [|exact H]. apply C102_all_expanded_partial; [lia|cbn; intros p Hp; lia|exact H].
Qed.

(** ** C103: an input used twice *)

(** Where channel [k] of the concatenation of [args] (with widths [w]) comes from. *)
Inductive comes_from (w : nat -> nat) : list nat -> nat -> nat -> nat -> Prop :=
| cf_here p r k : k < w p -> comes_from w (p :: r) k p k
| cf_later p r k q j : comes_from w r k q j -> comes_from w (p :: r) (w p + k) q j.
(** The full claim: the inputs of a node are the nodes it was connected to. *)
Definition C103_claim : Prop := forall args, connect_args args = args.
Theorem C103_inputs_refuted : ~ C103_claim.
Proof. intros H. specialize (H [0; 0]). discriminate H. Qed.
Print Assumptions C103_inputs_refuted.

Lemma existsb_eqb p l : existsb (Nat.eqb p) l = true <-> In p l.
Proof. rewrite existsb_exists. split; [intros (x & Hx & E); apply Nat.eqb_eq in E; congruence|intros H; exists p; split; [exact H|apply Nat.eqb_refl]]. Qed.
Lemma add_prev_spec : forall args acc, NoDup acc ->
  exists r, fold_left add_prev args acc = acc ++ r /\ NoDup (acc ++ r) /\ (forall p, In p (acc ++ r) <-> In p acc \/ In p args) /\
  (NoDup (acc ++ args) -> r = args).
Proof.
  induction args as [|p args IH]; intros acc Hn; cbn [fold_left].
  - exists []. rewrite app_nil_r. split; [reflexivity|]. split; [exact Hn|]. split; [cbn; tauto|auto].
  - unfold add_prev at 2. destruct (existsb (Nat.eqb p) acc) eqn:E.
    + apply existsb_eqb in E. destruct (IH acc Hn) as (r & E1 & N1 & M1 & S1). exists r. split; [exact E1|]. split; [exact N1|]. split.
      * intros q. rewrite M1. cbn. split; [tauto|]. intros [H|[<-|H]]; auto.
      * intros H. apply NoDup_remove_2 in H. destruct H. apply in_app_iff. auto.
    + assert (Hp : ~ In p acc) by (intros H; apply existsb_eqb in H; congruence).
      assert (Hn' : NoDup (acc ++ [p])).
      { clear -Hn Hp. induction acc as [|a acc IH]; cbn; [constructor; [auto|constructor]|]. inversion Hn; subst. constructor.
        - rewrite in_app_iff. intros [H|[<-|[]]]; [contradiction|]. apply Hp. left. reflexivity.
        - apply IH; [assumption|]. intros H. apply Hp. right. exact H. }
      destruct (IH (acc ++ [p]) Hn') as (r & E1 & N1 & M1 & S1). rewrite <- app_assoc in *. cbn [app] in *. exists (p :: r). split; [exact E1|]. split; [exact N1|]. split.
      * intros q. rewrite M1, in_app_iff. cbn. tauto.
      * intros H. f_equal. apply S1. exact H.
Qed.
(** The inputs of a concatenation: with a repeated input, a convolution behind it gets an expand
    node, which ties its channel 1 to channel 0 of the input; it reads channel 1. *)
Definition ex_twice : list cnode :=
  [nd_ (KInput 2) [] None 0; nd_ KCat (connect_args [0; 0]) None 1; nd_ (KExpand 2) [1] None 2; nd_ (KConv 4 3 1) [2] (Some 3) 3].
Theorem C103_repeated_cat :
  insert_expand 4 [2] = [(2, Some 2)] /\
  comes_from (fun _ => 2) [0; 0] 1 0 1 /\
  exists s x y z, forward ex_twice 3 = Ok s /\ elem_of s (0, SRet, 0) x /\ elem_of s (0, SRet, 1) y /\ elem_of s (3, SIn, 1) z /\
    grouped (f_uf s) z x /\ ~ grouped (f_uf s) z y.
Proof.
  split; [reflexivity|]. split; [apply cf_here; lia|].
  destruct (forward ex_twice 3) as [s|] eqn:E; [|vm_compute in E; discriminate].
  assert (HS : (do f <- forward ex_twice 3; Ok (f_nodes f)) = Ok
     [{| t_in := [3; 4]; t_out := [3; 4]; t_ret := [3; 4] |}; {| t_in := [3; 4]; t_out := [3; 4]; t_ret := [3; 4] |};
      {| t_in := [3; 4]; t_out := [5; 6; 7; 8]; t_ret := [5; 6; 7; 8] |}; {| t_in := [5; 6; 7; 8]; t_out := [9; 10; 11]; t_ret := [9; 10; 11] |}]) by (vm_compute; reflexivity).
  assert (HG : (do f <- forward ex_twice 3; Ok (groupedb (f_uf f) 6 3, groupedb (f_uf f) 6 4)) = Ok (true, false)) by (vm_compute; reflexivity).
  rewrite E in HS, HG. cbn [bind] in HS, HG. apply Ok_inj in HS, HG. injection HG as G1 G2.
  exists s, 3, 4, 6. unfold elem_of, trip_of. rewrite HS. cbn [nth fst snd tens t_in t_out t_ret nth_error].
  split; [reflexivity|]. split; [reflexivity|]. split; [reflexivity|]. split; [reflexivity|].
  split; [apply groupedb_ok; exact G1|]. intros H. apply groupedb_ok in H. congruence.
Qed.
Print Assumptions C103_repeated_cat.

(** Every input is kept once; the order and the positions are right exactly when none is used twice. *)
Theorem C103_inputs_partial :
  forall args, NoDup (connect_args args) /\ (forall p, In p (connect_args args) <-> In p args) /\
    (connect_args args = args <-> NoDup args).
Proof.
  intros args. unfold connect_args. destruct (add_prev_spec args [] (NoDup_nil _)) as (r & E & N & M & S1). cbn [app] in *. rewrite E. split; [exact N|]. split.
  - intros p. rewrite M. cbn. tauto.
  - split; [intros <-; exact N|exact S1].
Qed.
Print Assumptions C103_inputs_partial.
Example C103_case : connect_args [2; 0; 2; 1] = [2; 0; 1] /\ connect_args [2; 0; 1] = [2; 0; 1].
Proof. split; reflexivity. Qed.
