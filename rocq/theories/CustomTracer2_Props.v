(** The stand-ins for modules with skipped methods (C194) and the copies of modules that are used more than once (C195). *)
From Coq Require Import String Ascii DecimalString DecimalNat.
From Verif Require Import Prelude Onnx_Model Onnx_Lemmas Engine_Model CustomTracer_Model CustomTracer_Props.
Local Open Scope string_scope.
Local Open Scope list_scope.
Local Open Scope nat_scope.

(** ** C194 *)
(** *** Specification *)
(** The node fetches the module [t]. *)
Definition fetches (attr : list string -> option obj) (g : node) (t : string) : Prop :=
  n_op g = "get_attr" /\ n_target g = t /\ exists names, attr (split "."%char t) = Some (OModule names).
Definition passes (n g : node) : Prop := In (n_id g) (n_args n) \/ In (n_id g) (n_kwargs n).
(** The graph calls method [name] of the module [t]. *)
Definition calls (attr : list string -> option obj) (nodes : list node) (t name : string) : Prop :=
  exists i j g n, i < j /\ nth_error nodes i = Some g /\ nth_error nodes j = Some n /\ fetches attr g t /\ n_op n = "call_method" /\ n_target n = name /\ passes n g.
(** A graph traced from a model: no attribute has a dot in its name, everything fetched exists, and so do the methods. *)
Definition sound (attr : list string -> option obj) (nodes : list node) : Prop :=
  NoDup (map n_id nodes) /\ (forall t, ~ plain_name t -> attr [t] = None) /\
  (forall g, In g nodes -> n_op g = "get_attr" -> attr (split "."%char (n_target g)) <> None) /\
  (forall t name, calls attr nodes t name -> exists names, attr (split "."%char t) = Some (OModule names) /\ In name names).
(** Every module has a stand-in with the methods called on it. *)
Definition C194_claim : Prop := forall attr nodes, sound attr nodes ->
  exists d, prepare_module_dict attr nodes = Ok d /\ forall t name, calls attr nodes t name -> exists l, get d t = Some l /\ In name l.

(** *** Refutations *)
Definition nd i op t args : node := {| n_id := i; n_op := op; n_target := t; n_args := args; n_kwargs := [] |}.
Definition model1 (p : list string) : option obj :=
  match p with
  | ["head"] => Some (OModule ["f"; "g"]) | ["neck"] => Some (OModule []) | ["neck"; "head"] => Some (OModule ["f"]) | ["w"] => Some OOther | _ => None
  end.
Lemma model1_dots t : ~ plain_name t -> model1 [t] = None.
Proof.
  intros P. cbn. destruct (string_dec t "head") as [->|A]; [contradiction P; intros c H; cbn in H; repeat destruct H as [<-|H]; try discriminate; contradiction H|].
  destruct (string_dec t "neck") as [->|B]; [contradiction P; intros c H; cbn in H; repeat destruct H as [<-|H]; try discriminate; contradiction H|].
  destruct (string_dec t "w") as [->|W]; [contradiction P; intros c H; cbn in H; repeat destruct H as [<-|H]; try discriminate; contradiction H|].
  revert A B W. clear. intros A B W. destruct t as [|c t]; [reflexivity|].
  repeat match goal with
  | |- match ?b with _ => _ end = None => is_var b; destruct b; try reflexivity
  | |- context [match ?b with _ => _ end] => is_var b; destruct b; try reflexivity
  end; congruence.
Qed.
(** The module of a skipped method is part of another module. *)
Theorem C194_nested_refuted : ~ C194_claim.
Proof.
  intros H. destruct (H model1 [nd 0 "get_attr" "neck.head" []; nd 1 "call_method" "f" [0]]) as (d & D & _); [|vm_compute in D; discriminate D].
  split; [repeat constructor; cbn; intuition discriminate|]. split; [exact model1_dots|]. split.
  - intros g [<-|[<-|[]]] O; [discriminate|discriminate O].
  - intros t name (i & j & g & n & L & Gi & Nj & (O & T & X) & M & N & _). exists ["f"].
    destruct i as [|[|i]]; [|destruct j as [|[|j]]; cbn in Nj; try lia; destruct j; discriminate Nj|destruct i; discriminate Gi].
    injection Gi as <-. cbn in T. subst t. destruct j as [|[|j]]; [lia| |destruct j; discriminate Nj]. injection Nj as <-. cbn in N. subst name. split; [reflexivity|left; reflexivity].
Qed.
(** Two skipped methods of the same module are called. *)
Theorem C194_twice_refuted : ~ (forall attr nodes, sound attr nodes -> (forall g t, In g nodes -> fetches attr g t -> plain_name t) ->
  exists d, prepare_module_dict attr nodes = Ok d /\ forall t name, calls attr nodes t name -> exists l, get d t = Some l /\ In name l).
Proof.
  intros H. pose (nodes := [nd 0 "get_attr" "head" []; nd 1 "call_method" "f" [0]; nd 2 "get_attr" "head" []; nd 3 "call_method" "g" [2]]).
  assert (C0 : calls model1 nodes "head" "f").
  { exists 0, 1, (nd 0 "get_attr" "head" []), (nd 1 "call_method" "f" [0]). repeat split; try lia; [eexists; reflexivity|left; left; reflexivity]. }
  destruct (H model1 nodes) as (d & D & M).
  - split; [repeat constructor; cbn; intuition discriminate|]. split; [exact model1_dots|]. split.
    + intros g [<-|[<-|[<-|[<-|[]]]]] O; discriminate.
    + intros t name (i & j & g & n & L & Gi & Nj & (O & T & X) & M & N & _). exists ["f"; "g"]. apply nth_error_In in Gi, Nj.
      assert (T' : t = "head") by (destruct Gi as [<-|[<-|[<-|[<-|[]]]]]; try discriminate O; cbn in T; congruence). clear T. subst t. split; [reflexivity|].
      destruct Nj as [<-|[<-|[<-|[<-|[]]]]]; try discriminate M; cbn in N; subst name; cbn; auto.
  - intros g t I0 (O & T & _). assert (T' : t = "head") by (destruct I0 as [<-|[<-|[<-|[<-|[]]]]]; try discriminate O; cbn in T; congruence). clear T. subst t.
    intros c X; cbn in X; repeat destruct X as [<-|X]; try discriminate; contradiction X.
  - destruct (M "head" "f" C0) as (l & L & F). vm_compute in D. injection D as <-. vm_compute in L. injection L as <-. destruct F as [F|[]]. discriminate F.
Qed.

(** *** Proof for modules of the model itself, each fetched once *)
Section P.
Variable attr : list string -> option obj.
Lemma uses_spec n i : uses n i = true <-> In i (n_args n) \/ In i (n_kwargs n).
Proof.
  unfold uses. rewrite orb_true_iff, !existsb_exists. split; (intros [H|H]; [left|right]).
  1,2: destruct H as (x & X & E); apply Nat.eqb_eq in E; subst; exact X.
  1,2: exists i; split; [exact H|apply Nat.eqb_refl].
Qed.
Lemma add_methods_ok n : forall special d, NoDup (map snd special) ->
  (forall i t, In (i, t) special -> uses n i = true -> (exists names, attr [t] = Some (OModule names) /\ In (n_target n) names) /\ exists l, get d t = Some l) ->
  exists d', add_methods attr n special d = Ok d' /\ forall t, get d' t =
    match get d t with Some l => Some (if existsb (fun p => uses n (fst p) && String.eqb (snd p) t) special then add_name l (n_target n) else l) | None => None end.
Proof.
  induction special as [|[i t] special IH]; intros d ND H; cbn [add_methods]; [exists d; split; [reflexivity|]; intros t; cbn; destruct (get d t); reflexivity|].
  cbn [map snd] in ND. apply NoDup_cons_iff in ND as [N1 N2]. destruct (uses n i) eqn:U.
  - destruct (H i t (or_introl eq_refl) U) as [(names & A & I0) (l & L)]. rewrite A. replace (mem (n_target n) names) with true by (symmetry; apply mem_in; exact I0). rewrite L.
    destruct (IH (put d t (add_name l (n_target n))) N2) as (d' & E & G).
    + intros i' t' I' U'. destruct (H i' t' (or_intror I') U') as [A' (l' & L')]. split; [exact A'|]. rewrite get_put. destruct (String.eqb t t'); eauto.
    + exists d'. split; [exact E|]. intros x. rewrite G, get_put. cbn [existsb fst snd]. rewrite U. cbn [andb]. destruct (String.eqb_spec t x) as [->|N].
      * rewrite L. cbn [orb]. replace (existsb (fun p => uses n (fst p) && String.eqb (snd p) x) special) with false; [reflexivity|].
        symmetry. apply Bool.not_true_iff_false. rewrite existsb_exists. intros ([i' t'] & I' & X). apply andb_true_iff in X as [_ X]. cbn in X. apply String.eqb_eq in X. subst t'.
        apply N1. apply in_map_iff. exists (i', x). auto.
      * reflexivity.
  - destruct (IH d N2) as (d' & E & G); [intros i' t' I' U'; apply (H i' t'); [right; exact I'|exact U']|]. exists d'. split; [exact E|]. intros x. rewrite G. cbn [existsb fst snd]. rewrite U. reflexivity.
Qed.
(** The fetched modules of a list of nodes. *)
Definition fetched (nodes : list node) : list (nat * string) :=
  flat_map (fun g => if String.eqb (n_op g) "get_attr" then match attr (split "."%char (n_target g)) with Some (OModule _) => [(n_id g, n_target g)] | _ => [] end else []) nodes.
Lemma fetched_in nodes i t : In (i, t) (fetched nodes) <-> exists g, In g nodes /\ n_id g = i /\ fetches attr g t.
Proof.
  unfold fetched, fetches. rewrite in_flat_map. split.
  - intros (g & G & X). exists g. destruct (String.eqb_spec (n_op g) "get_attr") as [O|]; [|destruct X]. destruct (attr (split "."%char (n_target g))) as [[names|]|] eqn:A; try destruct X.
    injection H as <- <-. repeat split; eauto. destruct H.
  - intros (g & G & <- & O & <- & names & A). exists g. split; [exact G|]. rewrite O, A. cbn. auto.
Qed.
Lemma calls_snoc nodes n t name : calls attr (nodes ++ [n]) t name <->
  calls attr nodes t name \/ (n_op n = "call_method" /\ n_target n = name /\ exists g, In g nodes /\ fetches attr g t /\ passes n g).
Proof.
  split.
  - intros (i & j & g & m & L & Gi & Mj & F & O & N & P). assert (J : j < length (nodes ++ [n])) by (apply nth_error_Some; congruence). rewrite app_length in J. cbn in J.
    rewrite nth_error_app1 in Gi by lia. destruct (Nat.eq_dec j (length nodes)) as [->|D].
    + rewrite nth_error_app2, Nat.sub_diag in Mj by lia. injection Mj as <-. right. repeat split; [exact O|exact N|]. exists g. split; [eapply nth_error_In; exact Gi|auto].
    + rewrite nth_error_app1 in Mj by lia. left. exists i, j, g, m. auto 10.
  - intros [(i & j & g & m & L & Gi & Mj & F & O & N & P)|(O & N & g & G & F & P)].
    + assert (J : j < length nodes) by (apply nth_error_Some; congruence). exists i, j, g, m. rewrite !nth_error_app1 by lia. auto 10.
    + apply In_nth_error in G as [i Gi]. assert (I0 : i < length nodes) by (apply nth_error_Some; congruence). exists i, (length nodes), g, n.
      rewrite nth_error_app1 by lia. rewrite nth_error_app2, Nat.sub_diag by lia. repeat split; auto; apply F.
Qed.
Lemma prepare_ok : forall rest pre d, (forall t, ~ plain_name t -> attr [t] = None) ->
  (forall g, In g rest -> n_op g = "get_attr" -> attr (split "."%char (n_target g)) <> None) ->
  (forall t name, calls attr (pre ++ rest) t name -> exists names, attr (split "."%char t) = Some (OModule names) /\ In name names) ->
  (forall g t, In g (pre ++ rest) -> fetches attr g t -> plain_name t) -> NoDup (map snd (fetched (pre ++ rest))) ->
  (forall t, (exists l, get d t = Some l) <-> In t (map snd (fetched pre))) -> (forall t l, get d t = Some l -> forall name, In name l <-> calls attr pre t name) ->
  exists d', prepare_loop attr rest (fetched pre) d = Ok d' /\ (forall t, (exists l, get d' t = Some l) <-> In t (map snd (fetched (pre ++ rest)))) /\
             (forall t l, get d' t = Some l -> forall name, In name l <-> calls attr (pre ++ rest) t name).
Proof.
  induction rest as [|n rest IH]; intros pre d DOT EX ME PL ND K1 K2; cbn [prepare_loop].
  - exists d. rewrite app_nil_r. auto.
  - change (pre ++ n :: rest) with (pre ++ [n] ++ rest) in *. rewrite app_assoc in *.
    assert (EX' : forall g, In g rest -> n_op g = "get_attr" -> attr (split "."%char (n_target g)) <> None) by (intros g G; apply EX; right; exact G).
    assert (FS : fetched (pre ++ [n]) = fetched pre ++ fetched [n]) by (unfold fetched; apply flat_map_app).
    assert (ND1 : NoDup (map snd (fetched (pre ++ [n])))).
    { revert ND. generalize (pre ++ [n]). intros l. unfold fetched. rewrite flat_map_app, map_app. intros ND. clear -ND. induction (map snd _) as [|x xs IH0] in ND |- *; [constructor|].
      cbn in ND. apply NoDup_cons_iff in ND as [A B]. constructor; [intros X; apply A, in_or_app; left; exact X|apply IH0; exact B]. }
    destruct (String.eqb_spec (n_op n) "get_attr") as [O|O].
    + unfold get_attrs. destruct (attr (split "."%char (n_target n))) as [o|] eqn:A; [|contradiction (EX n (or_introl eq_refl) O)]. cbn [bind].
      destruct o as [names|].
      * assert (F1 : fetched [n] = [(n_id n, n_target n)]) by (unfold fetched; cbn [flat_map]; rewrite O, A; reflexivity). rewrite F1 in FS.
        specialize (IH (pre ++ [n]) (put d (n_target n) [])). rewrite FS in IH. apply IH; try assumption.
        { intros t. rewrite get_put, map_app, in_app_iff. cbn [map snd In]. destruct (String.eqb_spec (n_target n) t) as [<-|N].
          - split; [intros _; right; left; reflexivity|intros _; eauto].
          - rewrite K1. split; [tauto|]. intros [X|[X|[]]]; [exact X|contradiction]. }
        { intros t l. rewrite get_put. destruct (String.eqb_spec (n_target n) t) as [<-|N].
          - intros L name. injection L as <-. rewrite calls_snoc. split; [intros []|]. intros [C0|(C1 & _)]; [|congruence].
            exfalso. destruct C0 as (i & j & g & m & _ & Gi & _ & F & _). rewrite FS, map_app in ND1. apply NoDup_remove_2 in ND1. apply ND1. rewrite app_nil_r. apply in_map_iff.
            exists (n_id g, n_target n). split; [reflexivity|]. apply fetched_in. exists g. split; [eapply nth_error_In; exact Gi|auto].
          - intros L name. rewrite (K2 t l L), calls_snoc. split; [tauto|]. intros [C0|(C1 & _)]; [exact C0|congruence]. }
      * assert (F1 : fetched [n] = []) by (unfold fetched; cbn [flat_map]; rewrite O, A; reflexivity). rewrite F1, app_nil_r in FS.
        specialize (IH (pre ++ [n]) d). rewrite FS in IH. apply IH; try assumption. intros t l L name. rewrite (K2 t l L), calls_snoc. split; [tauto|]. intros [C0|(C1 & _)]; [exact C0|congruence].
    + assert (F1 : fetched [n] = []). { unfold fetched; cbn [flat_map]. destruct (String.eqb_spec (n_op n) "get_attr"); [contradiction|reflexivity]. } rewrite F1, app_nil_r in FS.
      destruct (String.eqb_spec (n_op n) "call_method") as [P|P].
      * destruct (add_methods_ok n (fetched pre) d) as (d1 & E1 & G1).
        { rewrite FS in ND1. exact ND1. }
        { intros i t I0 U. split; [|apply K1; apply in_map_iff; exists (i, t); auto]. apply fetched_in in I0 as (g & G & <- & F).
          assert (T : plain_name t) by (apply (PL g t); [apply in_or_app; left; apply in_or_app; left; exact G|exact F]).
          destruct (ME t (n_target n)) as (names & A & B).
          - apply In_nth_error in G as [i Gi]. assert (I1 : i < length pre) by (apply nth_error_Some; congruence). exists i, (length pre), g, n. rewrite <- app_assoc.
            rewrite nth_error_app1 by lia. rewrite nth_error_app2, Nat.sub_diag by lia. apply uses_spec in U. cbn. repeat split; auto; apply F.
          - rewrite split_plain in A by exact T. exists names. auto. }
        rewrite E1. cbn [bind]. specialize (IH (pre ++ [n]) d1). rewrite FS in IH. apply IH; try assumption.
        { intros t. rewrite <- K1, G1. destruct (get d t); split; intros [x X]; try discriminate X; eauto. }
        { intros t l. rewrite G1. destruct (get d t) as [l0|] eqn:L0; [|discriminate]. intros L name. injection L as <-. rewrite calls_snoc, <- (K2 t l0 L0).
          assert (Q : existsb (fun p => uses n (fst p) && String.eqb (snd p) t) (fetched pre) = true <-> exists g, In g pre /\ fetches attr g t /\ passes n g).
          { rewrite existsb_exists. split.
            - intros ([i t'] & I0 & X). apply andb_true_iff in X as [U X]. cbn in U, X. apply String.eqb_eq in X. subst t'. apply fetched_in in I0 as (g & G & <- & F). exists g. split; [exact G|]. split; [exact F|]. apply uses_spec; exact U.
            - intros (g & G & F & U). exists (n_id g, t). split; [apply fetched_in; exists g; auto|]. cbn. apply andb_true_iff. split; [apply uses_spec; exact U|apply String.eqb_refl]. }
          destruct (existsb _ (fetched pre)).
          - destruct Q as [Q _]. specialize (Q eq_refl). unfold add_name. destruct (mem (n_target n) l0) eqn:M.
            + split; [tauto|]. intros [X|(_ & <- & _)]; [exact X|apply mem_in; exact M].
            + rewrite in_app_iff. cbn. split; [intros [X|[X|[]]]; [left; exact X|right; auto]|]. intros [X|(_ & X & _)]; [left; exact X|right; left; exact X].
          - split; [tauto|]. intros [X|(_ & _ & X)]; [exact X|]. apply Q in X. discriminate X. }
      * specialize (IH (pre ++ [n]) d). rewrite FS in IH. apply IH; try assumption. intros t l L name. rewrite (K2 t l L), calls_snoc. split; [tauto|]. intros [C0|(C1 & _)]; [exact C0|congruence].
Qed.
End P.
Theorem C194_prepare_partial : forall attr nodes, sound attr nodes ->
  (forall g t, In g nodes -> fetches attr g t -> plain_name t) ->
  (forall i j g h t, nth_error nodes i = Some g -> nth_error nodes j = Some h -> fetches attr g t -> fetches attr h t -> i = j) ->
  exists d, prepare_module_dict attr nodes = Ok d /\ (forall t, (exists l, get d t = Some l) <-> exists g, In g nodes /\ fetches attr g t) /\
    (forall t l, get d t = Some l -> forall name, In name l <-> calls attr nodes t name).
Proof.
  intros attr nodes (ID & DOT & EX & ME) PL ON. unfold prepare_module_dict.
  destruct (prepare_ok attr nodes [] [] DOT EX ME PL) as (d & D & A & B).
  - cbn [app]. revert ON. clear. induction nodes as [|n nodes IH]; intros ON; [constructor|]. unfold fetched. cbn [flat_map]. rewrite map_app.
    assert (IH' : NoDup (map snd (fetched attr nodes))). { apply IH. intros i j g h t Gi Hj F1 F2. enough (S i = S j) by lia. exact (ON (S i) (S j) g h t Gi Hj F1 F2). }
    destruct (String.eqb_spec (n_op n) "get_attr") as [O|O]; [|exact IH']. destruct (attr (split "."%char (n_target n))) as [[names|]|] eqn:X; try exact IH'. cbn [map snd app]. constructor; [|exact IH'].
    intros I0. apply in_map_iff in I0 as ([i t] & E & I0). cbn in E. subst t. apply fetched_in in I0 as (g & G & _ & F). apply In_nth_error in G as [j Gj].
    assert (0 = S j); [|lia]. apply (ON 0 (S j) n g (n_target n)); [reflexivity|exact Gj| |exact F]. repeat split; [exact O|]. exists names. exact X.
  - intros t. cbn. split; [intros [l L]; discriminate L|intros []].
  - intros t l L. discriminate L.
  - exists d. cbn [app] in *. split; [exact D|]. split; [|exact B]. intros t. rewrite A. rewrite in_map_iff. split.
    + intros ([i t'] & E & I0). cbn in E. subst t'. apply fetched_in in I0 as (g & G & _ & F). eauto.
    + intros (g & G & F). exists (n_id g, t). split; [reflexivity|]. apply fetched_in. eauto.
Qed.
Example C194_example : prepare_module_dict model1 [nd 0 "placeholder" "x" []; nd 1 "get_attr" "w" []; nd 2 "get_attr" "head" []; nd 3 "call_method" "f" [2; 0]; nd 4 "call_method" "relu" [0]; nd 5 "call_method" "g" [2]]
  = Ok [("head", ["f"; "g"])].
Proof. reflexivity. Qed.

(** When it succeeds, every method called of a fetched module exists. *)
Lemma add_methods_inv attr n : forall special d d', add_methods attr n special d = Ok d' -> forall i t, In (i, t) special -> uses n i = true -> exists names, attr [t] = Some (OModule names) /\ In (n_target n) names.
Proof.
  induction special as [|[i0 t0] r IH]; intros d d' H i t I0 U; [destruct I0|]. cbn [add_methods] in H. destruct I0 as [E|I0].
  - injection E as -> ->. rewrite U in H. destruct (attr [t]) as [[names|]|]; try discriminate H. destruct (mem (n_target n) names) eqn:M; [|discriminate H]. exists names. split; [reflexivity|apply mem_in; exact M].
  - destruct (uses n i0); [|exact (IH _ _ H i t I0 U)]. destruct (attr [t0]) as [[names|]|]; try discriminate H. destruct (mem (n_target n) names); [|discriminate H]. destruct (get d t0); [|discriminate H]. exact (IH _ _ H i t I0 U).
Qed.
Lemma prepare_inv attr : forall rest special d d', prepare_loop attr rest special d = Ok d' -> forall j n, nth_error rest j = Some n -> n_op n = "call_method" ->
  forall i t, uses n i = true -> In (i, t) special \/ (exists k g, k < j /\ nth_error rest k = Some g /\ n_id g = i /\ fetches attr g t) -> exists names, attr [t] = Some (OModule names) /\ In (n_target n) names.
Proof.
  induction rest as [|m rest IH]; intros special d d' H j n NJ O i t U D; [destruct j; discriminate NJ|]. cbn [prepare_loop] in H. destruct j as [|j].
  - injection NJ as ->. destruct D as [D|(k & _ & K & _)]; [|lia]. destruct (String.eqb_spec (n_op n) "get_attr") as [X|_]; [rewrite O in X; discriminate X|]. rewrite (proj2 (String.eqb_eq _ _) O) in H. destruct (add_methods attr n special d) as [d1|] eqn:A; [|discriminate H]. eapply add_methods_inv; eassumption.
  - cbn [nth_error] in NJ. assert (G : forall special' d1, prepare_loop attr rest special' d1 = Ok d' -> (forall p, In p special -> In p special') -> (forall t0, fetches attr m t0 -> In (n_id m, t0) special') -> exists names, attr [t] = Some (OModule names) /\ In (n_target n) names).
    { intros special' d1 H1 IN F. apply (IH special' d1 d' H1 j n NJ O i t U). destruct D as [D|(k & g & K & NK & E & FG)]; [left; auto|]. destruct k as [|k]; [injection NK as <-; left; rewrite <- E; apply F; exact FG|]. right. exists k, g. repeat split; try assumption; try lia; apply FG. }
    destruct (String.eqb_spec (n_op m) "get_attr") as [X|X].
    + unfold get_attrs in H. destruct (attr (split "."%char (n_target m))) as [[names|]|] eqn:A; cbn [bind] in H; [| |discriminate H].
      * apply (G _ _ H); [intros p P; apply in_or_app; auto|]. intros t0 (_ & <- & _). apply in_or_app. right. left. reflexivity.
      * apply (G _ _ H); [auto|]. intros t0 (_ & T & names & B). subst t0. rewrite A in B. discriminate B.
    + assert (F : forall t0, ~ fetches attr m t0) by (intros t0 (Y & _); contradiction). destruct (String.eqb (n_op m) "call_method"); [destruct (add_methods attr m special d) as [d1|]; [|discriminate H]; cbn [bind] in H|]; (apply (G _ _ H); [auto|intros t0 T0; destruct (F t0 T0)]).
Qed.
Theorem C194_missing : forall attr nodes d t name, prepare_module_dict attr nodes = Ok d -> calls attr nodes t name -> exists names, attr [t] = Some (OModule names) /\ In name names.
Proof.
  intros attr nodes d t name H (i & j & g & n & L & Gi & Nj & F & O & N & P). subst name. apply (prepare_inv attr nodes [] [] d H j n Nj O (n_id g) t); [apply uses_spec; exact P|]. right. exists i, g. auto.
Qed.
Example C194_missing_at : prepare_module_dict model1 [nd 0 "get_attr" "head" []; nd 1 "call_method" "h" [0]] = Raise AttributeError.
Proof. reflexivity. Qed.

Print Assumptions C194_missing.
Print Assumptions C194_nested_refuted.
Print Assumptions C194_twice_refuted.
Print Assumptions C194_prepare_partial.
