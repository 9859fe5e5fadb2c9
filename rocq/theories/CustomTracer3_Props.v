(** The copies made of the modules that a graph calls more than once (C195). *)
From Coq Require Import String Ascii DecimalString DecimalNat DecimalFacts.
From Verif Require Import Prelude Onnx_Model Onnx_Lemmas CustomTracer_Model CustomTracer2_Props.
Local Open Scope string_scope.
Local Open Scope list_scope.
Local Open Scope nat_scope.

(** ** C195 *)
(** *** Specification *)
(** The two graphs have the same nodes except for the targets of the nodes that call modules, no two of which are the same; every such node calls
    the module it called before or a copy of that. *)
Definition separated {M} (copy : M -> M) (nodes : list node) (modules : list (string * M)) (nodes' : list node) (modules' : list (string * M)) : Prop :=
  length nodes' = length nodes /\
  (forall p n, nth_error nodes p = Some n -> n_op n <> "call_module" -> nth_error nodes' p = Some n) /\
  (forall p n, nth_error nodes p = Some n -> n_op n = "call_module" -> exists t m m',
     nth_error nodes' p = Some (retarget t n) /\ get modules (n_target n) = Some m /\ get modules' t = Some m' /\ (m' = m \/ m' = copy m)) /\
  (forall p q n m, nth_error nodes' p = Some n -> nth_error nodes' q = Some m -> n_op n = "call_module" -> n_op m = "call_module" -> n_target n = n_target m -> p = q).
Definition known {M} (nodes : list node) (modules : list (string * M)) : Prop :=
  forall n, In n nodes -> n_op n = "call_module" -> exists m, get modules (n_target n) = Some m.
Definition C195_claim : Prop := forall (M : Type) (copy : M -> M) nodes modules, known nodes modules ->
  exists nodes' modules', build_graphmodule copy nodes modules = Ok (nodes', modules') /\ separated copy nodes modules nodes' modules'.

(** A model with a module [conv] that is called twice and another one that is already named [conv_dup1]. *)
Theorem C195_names_refuted : ~ C195_claim.
Proof.
  intros H. destruct (H nat (fun m => m + 10) [nd 0 "call_module" "conv" []; nd 1 "call_module" "conv" [0]; nd 2 "call_module" "conv_dup1" [1]] [("conv", 1); ("conv_dup1", 2)]) as (n' & m' & E & _ & _ & _ & S4).
  - intros n [<-|[<-|[<-|[]]]] _; cbn; eauto.
  - vm_compute in E. injection E as <- <-. specialize (S4 1 2 _ _ eq_refl eq_refl eq_refl eq_refl eq_refl). discriminate S4.
Qed.

(** *** Names of copies *)
Definition dupname (t : string) (k : nat) : string := (t ++ "_dup" ++ str k)%string.
Lemma loa_app a b : list_ascii_of_string (a ++ b) = (list_ascii_of_string a ++ list_ascii_of_string b)%list.
Proof. induction a as [|c a IH]; cbn; [reflexivity|rewrite IH; reflexivity]. Qed.
Lemma loa_inj a b : list_ascii_of_string a = list_ascii_of_string b -> a = b.
Proof. intros E. rewrite <- (string_of_list_ascii_of_string a), <- (string_of_list_ascii_of_string b), E. reflexivity. Qed.
Lemma digits_no_p d : ~ In "p"%char (list_ascii_of_string (NilEmpty.string_of_uint d)).
Proof. induction d; cbn; [tauto|..]; intros [E|E]; try discriminate E; auto. Qed.
Lemma str_no_p k : ~ In "p"%char (list_ascii_of_string (str k)).
Proof. unfold str. destruct (Nat.to_uint k) eqn:E; [cbn; intros [X|[]]; discriminate X|..]; rewrite <- E; apply digits_no_p || (unfold NilZero.string_of_uint; rewrite E; apply digits_no_p). Qed.
Lemma str_inj i j : str i = str j -> i = j.
Proof.
  unfold str. intros E. assert (P : forall n, NilZero.uint_of_string (NilZero.string_of_uint (Nat.to_uint n)) = Some (Nat.to_uint n)).
  { intros n. apply NilZero.usu. rewrite <- (Unsigned.of_to n), Unsigned.to_of. apply DecimalFacts.unorm_nonnil. }
  pose proof (P i) as Pi. rewrite E, P in Pi. injection Pi as Pi. apply Unsigned.to_uint_inj. symmetry. exact Pi.
Qed.
Lemma last_sep {A} (x : A) : forall l1 l2 d1 d2, ~ In x d1 -> ~ In x d2 -> l1 ++ x :: d1 = l2 ++ x :: d2 -> l1 = l2 /\ d1 = d2.
Proof.
  induction l1 as [|a l1 IH]; intros [|b l2] d1 d2 N1 N2 E; cbn in E.
  - injection E as ->. auto.
  - injection E as E1 E2. subst. contradiction N1. apply in_or_app. right. left. reflexivity.
  - injection E as E1 E2. subst. contradiction N2. apply in_or_app. right. left. reflexivity.
  - injection E as E1 E2. subst. destruct (IH l2 d1 d2 N1 N2 E2) as [-> ->]. auto.
Qed.
Lemma dupname_inj t1 i t2 j : dupname t1 i = dupname t2 j -> t1 = t2 /\ i = j.
Proof.
  unfold dupname. intros E. apply (f_equal list_ascii_of_string) in E. rewrite !loa_app in E.
  change (list_ascii_of_string "_dup") with (["_"; "d"; "u"]%char ++ ["p"]%char) in E. rewrite <- !app_assoc in E. rewrite !app_assoc in E.
  rewrite <- !(app_assoc _ ["p"%char]) in E. cbn [app] in E.
  destruct (last_sep _ _ _ _ _ (str_no_p i) (str_no_p j) E) as [A B]. apply app_inv_tail in A. apply loa_inj in A, B. apply str_inj in B. auto.
Qed.

(** *** The positions of the nodes that call a module *)
Definition hits (t : string) (n : node) : bool := call_module n && String.eqb (n_target n) t.
Fixpoint positions (nodes : list node) (i : nat) (t : string) : list nat :=
  match nodes with [] => [] | n :: r => if hits t n then i :: positions r (S i) t else positions r (S i) t end.
(** How many nodes before position [p] call [t]. *)
Definition rank (nodes : list node) (p : nat) (t : string) : nat := length (filter (hits t) (firstn p nodes)).
Fixpoint index_of (q : nat) (l : list nat) : option nat :=
  match l with [] => None | x :: r => if Nat.eqb x q then Some 0 else option_map S (index_of q r) end.
Lemma positions_in : forall nodes i t q, In q (positions nodes i t) <-> exists p n, q = i + p /\ nth_error nodes p = Some n /\ hits t n = true.
Proof.
  induction nodes as [|n nodes IH]; intros i t q; cbn [positions]; [split; [intros []|intros ([|p] & n & _ & X & _); discriminate X]|].
  assert (R : In q (positions nodes (S i) t) <-> exists p m, q = i + S p /\ nth_error nodes p = Some m /\ hits t m = true).
  { rewrite IH. split; intros (p & m & E & X); exists p, m; (split; [lia|exact X]). }
  destruct (hits t n) eqn:H; cbn [In]; rewrite R; split.
  - intros [<-|(p & m & E & X)]; [exists 0, n; split; [lia|auto]|exists (S p), m; auto].
  - intros ([|p] & m & E & X & Y); [left; lia|right; exists p, m; auto].
  - intros (p & m & E & X). exists (S p), m. auto.
  - intros ([|p] & m & E & X & Y); [cbn in X; injection X as <-; congruence|exists p, m; auto].
Qed.
Lemma positions_nodup : forall nodes i t, NoDup (positions nodes i t).
Proof.
  induction nodes as [|n nodes IH]; intros i t; cbn [positions]; [constructor|]. destruct (hits t n); [|apply IH]. constructor; [|apply IH].
  intros X. apply positions_in in X as (p & m & E & _). lia.
Qed.
Lemma index_positions : forall nodes i t p n, nth_error nodes p = Some n -> hits t n = true -> index_of (i + p) (positions nodes i t) = Some (rank nodes p t).
Proof.
  induction nodes as [|n nodes IH]; intros i t [|p] m X H; try discriminate X; unfold rank; cbn [positions firstn filter].
  - cbn in X. injection X as ->. rewrite H. cbn [index_of]. rewrite Nat.add_0_r, Nat.eqb_refl. reflexivity.
  - cbn in X. specialize (IH (S i) t p m X H). replace (i + S p) with (S i + p) by lia. destruct (hits t n) eqn:H0; [|exact IH].
    cbn [index_of length]. destruct (Nat.eqb_spec i (S i + p)); [lia|]. rewrite IH. reflexivity.
Qed.
Lemma index_none q l : ~ In q l -> index_of q l = None.
Proof. induction l as [|x l IH]; cbn; [reflexivity|]. intros N. destruct (Nat.eqb_spec x q); [tauto|]. rewrite IH by tauto. reflexivity. Qed.
Lemma target_dict_get : forall nodes i d t, get (target_dict nodes i d) t =
  match get d t with Some l => Some (l ++ positions nodes i t) | None => match positions nodes i t with [] => None | ps => Some ps end end.
Proof.
  induction nodes as [|n nodes IH]; intros i d t; cbn [target_dict positions]; [destruct (get d t) as [l|]; [rewrite app_nil_r|]; reflexivity|].
  rewrite IH. unfold hits. destruct (call_module n); cbn [andb]; [|reflexivity]. destruct (get d (n_target n)) as [l|] eqn:G; rewrite get_put; destruct (String.eqb_spec (n_target n) t) as [<-|N]; try reflexivity; rewrite G.
  - rewrite <- app_assoc. reflexivity.
  - reflexivity.
Qed.
Lemma target_dict_nodup : forall nodes i d, NoDup (map fst d) -> NoDup (map fst (target_dict nodes i d)).
Proof.
  induction nodes as [|n nodes IH]; intros i d N; cbn [target_dict]; [exact N|]. apply IH. destruct (call_module n); [|exact N].
  assert (P : forall v, NoDup (map fst (put d (n_target n) v))).
  { intros v. rewrite put_fst. destruct (has d (n_target n)) eqn:H; [exact N|]. assert (X : ~ In (n_target n) (map fst d)) by (rewrite <- has_in, H; discriminate).
    apply NoDup_Add with (a := n_target n) (l := map fst d); [rewrite <- (app_nil_r (map fst d)) at 1; apply Add_app|auto]. }
  destruct (get d (n_target n)); apply P.
Qed.

Section D.
Context {M : Type}.
Variable copy : M -> M.
Variable modules : list (string * M).
Lemma nth_set {A} (f : A -> A) : forall l i q, nth_error (set_nth i f l) q = if Nat.eqb i q then option_map f (nth_error l q) else nth_error l q.
Proof.
  induction l as [|x l IH]; intros [|i] [|q]; cbn [set_nth nth_error Nat.eqb option_map]; try reflexivity.
  - destruct (Nat.eqb i q); reflexivity.
  - apply IH.
Qed.
Lemma set_length {A} (f : A -> A) : forall l i, length (set_nth i f l) = length l.
Proof. induction l as [|x l IH]; intros [|i]; cbn; auto. Qed.
Lemma dup_nodes_ok t m : get modules t = Some m -> forall ps k N D, NoDup ps -> exists N' D', dup_nodes copy modules t k ps (N, D) = Ok (N', D') /\ length N' = length N /\
  (forall q, nth_error N' q = match index_of q ps with Some j => option_map (retarget (dupname t (k + j))) (nth_error N q) | None => nth_error N q end) /\
  (forall j, j < length ps -> get D' (dupname t (k + j)) = Some (copy m)) /\ (forall x, (forall j, j < length ps -> x <> dupname t (k + j)) -> get D' x = get D x).
Proof.
  intros Hm. induction ps as [|p ps IH]; intros k N D ND; cbn [dup_nodes].
  - exists N, D. repeat split; auto. intros j J. cbn in J. lia.
  - apply NoDup_cons_iff in ND as [N1 N2]. rewrite Hm. cbn [fst snd]. change (t ++ "_dup" ++ str k)%string with (dupname t k).
    destruct (IH (S k) (set_nth p (retarget (dupname t k)) N) (put D (dupname t k) (copy m)) N2) as (N' & D' & E & L & Q & D1 & D2).
    exists N', D'. split; [exact E|]. split; [rewrite L; apply set_length|]. split; [|split].
    + intros q. rewrite Q, nth_set. cbn [index_of]. destruct (Nat.eqb_spec p q) as [<-|X].
      * rewrite index_none by exact N1. rewrite Nat.add_0_r. reflexivity.
      * destruct (index_of q ps) as [j|]; cbn [option_map]; [|reflexivity]. replace (k + S j) with (S k + j) by lia. reflexivity.
    + intros [|j] J; [|cbn in J; replace (k + S j) with (S k + j) by lia; apply D1; lia]. rewrite Nat.add_0_r. rewrite D2, get_put, String.eqb_refl; [reflexivity|].
      intros j _ X. apply dupname_inj in X as [_ X]. lia.
    + intros x X. rewrite D2.
      * rewrite get_put. destruct (String.eqb_spec (dupname t k) x) as [E0|]; [|reflexivity]. contradiction (X 0); [cbn; lia|rewrite Nat.add_0_r; auto].
      * intros j J. replace (S k + j) with (k + S j) by lia. apply X. cbn. lia.
Qed.
(** The name of the copy that [dup_all] gives to the node at [q], if any. *)
Definition renamed (d : list (string * list nat)) (q : nat) (t : string) : option nat :=
  match get d t with Some ps => match index_of q ps with Some (S j) => Some (S j) | _ => None end | None => None end.
Lemma index_tl q p ps : p <> q -> index_of q (p :: ps) = option_map S (index_of q ps).
Proof. intros N. cbn. destruct (Nat.eqb_spec p q); [contradiction|reflexivity]. Qed.
Lemma dup_all_ok : forall d N D, NoDup (map fst d) -> (forall t ps, In (t, ps) d -> ps <> [] /\ NoDup ps /\ exists m, get modules t = Some m) ->
  (forall t ps t' ps' q, In (t, ps) d -> In (t', ps') d -> In q ps -> In q ps' -> t = t') ->
  exists N' D', dup_all copy modules d (N, D) = Ok (N', D') /\ length N' = length N /\
    (forall q, (forall t ps, In (t, ps) d -> ~ In q ps) -> nth_error N' q = nth_error N q) /\
    (forall t ps q j, In (t, ps) d -> index_of q ps = Some j -> nth_error N' q = if Nat.eqb j 0 then nth_error N q else option_map (retarget (dupname t j)) (nth_error N q)) /\
    (forall t ps m j, In (t, ps) d -> get modules t = Some m -> 0 < j < length ps -> get D' (dupname t j) = Some (copy m)) /\
    (forall x, (forall t ps j, In (t, ps) d -> 0 < j < length ps -> x <> dupname t j) -> get D' x = get D x).
Proof.
  induction d as [|[t ps] d IH]; intros N D ND OK DJ; cbn [dup_all].
  - exists N, D. repeat split; auto; intros; contradiction.
  - cbn [map fst] in ND. apply NoDup_cons_iff in ND as [T1 T2]. destruct (OK t ps (or_introl eq_refl)) as (NE & NP & m & Hm).
    destruct ps as [|p ps]; [contradiction|]. cbn [tl]. apply NoDup_cons_iff in NP as [P1 P2].
    destruct (dup_nodes_ok t m Hm ps 1 N D P2) as (N1 & D1 & E1 & L1 & Q1 & A1 & B1). rewrite E1. cbn [bind].
    destruct (IH N1 D1 T2) as (N2 & D2 & E2 & L2 & F2 & Q2 & A2 & B2).
    { intros t' ps' X. apply OK. right. exact X. } { intros t1 ps1 t2 ps2 q X Y. apply DJ; right; assumption. }
    assert (NT : forall t' ps', In (t', ps') d -> t' <> t) by (intros t' ps' X ->; apply T1, in_map_iff; exists (t, ps'); auto).
    exists N2, D2. split; [exact E2|]. split; [congruence|]. split; [|split; [|split]].
    + intros q X. rewrite F2 by (intros t' ps' Y; apply (X t' ps'); right; exact Y). rewrite Q1, index_none; [reflexivity|]. intros Y. apply (X t (p :: ps)); [left; reflexivity|right; exact Y].
    + assert (InI : forall q l j, index_of q l = Some j -> In q l).
      { clear. induction l as [|x l IH]; cbn; [discriminate|]. intros j. destruct (Nat.eqb_spec x q); [auto|]. destruct (index_of q l); [eauto|discriminate]. }
      intros t' ps' q j [X|X] I0.
      * injection X as <- <-. rewrite F2.
        2:{ intros t' ps' Y Z. apply (NT t' ps' Y). symmetry. apply (DJ t (p :: ps) t' ps' q); [left; reflexivity|right; exact Y|eapply InI; exact I0|exact Z]. }
        rewrite Q1. destruct (Nat.eqb_spec p q) as [<-|PQ].
        { rewrite index_none by exact P1. cbn in I0. rewrite Nat.eqb_refl in I0. injection I0 as <-. reflexivity. }
        rewrite index_tl in I0 by exact PQ. destruct (index_of q ps) as [j0|]; [|discriminate I0]. injection I0 as <-. reflexivity.
      * rewrite (Q2 t' ps' q j X I0). rewrite Q1. rewrite index_none; [reflexivity|]. intros Y. apply (NT t' ps' X). apply (DJ t' ps' t (p :: ps) q); [right; exact X|left; reflexivity|eapply InI; exact I0|right; exact Y].
    + intros t' ps' m' j [X|X] Hm' J.
      * injection X as <- <-. rewrite Hm in Hm'. injection Hm' as <-. rewrite B2.
        { destruct j as [|j]; [lia|]. apply (A1 j). cbn in J. lia. }
        intros t' ps' j' Y _ Z. apply dupname_inj in Z as [Z _]. apply (NT t' ps' Y). auto.
      * apply (A2 t' ps' m' j X Hm' J).
    + intros x X. rewrite B2 by (intros t' ps' j Y; apply (X t' ps' j); right; exact Y). apply B1. intros j J. apply (X t (p :: ps) (S j)); [left; reflexivity|cbn; lia].
Qed.
End D.

Definition C195_target (nodes : list node) (p : nat) (t : string) : string := match rank nodes p t with O => t | k => dupname t k end.
(** What building gives, whatever the names are. *)
Lemma build_exact {M} (copy : M -> M) nodes modules : known nodes modules ->
  exists nodes' modules', build_graphmodule copy nodes modules = Ok (nodes', modules') /\ length nodes' = length nodes /\
    (forall p n, nth_error nodes p = Some n -> nth_error nodes' p = Some (if String.eqb (n_op n) "call_module" then retarget (C195_target nodes p (n_target n)) n else n)) /\
    (forall p n m, nth_error nodes p = Some n -> n_op n = "call_module" -> get modules (n_target n) = Some m -> 0 < rank nodes p (n_target n) ->
       get modules' (dupname (n_target n) (rank nodes p (n_target n))) = Some (copy m)) /\
    (forall x, (forall n j, In n nodes -> n_op n = "call_module" -> 0 < j < length nodes -> x <> dupname (n_target n) j) -> get modules' x = get modules x).
Proof.
  intros K. unfold build_graphmodule, duplicate_reused_nodes. set (d := target_dict nodes 0 []).
  assert (ND : NoDup (map fst d)) by (apply target_dict_nodup; constructor).
  assert (IN : forall t ps, In (t, ps) d <-> ps = positions nodes 0 t /\ ps <> []).
  { intros t ps. split.
    - intros X. apply (get_nodup d t ps ND) in X. unfold d in X. rewrite target_dict_get in X. cbn [get] in X. destruct (positions nodes 0 t); [discriminate X|]. injection X as <-. split; [reflexivity|discriminate].
    - intros [E NE]. apply get_in. unfold d. rewrite target_dict_get. cbn [get]. destruct (positions nodes 0 t); congruence. }
  assert (HIT : forall t n, hits t n = true <-> n_op n = "call_module" /\ n_target n = t).
  { intros t n. unfold hits, call_module. rewrite andb_true_iff, !String.eqb_eq. tauto. }
  assert (LE : forall t i, length (positions nodes i t) <= length nodes).
  { intros t. clear. induction nodes as [|n nodes IH]; intros i; cbn; [lia|]. specialize (IH (S i)). destruct (hits t n); cbn; lia. }
  destruct (dup_all_ok copy modules d nodes []) as (N' & D' & E & L & F & Q & A & B); [exact ND| | |].
  { intros t ps X. apply IN in X as [-> X]. split; [exact X|]. split; [apply positions_nodup|]. destruct (positions nodes 0 t) as [|q l] eqn:P; [contradiction|].
    assert (Y : In q (positions nodes 0 t)) by (rewrite P; left; reflexivity). apply positions_in in Y as (p & n & _ & Y & H). apply HIT in H as [H <-]. apply (K n); [eapply nth_error_In; exact Y|exact H]. }
  { intros t ps t' ps' q X Y U V. apply IN in X as [-> _]. apply IN in Y as [-> _]. apply positions_in in U as (p & n & U & Un & Uh). apply positions_in in V as (p' & n' & V & Vn & Vh).
    cbn in U, V. subst p p'. rewrite Un in Vn. injection Vn as <-. apply HIT in Uh as [_ <-]. apply HIT in Vh as [_ <-]. reflexivity. }
  rewrite E. cbn [bind fst snd]. exists N', (update modules D'). split; [reflexivity|]. split; [exact L|].
  assert (POS : forall p n, nth_error nodes p = Some n -> n_op n = "call_module" -> In (n_target n, positions nodes 0 (n_target n)) d /\ index_of p (positions nodes 0 (n_target n)) = Some (rank nodes p (n_target n))).
  { intros p n X O. assert (H : hits (n_target n) n = true) by (apply HIT; auto). split; [|apply (index_positions nodes 0 (n_target n) p n X H)]. apply IN. split; [reflexivity|]. intros Z.
    assert (Y : In p (positions nodes 0 (n_target n))) by (apply positions_in; exists p, n; auto). rewrite Z in Y. exact Y. }
  assert (UPD : forall x, get (update modules D') x = match get D' x with Some v => Some v | None => get modules x end).
  { assert (NDD : NoDup (map fst D')).
    { clear -E. revert E. generalize d. intros d0. assert (Z : NoDup (map fst (@nil (string * M)))) by constructor. revert Z. generalize (@nil (string * M)) as D0, nodes as N0.
      induction d0 as [|[t ps] d0 IH]; intros D0 N0 Z; cbn [dup_all]; [intros X; apply Ok_inj in X; injection X as _ <-; exact Z|].
      destruct (dup_nodes copy modules t 1 (tl ps) (N0, D0)) as [[N1 D1]|] eqn:X; [|discriminate]. cbn [bind]. apply IH. revert X. generalize 1 as k. revert N0 D0 Z. induction (tl ps) as [|q qs IHq]; intros N0 D0 Z k; cbn [dup_nodes].
      - intros X. apply Ok_inj in X. injection X as _ <-. exact Z.
      - destruct (get modules t) as [m|]; [|discriminate]. cbn [fst snd]. apply IHq. rewrite put_fst. destruct (has D0 _) eqn:H; [exact Z|].
        assert (Y : ~ In (t ++ "_dup" ++ str k)%string (map fst D0)) by (rewrite <- has_in, H; discriminate).
        apply NoDup_Add with (a := (t ++ "_dup" ++ str k)%string) (l := map fst D0); [rewrite <- (app_nil_r (map fst D0)) at 1; apply Add_app|auto]. }
    intros x. unfold update. rewrite (fold_put_get fst snd).
    - destruct (find (fun b => String.eqb (fst b) x) D') as [[k v]|] eqn:Z.
      + apply find_some in Z as [Z1 Z2]. cbn in Z2. apply String.eqb_eq in Z2. subst k. rewrite (get_nodup D' x v NDD Z1). reflexivity.
      + destruct (get D' x) as [v|] eqn:G; [|reflexivity]. apply get_in in G. pose proof (find_none _ _ Z _ G) as W. cbn in W. rewrite String.eqb_refl in W. discriminate W.
    - intros [k v] [k' v'] X Y Z. cbn in Z |- *. subst k'. apply (get_nodup D' k v NDD) in X. apply (get_nodup D' k v' NDD) in Y. congruence. }
  split; [|split].
  - intros p n X. destruct (String.eqb_spec (n_op n) "call_module") as [O|O].
    + destruct (POS p n X O) as [P1 P2]. rewrite (Q _ _ _ _ P1 P2). unfold C195_target. destruct (rank nodes p (n_target n)) as [|k]; cbn [Nat.eqb].
      * rewrite X. destruct n; reflexivity.
      * rewrite X. reflexivity.
    + rewrite F; [exact X|]. intros t ps Y Z. apply IN in Y as [-> _]. apply positions_in in Z as (p' & n' & Z & Zn & H). cbn in Z. subst p'. rewrite X in Zn. injection Zn as <-. apply HIT in H as [H _]. contradiction.
  - intros p n m X O G R. destruct (POS p n X O) as [P1 P2]. rewrite UPD, (A _ _ m _ P1 G); [reflexivity|]. split; [exact R|]. clear -P2. revert P2.
    generalize (positions nodes 0 (n_target n)) as l, (rank nodes p (n_target n)) as j. induction l as [|x l IH]; cbn; [discriminate|]. intros j. destruct (Nat.eqb x p); [intros [= <-]; lia|].
    destruct (index_of p l); [|discriminate]. cbn. intros [= <-]. specialize (IH _ eq_refl). lia.
  - intros x X. rewrite UPD, B; [reflexivity|]. intros t ps j Y J Z. apply IN in Y as [-> Y]. destruct (positions nodes 0 t) as [|q l] eqn:P; [contradiction|].
    assert (W : In q (positions nodes 0 t)) by (rewrite P; left; reflexivity). apply positions_in in W as (p & n & _ & W & H). apply HIT in H as [H <-].
    apply (X n j); [eapply nth_error_In; exact W|exact H| |exact Z]. specialize (LE (n_target n) 0). rewrite P in LE. lia.
Qed.
(** When no module the graph calls already has the name of a copy of another one, the nodes come out separated. The first node that calls a module
    keeps it, and the others get copies. *)
Theorem C195_separated_partial : forall (M : Type) (copy : M -> M) nodes modules, known nodes modules ->
  (forall n n' j, In n nodes -> In n' nodes -> n_op n = "call_module" -> n_op n' = "call_module" -> 0 < j < length nodes -> n_target n' <> dupname (n_target n) j) ->
  exists nodes' modules', build_graphmodule copy nodes modules = Ok (nodes', modules') /\ separated copy nodes modules nodes' modules' /\
    forall p n m, nth_error nodes p = Some n -> n_op n = "call_module" -> get modules (n_target n) = Some m ->
      ((forall q n', nth_error nodes q = Some n' -> n_op n' = "call_module" -> n_target n' = n_target n -> p <= q) -> nth_error nodes' p = Some n /\ get modules' (n_target n) = Some m) /\
      ((exists q n', q < p /\ nth_error nodes q = Some n' /\ n_op n' = "call_module" /\ n_target n' = n_target n) -> exists t, nth_error nodes' p = Some (retarget t n) /\ get modules' t = Some (copy m)).
Proof.
  intros M copy nodes modules K FR. destruct (build_exact copy nodes modules K) as (N' & D' & E & L & Q & A & B). exists N', D'. split; [exact E|].
  assert (HIT : forall t n, hits t n = true <-> n_op n = "call_module" /\ n_target n = t).
  { intros t n. unfold hits, call_module. rewrite andb_true_iff, !String.eqb_eq. tauto. }
  assert (KEEP : forall n, In n nodes -> n_op n = "call_module" -> get D' (n_target n) = get modules (n_target n)).
  { intros n X O. apply B. intros n0 j Y O0 J. apply FR; assumption. }
  assert (RL : forall p n, nth_error nodes p = Some n -> rank nodes p (n_target n) < length nodes).
  { intros p n X. assert (P : p < length nodes) by (apply nth_error_Some; congruence). unfold rank. assert (Y : forall l, length (filter (hits (n_target n)) l) <= length l) by (induction l as [|a l IHl]; cbn; [lia|destruct (hits _ a); cbn; lia]).
    specialize (Y (firstn p nodes)). rewrite firstn_length in Y. lia. }
  split.
  { split; [exact L|]. split; [|split].
    - intros p n X O. rewrite (Q p n X). destruct (String.eqb_spec (n_op n) "call_module"); [contradiction|reflexivity].
    - intros p n X O. destruct (K n (nth_error_In _ _ X) O) as [m G]. rewrite (Q p n X), O. cbn [String.eqb Ascii.eqb Bool.eqb]. exists (C195_target nodes p (n_target n)), m.
      unfold C195_target. destruct (rank nodes p (n_target n)) as [|k] eqn:R.
      + exists m. repeat split; auto. rewrite KEEP; [exact G|eapply nth_error_In; exact X|exact O].
      + exists (copy m). repeat split; auto. rewrite <- R. apply (A p n m X O G). lia.
    - intros p q n' m' X Y O1 O2 T.
      assert (Z : forall p n', nth_error N' p = Some n' -> n_op n' = "call_module" -> exists n, nth_error nodes p = Some n /\ n_op n = "call_module" /\ n_target n' = C195_target nodes p (n_target n)).
      { clear -Q L. intros p n' X O. assert (P : p < length nodes) by (rewrite <- L; apply nth_error_Some; congruence). destruct (nth_error nodes p) as [n|] eqn:N; [|apply nth_error_None in N; lia].
        specialize (Q p n N). rewrite X in Q. injection Q as ->. exists n. split; [reflexivity|]. destruct (String.eqb_spec (n_op n) "call_module") as [O'|O']; [auto|contradiction]. }
      destruct (Z p n' X O1) as (n & Xn & On & Tn). destruct (Z q m' Y O2) as (m & Ym & Om & Tm). rewrite Tn, Tm in T. unfold C195_target in T.
      pose proof (RL p n Xn) as Rp. pose proof (RL q m Ym) as Rq.
      assert (TR : n_target n = n_target m /\ rank nodes p (n_target n) = rank nodes q (n_target m)).
      { destruct (rank nodes p (n_target n)) as [|i] eqn:R1, (rank nodes q (n_target m)) as [|j] eqn:R2.
        - auto.
        - exfalso. apply (FR m n (S j) (nth_error_In _ _ Ym) (nth_error_In _ _ Xn) Om On); [lia|exact T].
        - exfalso. apply (FR n m (S i) (nth_error_In _ _ Xn) (nth_error_In _ _ Ym) On Om); [lia|symmetry; exact T].
        - apply dupname_inj in T as [T1 T2]. auto. }
      destruct TR as [T1 T2]. rewrite <- T1 in T2.
      assert (MONO : forall a b c, nth_error nodes a = Some c -> n_op c = "call_module" -> n_target c = n_target n -> a < b -> b < length nodes -> rank nodes a (n_target n) < rank nodes b (n_target n)).
      { clear -HIT. intros a b c. unfold rank. revert a b. induction nodes as [|x l IHl]; intros [|a] [|b] X O T L1 L2; cbn in L2; try lia; try discriminate X; cbn [firstn filter].
        - cbn in X. injection X as ->. replace (hits (n_target n) c) with true by (symmetry; apply HIT; auto). cbn. lia.
        - cbn in X. specialize (IHl a b X O T). destruct (hits (n_target n) x); cbn; lia. }
      assert (Lp : p < length nodes) by (apply nth_error_Some; congruence). assert (Lq : q < length nodes) by (apply nth_error_Some; congruence).
      destruct (Nat.lt_trichotomy p q) as [C|[C|C]]; [|exact C|].
      + pose proof (MONO p q n Xn On eq_refl C Lq). lia.
      + pose proof (MONO q p m Ym Om (eq_sym T1) C Lp). lia. }
  intros p n m X O G. split.
  - intros FIRST. assert (R0 : rank nodes p (n_target n) = 0).
    { unfold rank. destruct (filter (hits (n_target n)) (firstn p nodes)) as [|x l] eqn:F; [reflexivity|exfalso]. assert (Y : In x (filter (hits (n_target n)) (firstn p nodes))) by (rewrite F; left; reflexivity).
      apply filter_In in Y as [Y H]. apply HIT in H as [H1 H2]. apply In_nth_error in Y as [q Y]. assert (Lq : q < length (firstn p nodes)) by (apply nth_error_Some; congruence). rewrite firstn_length in Lq.
      assert (Z : nth_error nodes q = Some x). { rewrite <- (firstn_skipn p nodes), nth_error_app1; [exact Y|rewrite firstn_length; lia]. } specialize (FIRST q x Z H1 H2). lia. }
    rewrite (Q p n X), O. cbn [String.eqb Ascii.eqb Bool.eqb]. unfold C195_target. rewrite R0. split; [destruct n; reflexivity|]. rewrite KEEP; [exact G|eapply nth_error_In; exact X|exact O].
  - intros (q & n' & C & Y & O' & T). assert (R : 0 < rank nodes p (n_target n)).
    { unfold rank. assert (Z : In n' (filter (hits (n_target n)) (firstn p nodes))).
      { apply filter_In. split; [|apply HIT; auto]. apply nth_error_In with (n := q). assert (P : p < length nodes) by (apply nth_error_Some; congruence).
        rewrite <- (firstn_skipn p nodes), nth_error_app1 in Y; [exact Y|rewrite firstn_length; lia]. }
      destruct (filter (hits (n_target n)) (firstn p nodes)); [destruct Z|cbn; lia]. }
    exists (dupname (n_target n) (rank nodes p (n_target n))). rewrite (Q p n X), O. cbn [String.eqb Ascii.eqb Bool.eqb]. unfold C195_target. split; [destruct (rank nodes p (n_target n)); [lia|reflexivity]|].
    apply (A p n m X O G R).
Qed.

Example C195_example : build_graphmodule (fun m => m + 100) [nd 0 "placeholder" "x" []; nd 1 "call_module" "head" [0]; nd 2 "call_module" "conv" [1]; nd 3 "call_module" "head" [2]; nd 4 "call_module" "head" [3]] [("head", 1); ("conv", 2)]
  = Ok ([nd 0 "placeholder" "x" []; nd 1 "call_module" "head" [0]; nd 2 "call_module" "conv" [1]; nd 3 "call_module" "head_dup1" [2]; nd 4 "call_module" "head_dup2" [3]], [("head", 1); ("conv", 2); ("head_dup1", 101); ("head_dup2", 101)]).
Proof. reflexivity. Qed.

Print Assumptions C195_names_refuted.
Print Assumptions C195_separated_partial.
