(** C120 - removing padding by zero from an ONNX graph. *)
From Coq Require Import String Permutation.
From Verif Require Import Prelude Onnx_Model Onnx_Lemmas Onnx_Props Onnx2_Props.
Local Open Scope string_scope.
Local Open Scope list_scope.
Local Open Scope Z_scope.

(** ** Specification *)
Section Pads.
Variable V : Type.
Variable exec : string -> nat -> list V -> list V.
Variable const_value : onode -> option V.
Variable all_zero : V -> bool.
Implicit Type m : omodel V.
(** The tensors with a value known before execution. *)
Inductive constant m : string -> V -> Prop :=
| const_init k v : In (k, v) (m_init _ m) -> constant m k v
| const_node n k outs v : In n (m_node _ m) -> o_op n = "Constant" -> o_out n = k :: outs -> const_value n = Some v -> constant m k v
| const_same n i k outs v : In n (m_node _ m) -> o_op n = "Identity" -> o_in n = [i] -> o_out n = k :: outs -> constant m i v -> constant m k v.
(** The operators in question do what they are meant to. *)
Record operators : Prop := {
  op_const : forall n v, o_op n = "Constant" -> const_value n = Some v -> exec "Constant" (o_attr n) [] = [v];
  op_same : forall a v, exec "Identity" a [v] = [v];
  op_pad : forall a x p rest, all_zero p = true -> exec "Pad" a (x :: p :: rest) = [x] }.
(** A node that pads by zero. *)
Definition idle m (n : onode) : Prop := o_op n = "Pad" /\ exists x p rest v, o_in n = x :: p :: rest /\ constant m p v /\ all_zero v = true.
(** Paddings are constants; a padding by zero has an output that is used by nodes and is not an output of the graph. *)
Definition plain m : Prop := forall n, In n (m_node _ m) ->
  (o_op n = "Pad" -> exists x p rest v, o_in n = x :: p :: rest /\ constant m p v) /\
  (o_op n = "Constant" -> o_in n = []) /\
  (idle m n -> exists o outs, o_out n = o :: outs /\ consumed V m o /\ ~ In o (m_out _ m)).

(** ** Proof *)
Definition ren (s : string -> string) (n : onode) : onode := {| o_name := o_name n; o_op := o_op n; o_attr := o_attr n; o_in := map s (o_in n); o_out := o_out n |}.
Lemma list_ext {A} : forall a b : list A, (forall i, nth_error a i = nth_error b i) -> a = b.
Proof.
  induction a as [|x a IH]; intros [|y b] H; [reflexivity|specialize (H 0%nat); discriminate H|specialize (H 0%nat); discriminate H|].
  pose proof (H 0%nat) as H0. apply some_inj in H0. subst y. f_equal. apply IH. intros i. exact (H (S i)).
Qed.
Lemma enum_nth {A} : forall (l : list A) i q x, In (q, x) (enum i l) <-> exists p, q = (i + p)%nat /\ nth_error l p = Some x.
Proof.
  induction l as [|y l IH]; intros i q x; cbn [enum In]; [split; [tauto|intros (p & _ & E); destruct p; discriminate E]|]. rewrite IH. split.
  - intros [E|(p & -> & E)]; [inversion E; exists 0%nat; split; [lia|reflexivity]|exists (S p); split; [lia|exact E]].
  - intros ([|p] & -> & E); [left; apply some_inj in E; subst; f_equal; lia|right; exists p; split; [lia|exact E]].
Qed.
Definition entries (d : list (string * list (nat * nat))) (k : string) : list (nat * nat) := match get d k with Some l => l | None => [] end.
Lemma entries_add d i p k : entries (add_use d i p) k = if String.eqb i k then entries d k ++ [p] else entries d k.
Proof. unfold entries, add_use. destruct (get d i) as [l|] eqn:E; rewrite get_put; destruct (String.eqb_spec i k) as [->|N]; try reflexivity; rewrite E; reflexivity. Qed.
Lemma entries_spec m k : forall p j, In (p, j) (entries (map_input_and_node V m) k) <-> exists n, nth_error (m_node _ m) p = Some n /\ nth_error (o_in n) j = Some k.
Proof.
  intros p j. unfold map_input_and_node.
  assert (I1 : forall q (ins : list (nat * string)) d, In (p, j) (entries (fold_left (fun d ji => add_use d (snd ji) (q, fst ji)) ins d) k) <-> In (p, j) (entries d k) \/ (q = p /\ In (j, k) ins)).
  { intros q. induction ins as [|[j' i] ins IH]; intros d; cbn [fold_left fst snd In]; [tauto|]. rewrite IH, entries_add. destruct (String.eqb_spec i k) as [->|N]; [rewrite in_app_iff; cbn [In]|]; split; intuition congruence. }
  assert (I2 : forall (ns : list (nat * onode)) d, In (p, j) (entries (fold_left (fun d pn => fold_left (fun d ji => add_use d (snd ji) (fst pn, fst ji)) (enum 0 (o_in (snd pn))) d) ns d) k) <-> In (p, j) (entries d k) \/ exists n, In (p, n) ns /\ In (j, k) (enum 0 (o_in n))).
  { induction ns as [|[q n] ns IH]; intros d; cbn [fold_left fst snd In]; [split; [tauto|intros [H|(n & I & _)]; [exact H|destruct I]]|]. rewrite IH, I1. split.
    - intros [[H|[-> H]]|(x & I & J)]; [auto|right; exists n; auto|right; exists x; auto].
    - intros [H|(x & [E|I] & J)]; [auto|inversion E; subst; auto|right; exists x; auto]. }
  rewrite I2. split.
  - intros [H|(n & I & J)]; [destruct H|]. exists n. apply enum_nth in I as (p' & -> & I). apply enum_nth in J as (j' & -> & J). auto.
  - intros (n & I & J). right. exists n. split; apply enum_nth; [exists p|exists j]; auto.
Qed.
Lemma set_nth_get {A} (x : A) : forall j l i, nth_error (set_nth j x l) i = if Nat.eqb i j then match nth_error l i with Some _ => Some x | None => None end else nth_error l i.
Proof. induction j as [|j IH]; intros [|y l] [|i]; cbn [set_nth nth_error Nat.eqb]; try reflexivity; [destruct (Nat.eqb i j); reflexivity|]. apply IH. Qed.
Definition hit (l : list (nat * nat)) (p j : nat) : bool := existsb (fun pj => Nat.eqb (fst pj) p && Nat.eqb (snd pj) j) l.
Lemma hit_in l p j : hit l p j = true <-> In (p, j) l.
Proof. unfold hit. rewrite existsb_exists. split; [intros ([p' j'] & I & E); apply andb_true_iff in E as [E1 E2]; apply Nat.eqb_eq in E1, E2; cbn [fst snd] in *; subst; exact I|intros I; exists (p, j); cbn [fst snd]; rewrite !Nat.eqb_refl; auto]. Qed.
Lemma set_input_get x p j l q : nth_error (set_input p j x l) q = match nth_error l q with
  | Some n => Some (if Nat.eqb q p then {| o_name := o_name n; o_op := o_op n; o_attr := o_attr n; o_in := set_nth j x (o_in n); o_out := o_out n |} else n)
  | None => None end.
Proof.
  unfold set_input. destruct (nth_error l p) as [n|] eqn:E.
  - rewrite set_nth_get. destruct (Nat.eqb_spec q p) as [->|N]; [rewrite E; reflexivity|destruct (nth_error l q); reflexivity].
  - destruct (Nat.eqb_spec q p) as [->|N]; [rewrite E; reflexivity|destruct (nth_error l q); reflexivity].
Qed.
Lemma set_all x : forall l ns q n, nth_error ns q = Some n ->
  exists n', nth_error (fold_left (fun ns pj => set_input (fst pj) (snd pj) x ns) l ns) q = Some n' /\ o_name n' = o_name n /\ o_op n' = o_op n /\ o_attr n' = o_attr n /\ o_out n' = o_out n /\
    forall j, nth_error (o_in n') j = match nth_error (o_in n) j with Some y => Some (if hit l q j then x else y) | None => None end.
Proof.
  induction l as [|[p j] l IH]; intros ns q n E; [exists n; cbn; repeat split; auto; intros i; destruct (nth_error (o_in n) i); reflexivity|]. cbn [fold_left fst snd].
  pose proof (set_input_get x p j ns q) as G. rewrite E in G. destruct (IH _ _ _ G) as (n' & A & B & C & D0 & F & H). exists n'. split; [exact A|].
  destruct (Nat.eqb_spec q p) as [->|N]; cbn [o_name o_op o_attr o_out o_in] in *; repeat (split; [assumption|]); intros i; rewrite H; cbn [hit existsb fst snd].
  - rewrite set_nth_get, Nat.eqb_refl. cbn [andb]. rewrite (Nat.eqb_sym j i). destruct (nth_error (o_in n) i); destruct (Nat.eqb i j); cbn [orb]; try reflexivity. destruct (hit l p i); reflexivity.
  - destruct (Nat.eqb_spec p q) as [->|_]; [contradiction|]. cbn [andb orb]. reflexivity.
Qed.
Lemma set_all_none x : forall l ns q, nth_error ns q = None -> nth_error (fold_left (fun ns pj => set_input (fst pj) (snd pj) x ns) l ns) q = None.
Proof. induction l as [|[p j] l IH]; intros ns q E; [exact E|]. cbn [fold_left]. apply IH. rewrite set_input_get, E. reflexivity. Qed.
(** Replacing all uses of [o]. *)
Lemma set_ren m s o x l : s o = o -> get (map_input_and_node V m) o = Some l ->
  fold_left (fun ns pj => set_input (fst pj) (snd pj) x ns) l (map (ren s) (m_node _ m)) = map (ren (fun k => if String.eqb k o then x else s k)) (m_node _ m).
Proof.
  intros So G. assert (L : forall p j, In (p, j) l <-> exists n, nth_error (m_node _ m) p = Some n /\ nth_error (o_in n) j = Some o).
  { intros p j. rewrite <- entries_spec. unfold entries. rewrite G. reflexivity. }
  apply list_ext. intros q. rewrite nth_error_map. destruct (nth_error (m_node _ m) q) as [n|] eqn:E; cbn [option_map].
  - destruct (set_all x l (map (ren s) (m_node _ m)) q (ren s n)) as (n' & A & B & C & D0 & F & H); [rewrite nth_error_map, E; reflexivity|]. rewrite A. f_equal.
    destruct n' as [n1 n2 n3 n4 n5]. cbn [o_name o_op o_attr o_out o_in ren] in *. subst. unfold ren. f_equal. apply list_ext. intros j. rewrite H, !nth_error_map. destruct (nth_error (o_in n) j) as [y|] eqn:Ej; [|reflexivity]. cbn [option_map]. f_equal.
    destruct (hit l q j) eqn:Hh.
    + apply hit_in, L in Hh as (n0 & E0 & E1). rewrite E in E0. apply some_inj in E0. subst n0. rewrite Ej in E1. apply some_inj in E1. subst y. rewrite String.eqb_refl. reflexivity.
    + destruct (String.eqb_spec y o) as [->|_]; [|reflexivity]. exfalso. assert (X : hit l q j = true) by (apply hit_in, L; eauto). congruence.
  - apply set_all_none. rewrite nth_error_map, E. reflexivity.
Qed.

Lemma out_unique : forall l n n' k, NoDup (flat_map o_out l) -> In n l -> In n' l -> In k (o_out n) -> In k (o_out n') -> n = n'.
Proof.
  induction l as [|x l IH]; intros n n' k N I I' J J'; [destruct I|]. cbn [flat_map] in N. apply nodup_app in N as (_ & N2 & N3).
  destruct I as [<-|I], I' as [<-|I']; [reflexivity| | |eauto]; exfalso; apply (N3 k); [exact J|apply in_flat_map; eauto|exact J'|apply in_flat_map; eauto].
Qed.
Lemma get_find {A} (d : list (string * A)) k : match find (fun b => String.eqb (fst b) k) d with Some b => Some (snd b) | None => None end = get d k.
Proof. induction d as [|[k0 v0] d IH]; [reflexivity|]. cbn [find get fst]. destruct (String.eqb k0 k); [reflexivity|exact IH]. Qed.
Lemma positions {A B} (g : A -> B) (f : A -> bool) : forall b a,
  flat_map (fun p => match nth_error (map g (a ++ b)) p with Some n => [n] | None => [] end)
    (filter (fun p => match nth_error (a ++ b) p with Some n => f n | None => false end) (seq (length a) (length b))) = map g (filter f b).
Proof.
  induction b as [|x b IH]; intros a; [reflexivity|]. cbn [length seq filter]. rewrite nth_error_app2 by lia. rewrite Nat.sub_diag. cbn [nth_error].
  specialize (IH (a ++ [x])). rewrite <- app_assoc, app_length in IH. cbn [app length] in IH. rewrite Nat.add_1_r in IH.
  destruct (f x); [|exact IH]. cbn [flat_map map]. rewrite nth_error_map, nth_error_app2, Nat.sub_diag by lia. cbn [nth_error option_map app]. f_equal. exact IH.
Qed.
Lemma remove_map (g : onode -> onode) (f : onode -> bool) : forall b a, NoDup (a ++ map g b) -> remove_all (map g (filter f b)) (a ++ map g b) = Ok (a ++ map g (filter (fun x => negb (f x)) b)).
Proof.
  assert (R1 : forall n a b, ~ In n a -> remove_node n (a ++ n :: b) = Ok (a ++ b)).
  { intros n a b. induction a as [|x a IH]; intros Hn; cbn [app remove_node].
    - rewrite (proj2 (same_node_eq V exec n n) eq_refl). reflexivity.
    - destruct (same_node x n) eqn:E; [apply (same_node_eq V exec) in E; exfalso; apply Hn; left; exact E|]. rewrite IH by (intros J; apply Hn; right; exact J). reflexivity. }
  induction b as [|n b IH]; intros a N; [reflexivity|]. cbn [filter map] in *. destruct (f n) eqn:E; cbn [negb map].
  - cbn [remove_all]. rewrite R1; [|intros J; apply NoDup_remove_2 in N; apply N, in_or_app; auto]. cbn [bind]. apply IH. apply NoDup_remove_1 in N. exact N.
  - specialize (IH (a ++ [g n])). rewrite <- !app_assoc in IH. cbn [app] in IH. apply IH. exact N.
Qed.
Lemma filter_split {A} (f : A -> bool) : forall l a n b, filter f l = a ++ n :: b -> exists a' b', l = a' ++ n :: b' /\ filter f a' = a /\ filter f b' = b.
Proof.
  induction l as [|x l IH]; intros a n b E; [destruct a; discriminate E|]. cbn [filter] in E. destruct (f x) eqn:Kx.
  - destruct a as [|y a]; injection E as -> E; [exists [], l; auto|]. destruct (IH a n b E) as (a' & b' & -> & F & G). exists (y :: a'), b'. split; [reflexivity|]. cbn [filter]. rewrite Kx, F. auto.
  - destruct (IH a n b E) as (a' & b' & -> & F & G). exists (x :: a'), b'. split; [reflexivity|]. cbn [filter]. rewrite Kx. auto.
Qed.

Section Remove.
Variable m : omodel V.
Variable feed : string -> V.
Variable e1 : env V.
Hypothesis Ops : operators.
Hypothesis D : distinct V m.
Hypothesis Pl : plain m.
Hypothesis Rn : run V exec (start V m feed) (m_node _ m) = Some e1.
Notation nodes := (m_node _ m).
Lemma Nd : NoDup (flat_map o_out nodes).
Proof. exact (proj1 (proj2 (nodup_app _ _ (ds_single _ _ D)))). Qed.
Lemma fresh o : In o (flat_map o_out nodes) -> start V m feed o = None.
Proof.
  intros Ho. destruct (start V m feed o) eqn:S0; [|reflexivity]. exfalso. assert (S1 : start V m feed o <> None) by congruence. apply (start_some V exec) in S1 as [I|I]; [exact (ds_fresh _ _ D o Ho I)|].
  exact (proj2 (proj2 (nodup_app _ _ (ds_single _ _ D))) o I Ho).
Qed.
Lemma solved : (forall k, ~ In k (flat_map o_out nodes) -> e1 k = start V m feed k) /\ forall n, In n nodes -> solves V exec e1 n.
Proof. exact (run_solves V exec _ _ _ Rn Nd fresh). Qed.
(** Known before the node at position [p]. *)
Definition avail (p : nat) (k : string) : Prop := start V m feed k <> None \/ In k (flat_map o_out (firstn p nodes)).
Lemma avail_in p n i : nth_error nodes p = Some n -> In i (o_in n) -> avail p i.
Proof.
  intros E Hi. destruct (nth_error_split _ _ E) as (a & b & Es & L). unfold avail. destruct (run_ready V exec _ _ _ Rn a n b Es i Hi) as [S0|I]; [auto|right]. rewrite Es, <- L, firstn_app, firstn_all, Nat.sub_diag. cbn [firstn]. rewrite app_nil_r. exact I.
Qed.
Lemma avail_mono p q k : (p <= q)%nat -> avail p k -> avail q k.
Proof.
  intros L [S0|I]; [left; exact S0|right]. apply in_flat_map in I as (n & I & J). apply in_flat_map. exists n. split; [|exact J].
  rewrite <- (firstn_skipn p (firstn q nodes)), firstn_firstn, Nat.min_l by exact L. apply in_or_app. auto.
Qed.
Lemma avail_out t n o p : nth_error nodes t = Some n -> In o (o_out n) -> avail p o -> (t < p)%nat.
Proof.
  intros E Ho [S0|I]; [exfalso; apply S0, fresh, in_flat_map; exists n; split; [eapply nth_error_In; exact E|exact Ho]|].
  destruct (Nat.lt_ge_cases t p) as [L|L]; [exact L|exfalso]. pose proof Nd as N. rewrite <- (firstn_skipn p nodes), flat_map_app in N. apply nodup_app in N as (_ & _ & N). apply (N o I). apply in_flat_map. exists n. split; [|exact Ho].
  apply (nth_error_In _ (t - p)). rewrite <- E. rewrite <- (firstn_skipn p nodes) at 2. assert (Lt : (t < length nodes)%nat) by (apply nth_error_Some; congruence). rewrite nth_error_app2, firstn_length, Nat.min_l by (rewrite ?firstn_length; lia). reflexivity.
Qed.
Lemma out_avail t n o : nth_error nodes t = Some n -> In o (o_out n) -> avail (S t) o.
Proof.
  intros E Ho. right. apply in_flat_map. exists n. split; [|exact Ho]. destruct (nth_error_split _ _ E) as (a & b & Es & L). rewrite Es, <- L. replace (S (length a)) with (length (a ++ [n])) by (rewrite app_length; cbn; lia).
  replace (a ++ n :: b) with ((a ++ [n]) ++ b) by (rewrite <- app_assoc; reflexivity). rewrite firstn_app, firstn_all, Nat.sub_diag. cbn [firstn]. rewrite app_nil_r. apply in_elt.
Qed.

(** The data. *)
Let data := map_name_and_data V const_value m.
Let base := fold_left (fun d kv => put d (fst kv) (snd kv)) (m_init _ m) [].
Lemma base_get k : get base k = get (m_init _ m) k.
Proof.
  unfold base. rewrite (fold_put_get fst snd).
  - rewrite <- (get_find (m_init _ m)). destruct (find _ _); reflexivity.
  - intros [k1 v1] [k2 v2] I1 I2 E. cbn in E |- *. subst k2. apply (get_nodup _ _ _ (ds_init _ _ D)) in I1, I2. congruence.
Qed.
Lemma step_get d n k : ~ In k (o_out n) -> get (data_step V const_value d n) k = get d k.
Proof.
  intros H. unfold data_step. destruct (o_out n) as [|o outs]; [destruct (o_in n) as [|i [|? ?]]; reflexivity|]. assert (Ne : String.eqb o k = false) by (apply String.eqb_neq; intros ->; apply H; left; reflexivity).
  assert (P1 : get match o_in n with [i] => if String.eqb (o_op n) "Identity" then match get d i with Some v => put d o v | None => d end else d | _ => d end k = get d k).
  { destruct (o_in n) as [|i [|? ?]]; try reflexivity. destruct (String.eqb (o_op n) "Identity"); [|reflexivity]. destruct (get d i); [rewrite get_put, Ne|]; reflexivity. }
  destruct (String.eqb (o_op n) "Constant"); [|exact P1]. destruct (const_value n); [rewrite get_put, Ne|]; exact P1.
Qed.
Lemma data_sound k v : get data k = Some v -> constant m k v.
Proof.
  unfold data, map_name_and_data. fold base.
  assert (G : forall l d, incl l nodes -> (forall k v, get d k = Some v -> constant m k v) -> forall k v, get (fold_left (data_step V const_value) l d) k = Some v -> constant m k v).
  { induction l as [|n l IH]; intros d Hl Hd; [exact Hd|]. cbn [fold_left]. apply IH; [intros x I; apply Hl; right; exact I|]. intros k0 v0. unfold data_step.
    assert (In_n : In n nodes) by (apply Hl; left; reflexivity).
    set (p1 := match o_in n with [i] => match o_out n with o :: _ => if String.eqb (o_op n) "Identity" then match get d i with Some v => put d o v | None => d end else d | [] => d end | _ => d end).
    assert (P1 : forall k v, get p1 k = Some v -> constant m k v).
    { intros k1 v1. unfold p1. destruct (o_in n) as [|i [|? ?]] eqn:Ei; try apply Hd. destruct (o_out n) as [|o outs] eqn:Eo; [apply Hd|]. destruct (String.eqb_spec (o_op n) "Identity") as [Op|_]; [|apply Hd]. destruct (get d i) as [w|] eqn:Gi; [|apply Hd].
      rewrite get_put. destruct (String.eqb_spec o k1) as [->|_]; [|apply Hd]. intros E. apply some_inj in E. subst w. eapply const_same; eauto. }
    destruct (o_out n) as [|o outs] eqn:Eo; [apply P1|]. destruct (String.eqb_spec (o_op n) "Constant") as [Op|_]; [|apply P1]. destruct (const_value n) as [w|] eqn:Cv; [|apply P1].
    rewrite get_put. destruct (String.eqb_spec o k0) as [->|_]; [|apply P1]. intros E. apply some_inj in E. subst w. eapply const_node; eauto. }
  apply (G nodes base); [apply incl_refl|]. intros k0 v0 H. rewrite base_get in H. apply const_init, get_in. exact H.
Qed.
Lemma data_complete k v : constant m k v -> get data k = Some v.
Proof.
  assert (G : forall a b, nodes = a ++ b -> forall k v, constant m k v -> In k (map fst (m_init _ m)) \/ In k (flat_map o_out a) -> get (fold_left (data_step V const_value) a base) k = Some v).
  { induction a as [|n a IH] using rev_ind; intros b E k0 v0 C H.
    - destruct H as [H|[]]. cbn [fold_left]. rewrite base_get. destruct C as [k0 v0 I|n k0 outs v0 I Op Eo Cv|n i k0 outs v0 I Op Ei Eo Cv]; [apply get_nodup; [exact (ds_init _ _ D)|exact I]| |];
        exfalso; apply (ds_fresh _ _ D k0); [|exact H| |exact H]; apply in_flat_map; exists n; rewrite Eo; cbn; auto.
    - rewrite fold_left_app. cbn [fold_left]. rewrite <- app_assoc in E. cbn [app] in E. assert (In_n : In n nodes) by (rewrite E; apply in_elt). destruct (in_dec string_dec k0 (o_out n)) as [J|J].
      + assert (Hout : In k0 (flat_map o_out nodes)) by (apply in_flat_map; eauto). destruct C as [k0 v0 I|n' k0 outs v0 I Op Eo Cv|n' i k0 outs v0 I Op Ei Eo Cv].
        * exfalso. apply (ds_fresh _ _ D k0 Hout). apply in_map_iff. exists (k0, v0). auto.
        * assert (n' = n) by (apply (out_unique nodes _ _ k0 Nd I In_n); [rewrite Eo; left; reflexivity|exact J]). subst n'. unfold data_step at 1. rewrite Eo, Op, Cv. change (String.eqb "Constant" "Constant") with true. cbv iota. rewrite get_put, String.eqb_refl. reflexivity.
        * assert (n' = n) by (apply (out_unique nodes _ _ k0 Nd I In_n); [rewrite Eo; left; reflexivity|exact J]). subst n'. unfold data_step at 1. rewrite Eo, Op, Ei. change (String.eqb "Identity" "Constant") with false. change (String.eqb "Identity" "Identity") with true. cbv iota. rewrite (IH _ E i v0 Cv); [rewrite get_put, String.eqb_refl; reflexivity|].
          destruct (run_ready V exec _ _ _ Rn a n b E i) as [S0|O]; [rewrite Ei; left; reflexivity| |auto]. apply (start_some V exec) in S0 as [S0|S0]; [auto|]. left.
          assert (Ni : ~ In i (flat_map o_out nodes)) by (exact (proj2 (proj2 (nodup_app _ _ (ds_single _ _ D))) i S0)).
          destruct Cv as [i v0 I'|n' i outs' v0 I' Op' Eo' Cv'|n' i' i outs' v0 I' Op' Ei' Eo' Cv']; [apply in_map_iff; exists (i, v0); auto| |]; exfalso; apply Ni, in_flat_map; exists n'; rewrite Eo'; cbn; auto.
      + rewrite step_get by exact J. apply (IH _ E _ _ C). destruct H as [H|H]; [auto|right]. rewrite flat_map_app in H. cbn [flat_map] in H. rewrite app_nil_r in H. apply in_app_or in H as [H|H]; [exact H|contradiction]. }
  intros C. apply (G nodes []); [rewrite app_nil_r; reflexivity|exact C|]. destruct C as [k0 v0 I|n k0 outs v0 I Op Eo Cv|n i k0 outs v0 I Op Ei Eo Cv]; [left; apply in_map_iff; exists (k0, v0); auto|right|right]; apply in_flat_map; exists n; rewrite Eo; cbn; auto.
Qed.
Lemma constant_value (Pc : forall n, In n nodes -> o_op n = "Constant" -> o_in n = []) k v : constant m k v -> e1 k = Some v.
Proof.
  induction 1 as [k v I|n k outs v I Op Eo Cv|n i k outs v I Op Ei Eo Cv IH].
  - assert (Ik : In k (map fst (m_init _ m))) by (apply in_map_iff; exists (k, v); auto). rewrite (proj1 solved) by (intros J; exact (ds_fresh _ _ D k J Ik)). unfold start. rewrite (get_nodup _ _ _ (ds_init _ _ D) I). reflexivity.
  - destruct (proj2 solved n I) as (vs & K & G). rewrite (Pc n I Op) in K. cbn in K. apply some_inj in K. subst vs. rewrite (G k) by (rewrite Eo; left; reflexivity). rewrite Eo, Op, (op_const Ops n v Op Cv). cbn. rewrite String.eqb_refl. reflexivity.
  - destruct (proj2 solved n I) as (vs & K & G). rewrite Ei in K. cbn in K. rewrite IH in K. apply some_inj in K. subst vs. rewrite (G k) by (rewrite Eo; left; reflexivity). rewrite Eo, Op, (op_same Ops). cbn. rewrite String.eqb_refl. reflexivity.
Qed.

Lemma constant_val k v : constant m k v -> e1 k = Some v.
Proof. apply constant_value. intros n I. exact (proj1 (proj2 (Pl n I))). Qed.
(** The loop. *)
Let uses := map_input_and_node V m.
Definition fake (n : onode) : bool :=
  String.eqb (o_op n) "Pad" && match nth_error (o_in n) 1 with Some p => match get data p with Some v => all_zero v | None => false end | None => false end.
Lemma fake_idle n : fake n = true <-> idle m n.
Proof.
  unfold fake, idle. rewrite andb_true_iff, String.eqb_eq. split.
  - intros [Op H]. split; [exact Op|]. destruct (o_in n) as [|x [|p rest]]; try discriminate H. cbn [nth_error] in H. destruct (get data p) as [v|] eqn:G; [|discriminate H]. exists x, p, rest, v. split; [reflexivity|]. split; [apply data_sound; exact G|exact H].
  - intros [Op (x & p & rest & v & Ei & C & Z0)]. split; [exact Op|]. rewrite Ei. cbn [nth_error]. rewrite (data_complete p v C). exact Z0.
Qed.
Lemma fake_value n o outs : In n nodes -> fake n = true -> o_out n = o :: outs -> exists x rest, o_in n = x :: rest /\ e1 o = e1 x /\ forall k, In k outs -> e1 k = None.
Proof.
  intros I F Eo. apply fake_idle in F as [Op (x & p & rest & v & Ei & C & Z0)]. exists x, (p :: rest). split; [exact Ei|]. destruct (proj2 solved n I) as (vs & K & G). rewrite Ei in K. cbn [known] in K.
  destruct (e1 x) as [vx|] eqn:Ex; [|discriminate K]. rewrite (constant_val p v C) in K. destruct (known V e1 rest) as [vr|]; [|discriminate K]. apply some_inj in K. subst vs. rewrite Op, (op_pad Ops _ _ _ _ Z0), Eo in G. cbn [combine get] in G.
  split; [rewrite (G o (or_introl eq_refl)), String.eqb_refl; reflexivity|]. intros k Ik. rewrite (G k (or_intror Ik)). destruct (String.eqb_spec o k) as [->|_]; [exfalso|destruct outs; reflexivity].
  assert (N : NoDup (o_out n)). { destruct (in_split _ _ I) as (a & b & E). pose proof Nd as N. rewrite E, flat_map_app in N. cbn [flat_map] in N. apply nodup_app in N as (_ & N & _). apply nodup_app in N. tauto. }
  rewrite Eo in N. apply NoDup_cons_iff in N. tauto.
Qed.
Record renaming (t : nat) (s : string -> string) : Prop := {
  rn_id : forall k, s k = k \/ exists q n outs, (q < t)%nat /\ nth_error nodes q = Some n /\ fake n = true /\ o_out n = k :: outs;
  rn_val : forall k, e1 (s k) = e1 k;
  rn_gone : forall k q n outs, (q < t)%nat -> nth_error nodes q = Some n -> fake n = true -> o_out n = s k :: outs -> False;
  rn_avail : forall p k, avail p k -> avail p (s k) }.
Definition fake_at (p : nat) : bool := match nth_error nodes p with Some n => fake n | None => false end.
Lemma constant_kept t s p v : renaming t s -> constant m p v -> s p = p.
Proof.
  intros Rs C. destruct (rn_id _ _ Rs p) as [H|(q & n & outs & _ & E & F & Eo)]; [exact H|exfalso]. apply andb_true_iff in F as [F _]. apply String.eqb_eq in F. apply nth_error_In in E.
  assert (J : In p (o_out n)) by (rewrite Eo; left; reflexivity).
  destruct C as [p v I|n' p outs' v I Op Eo' Cv|n' i p outs' v I Op Ei' Eo' Cv].
  - apply (ds_fresh _ _ D p); [apply in_flat_map; eauto|]. apply in_map_iff. exists (p, v). auto.
  - assert (n' = n) by (apply (out_unique nodes _ _ p Nd I E); [rewrite Eo'; left; reflexivity|exact J]). subst n'. rewrite F in Op. discriminate Op.
  - assert (n' = n) by (apply (out_unique nodes _ _ p Nd I E); [rewrite Eo'; left; reflexivity|exact J]). subst n'. rewrite F in Op. discriminate Op.
Qed.
Lemma renaming_skip t s : renaming t s -> fake_at t = false -> renaming (S t) s.
Proof.
  intros Rs F. split; [|exact (rn_val _ _ Rs)| |exact (rn_avail _ _ Rs)].
  - intros k. destruct (rn_id _ _ Rs k) as [H|(q & n & outs & L & H)]; [auto|right]. exists q, n, outs. split; [lia|exact H].
  - intros k q n outs L E Fq Eo. destruct (Nat.eq_dec q t) as [->|Ne]; [unfold fake_at in F; rewrite E in F; congruence|]. apply (rn_gone _ _ Rs k q n outs); auto. lia.
Qed.
Lemma renaming_step t s n x rest o outs : renaming t s -> nth_error nodes t = Some n -> fake n = true -> o_in n = x :: rest -> o_out n = o :: outs -> e1 o = e1 x ->
  s o = o /\ renaming (S t) (fun k => if String.eqb k o then s x else s k).
Proof.
  intros Rs E F Ei Eo Ev. assert (Jo : In o (o_out n)) by (rewrite Eo; left; reflexivity).
  assert (No : ~ avail t o) by (intros A; pose proof (avail_out t n o t E Jo A); lia).
  assert (Ax : avail t (s x)) by (apply (rn_avail _ _ Rs), (avail_in t n x E); rewrite Ei; left; reflexivity).
  split; [|split].
  - destruct (rn_id _ _ Rs o) as [H|(q & n' & outs' & L & E' & _ & Eo')]; [exact H|exfalso]. apply No. apply (avail_mono (S q)); [lia|]. apply (out_avail q n' o E'). rewrite Eo'. left. reflexivity.
  - intros k. destruct (String.eqb_spec k o) as [->|Ne]; [right; exists t, n, outs; auto with arith|]. destruct (rn_id _ _ Rs k) as [H|(q & n' & outs' & L & H)]; [auto|right]. exists q, n', outs'. split; [lia|exact H].
  - intros k. destruct (String.eqb_spec k o) as [->|Ne]; rewrite (rn_val _ _ Rs); [symmetry; exact Ev|reflexivity].
  - intros k q n' outs' L E' F' Eo'. destruct (Nat.eq_dec q t) as [->|Ne].
    + rewrite E in E'. apply some_inj in E'. subst n'. rewrite Eo in Eo'. injection Eo' as Eo' _. destruct (String.eqb_spec k o) as [->|Nk]; [apply No; rewrite Eo'; exact Ax|].
      destruct (rn_id _ _ Rs k) as [H|(q & n' & outs2 & L' & E2 & _ & Eo2)]; [congruence|]. apply No. rewrite Eo'. apply (rn_avail _ _ Rs), (avail_mono (S q)); [lia|]. apply (out_avail q n' k E2). rewrite Eo2. left. reflexivity.
    + destruct (String.eqb k o); [apply (rn_gone _ _ Rs x q n' outs')|apply (rn_gone _ _ Rs k q n' outs')]; auto; lia.
  - intros p k A. destruct (String.eqb_spec k o) as [->|Ne]; [|apply (rn_avail _ _ Rs); exact A]. apply (avail_mono t); [|exact Ax]. pose proof (avail_out t n o p E Jo A). lia.
Qed.
Lemma loop_ok : forall k t s removed, (t + k = length nodes)%nat -> renaming t s ->
  exists s', pad_loop V all_zero data uses (seq t k) (map (ren s) nodes) removed = Ok (map (ren s') nodes, removed ++ filter fake_at (seq t k)) /\ renaming (t + k) s'.
Proof.
  induction k as [|k IH]; intros t s removed L Rs; [exists s; rewrite app_nil_r, Nat.add_0_r; auto|].
  destruct (nth_error nodes t) as [n|] eqn:E; [|apply nth_error_None in E; lia]. pose proof (nth_error_In _ _ E) as In_n. destruct (Pl n In_n) as (P1 & _ & P3).
  rewrite <- Nat.add_succ_comm. cbn [seq pad_loop filter]. rewrite nth_error_map, E. cbn [option_map]. cbn [ren o_op o_in o_out].
  assert (Fa : fake_at t = fake n) by (unfold fake_at; rewrite E; reflexivity). rewrite Fa.
  destruct (String.eqb_spec (o_op n) "Pad") as [Op|Op].
  - destruct (P1 Op) as (x & p & rest & v & Ei & C). rewrite Ei. cbn [map nth_error]. rewrite (constant_kept t s p v Rs C), (data_complete p v C).
    assert (Fv : fake n = all_zero v) by (unfold fake; rewrite Op, Ei; cbn [nth_error]; rewrite (data_complete p v C); reflexivity). rewrite Fv. destruct (all_zero v) eqn:Z0.
    + assert (Fn : idle m n) by (apply fake_idle; exact Fv). destruct (P3 Fn) as (o & outs & Eo & Co & _). destruct (fake_value n o outs In_n Fv Eo) as (x' & rest' & Ei' & Ev & _). rewrite Ei in Ei'. injection Ei' as <- _.
      destruct (renaming_step t s n x (p :: rest) o outs Rs E Fv Ei Eo Ev) as [So Rs']. rewrite Eo.
      assert (Hu : has uses o = true) by (apply (has_use V exec); exact Co). unfold has in Hu. destruct (get uses o) as [l|] eqn:G; [|discriminate Hu]. rewrite (set_ren m s o (s x) l So G).
      destruct (IH (S t) _ (removed ++ [t]) ltac:(lia) Rs') as (s' & H1 & H2). exists s'. split; [|exact H2]. rewrite H1, <- app_assoc. reflexivity.
    + apply IH; [lia|]. apply renaming_skip; [exact Rs|]. rewrite Fa. exact Fv.
  - assert (Fv : fake n = false) by (unfold fake; destruct (String.eqb_spec (o_op n) "Pad"); [contradiction|reflexivity]). rewrite Fv. apply IH; [lia|]. apply renaming_skip; [exact Rs|]. rewrite Fa. exact Fv.
Qed.
Let keep (n : onode) : bool := negb (fake n).
Lemma remove_ok : exists s, remove_fake_pad_op V all_zero m data uses = Ok (with_nodes V m (map (ren s) (filter keep nodes))) /\ renaming (length nodes) s.
Proof.
  destruct (loop_ok (length nodes) 0 (fun k => k) []) as (s & H & Rs); [lia|split; [auto|reflexivity|intros; lia|auto]|].
  exists s. split; [|exact Rs]. unfold remove_fake_pad_op. assert (Id : map (ren (fun k => k)) nodes = nodes).
  { rewrite <- (map_id nodes) at 2. apply map_ext. intros [n1 n2 n3 n4 n5]. unfold ren. cbn [o_name o_op o_attr o_in o_out]. rewrite map_id. reflexivity. }
  rewrite Id in H. rewrite H. cbn [bind app]. pose proof (positions (ren s) fake nodes []) as P. cbn [app length] in P. unfold fake_at. rewrite P.
  pose proof (remove_map (ren s) fake nodes []) as Rm. cbn [app] in Rm. rewrite Rm; [reflexivity|]. apply (NoDup_map_inv o_name). rewrite map_map. cbn [ren o_name]. exact (ds_names _ _ D).
Qed.
Lemma known_ren s l : (forall k, e1 (s k) = e1 k) -> known V e1 (map s l) = known V e1 l.
Proof. intros H. induction l as [|x l IH]; [reflexivity|]. cbn [map known]. rewrite H, IH. reflexivity. Qed.
Lemma removed_run s : renaming (length nodes) s -> exists e', run V exec (start V m feed) (map (ren s) (filter keep nodes)) = Some e' /\ forall k, (forall n, In n nodes -> fake n = true -> ~ In k (o_out n)) -> e' k = e1 k.
Proof.
  intros Rs. set (X := fun k => exists n, In n nodes /\ fake n = true /\ In k (o_out n)).
  assert (FO : forall l, flat_map o_out (map (ren s) l) = flat_map o_out l) by (induction l as [|y l IH]; [reflexivity|]; cbn [map flat_map]; rewrite IH; reflexivity).
  assert (Sub : forall n', In n' (map (ren s) (filter keep nodes)) -> exists n, n' = ren s n /\ In n nodes /\ keep n = true).
  { intros n' I. apply in_map_iff in I as (n & <- & I). apply filter_In in I. eauto. }
  assert (Sol : forall n', In n' (map (ren s) (filter keep nodes)) -> solves V exec e1 n').
  { intros n' I. destruct (Sub n' I) as (n & -> & In_n & _). destruct (proj2 solved n In_n) as (vs & K & G). exists vs. split; [|exact G]. cbn [ren o_in]. rewrite known_ren by exact (rn_val _ _ Rs). exact K. }
  destruct (replay V exec X e1 (map (ren s) (filter keep nodes)) (start V m feed)) as (e' & Rn' & Eq).
  - intros k (n & I & F & J) n' I' J'. destruct (proj2 solved n I) as (_ & _ & _). destruct (Sol n' I') as (vs & K & _). destruct (known_get _ _ _ _ K k J') as [v Ev].
    destruct (o_out n) as [|o outs] eqn:Eo; [destruct J|]. destruct (fake_value n o outs I F Eo) as (x & rest & _ & _ & Hn). destruct J as [->|J]; [|rewrite (Hn k J) in Ev; discriminate Ev].
    destruct (Sub n' I') as (n0 & -> & _ & _). cbn [ren o_in] in J'. apply in_map_iff in J' as (i & <- & J'). apply In_nth_error in I as [q E]. apply (rn_gone _ _ Rs i q n outs); auto. apply nth_error_Some. congruence.
  - rewrite FO. exact (proj1 (proj2 (nodup_app _ _ (nodup_outs _ _ [] Nd)))).
  - exact Sol.
  - intros o Ho. rewrite FO in Ho. apply fresh. apply in_flat_map in Ho as (n & I & J). apply filter_In in I as [I _]. apply in_flat_map. eauto.
  - intros k Xk Hk. rewrite FO in Hk. symmetry. apply (proj1 solved). intros J. apply in_flat_map in J as (n & I & J). destruct (fake n) eqn:F; [apply Xk; exists n; auto|]. apply Hk, in_flat_map. exists n. split; [apply filter_In; unfold keep; rewrite F; auto|exact J].
  - intros a n' b E i Hi J.
    assert (Em : exists a0 n b0, filter keep nodes = a0 ++ n :: b0 /\ n' = ren s n /\ b = map (ren s) b0).
    { apply map_eq_app in E as (a0 & r0 & E1 & _ & E2). apply map_eq_cons in E2 as (n & b0 & -> & E3 & E4). exists a0, n, b0. auto. }
    destruct Em as (a0 & n & b0 & Ef & -> & ->). destruct (filter_split _ _ _ _ _ Ef) as (a1 & b1 & En & _ & Eb).
    cbn [ren o_in] in Hi. apply in_map_iff in Hi as (i0 & <- & Hi).
    assert (Ep : nth_error nodes (length a1) = Some n) by (rewrite En, nth_error_app2, Nat.sub_diag by lia; reflexivity).
    pose proof (rn_avail _ _ Rs _ _ (avail_in _ n i0 Ep Hi)) as A. change (ren s n :: map (ren s) b0) with (map (ren s) (n :: b0)) in J. rewrite FO in J. apply in_flat_map in J as (y & Iy & Jy).
    assert (Iy' : In y (n :: b1)). { destruct Iy as [<-|Iy]; [left; reflexivity|right]. rewrite <- Eb in Iy. apply filter_In in Iy. tauto. }
    apply In_nth_error in Iy' as [q Eq]. assert (Ey : nth_error nodes (length a1 + q) = Some y) by (rewrite En, nth_error_app2 by lia; replace (length a1 + q - length a1)%nat with q by lia; exact Eq).
    pose proof (avail_out _ y _ _ Ey Jy A). lia.
  - exists e'. split; [exact Rn'|]. intros k Hk. apply Eq. intros (n & I & F & J). exact (Hk n I F J).
Qed.
End Remove.

(** ** Theorems *)
(** When paddings are constants and paddings by zero only feed nodes, these are removed and the
    outputs of the graph are kept. *)
Theorem C120_same_partial m feed vs : operators -> distinct V m -> plain m -> evaluate V exec m feed = Some vs ->
  exists m', remove_fake_pad_op V all_zero m (map_name_and_data V const_value m) (map_input_and_node V m) = Ok m' /\ evaluate V exec m' feed = Some vs /\
    (forall nm, In nm (map o_name (m_node _ m')) <-> exists n, In n (m_node _ m) /\ ~ idle m n /\ o_name n = nm) /\
    m_init _ m' = m_init _ m /\ m_in _ m' = m_in _ m /\ m_out _ m' = m_out _ m.
Proof.
  intros Ops D Pl E. unfold evaluate in E. destruct (run _ _ _ _) as [e1|] eqn:Rn; [|discriminate E]. destruct (remove_ok m feed e1 Ops D Pl Rn) as (s & H & Rs). destruct (removed_run m feed e1 Ops D Pl Rn s Rs) as (e' & Rn' & Eq).
  eexists. split; [exact H|]. split; [|split; [|auto]].
  - unfold evaluate. cbn [with_nodes m_node m_out]. change (start V (with_nodes V m _) feed) with (start V m feed). rewrite Rn', <- E. apply known_ext. intros o Ho. apply Eq. intros n I F J.
    destruct (o_out n) as [|o0 outs] eqn:Eo; [destruct J|]. destruct (Pl n I) as (_ & _ & P3). assert (Id : idle m n) by (apply (fake_idle m feed e1 D Rn); exact F). destruct (P3 Id) as (o1 & outs1 & Eo1 & _ & No). rewrite Eo in Eo1. injection Eo1 as <- <-.
    destruct J as [->|J]; [contradiction|]. destruct (fake_value m feed e1 Ops D Pl Rn n o0 outs I F Eo) as (_ & _ & _ & _ & Hn). destruct (known_get _ _ _ _ E o Ho) as [v Ev]. rewrite (Hn o J) in Ev. discriminate Ev.
  - intros nm. cbn [with_nodes m_node]. rewrite map_map, in_map_iff. split.
    + intros (n & <- & I). apply filter_In in I as [I K]. exists n. split; [exact I|]. split; [|reflexivity]. intros Id. apply (fake_idle m feed e1 D Rn) in Id. rewrite Id in K. discriminate K.
    + intros (n & I & Id & <-). exists n. split; [reflexivity|]. apply filter_In. split; [exact I|]. destruct (fake m n) eqn:F; [|reflexivity]. exfalso. apply Id. apply (fake_idle m feed e1 D Rn). exact F.
Qed.
End Pads.

(** The full claims: paddings by zero can be removed; if that succeeds the outputs are kept; when
    all paddings are constants it succeeds. *)
Definition C120_claim : Prop := forall (V : Type) exec const_value all_zero (m : omodel V) feed vs,
  operators V exec const_value all_zero -> distinct V m -> evaluate V exec m feed = Some vs ->
  exists m', remove_fake_pad_op V all_zero m (map_name_and_data V const_value m) (map_input_and_node V m) = Ok m'.
Definition C120_kept_claim : Prop := forall (V : Type) exec const_value all_zero (m m' : omodel V) feed vs,
  operators V exec const_value all_zero -> distinct V m -> evaluate V exec m feed = Some vs ->
  remove_fake_pad_op V all_zero m (map_name_and_data V const_value m) (map_input_and_node V m) = Ok m' -> evaluate V exec m' feed = Some vs.
Definition C120_constant_claim : Prop := forall (V : Type) exec const_value all_zero (m : omodel V) feed vs,
  operators V exec const_value all_zero -> distinct V m -> evaluate V exec m feed = Some vs ->
  (forall n, In n (m_node _ m) -> o_op n = "Pad" -> exists x p rest v, o_in n = x :: p :: rest /\ constant V const_value m p v) ->
  exists m', remove_fake_pad_op V all_zero m (map_name_and_data V const_value m) (map_input_and_node V m) = Ok m'.
(** Tensors are lists; a Pad node puts its second input in front of its first. *)
Definition ex_tensor : Type := list nat.
Definition ex_zero (v : ex_tensor) : bool := forallb (Nat.eqb 0) v.
Definition ex_const (n : onode) : option ex_tensor := if String.eqb (o_op n) "Constant" then Some (repeat 0%nat (o_attr n)) else None.
Definition ex_ops (op : string) (a : nat) (vs : list ex_tensor) : list ex_tensor :=
  if String.eqb op "Constant" then [repeat 0%nat a]
  else if String.eqb op "Pad" then match vs with x :: p :: _ => if ex_zero p then [x] else [p ++ x] | _ => [] end
  else [concat vs].
Example ex_operators : operators ex_tensor ex_ops ex_const ex_zero.
Proof.
  split.
  - intros n v Op H. unfold ex_const in H. rewrite Op in H. cbn in H. apply some_inj in H. subst v. reflexivity.
  - intros a v. cbn. rewrite app_nil_r. reflexivity.
  - intros a x p rest Z0. cbn. rewrite Z0. reflexivity.
Qed.
Definition ex_last : omodel ex_tensor := {| m_node := [nd "relu" "Relu" ["x"] ["u"]; nd "pad" "Pad" ["u"; "p"] ["y"]]; m_init := [("p", [0%nat; 0%nat])]; m_in := ["x"]; m_out := ["y"] |}.
Definition ex_shape : omodel ex_tensor := {| m_node := [nd "same" "Shape" ["x"] ["p"]; nd "pad" "Pad" ["x"; "p"] ["u"]; nd "relu" "Relu" ["u"] ["y"]]; m_init := []; m_in := ["x"]; m_out := ["y"] |}.
Definition ex_both : omodel ex_tensor := {| m_node := [nd "pad" "Pad" ["x"; "p"] ["u"]; nd "relu" "Relu" ["u"] ["y"]]; m_init := [("p", [0%nat; 0%nat])]; m_in := ["x"]; m_out := ["y"; "u"] |}.
Lemma distinct_dec m : NoDup (map o_name (m_node ex_tensor m)) -> NoDup (m_in _ m ++ map o_name (m_node _ m)) -> NoDup (m_in _ m ++ flat_map o_out (m_node _ m)) ->
  NoDup (flat_map o_out (m_node _ m) ++ map fst (m_init _ m)) -> distinct ex_tensor m.
Proof. intros A B C E. split; [exact A| |exact C| |]; [exact (proj2 (proj2 (nodup_app _ _ B)))|exact (proj1 (proj2 (nodup_app _ _ E)))|exact (proj2 (proj2 (nodup_app _ _ E)))]. Qed.
Ltac distinct := apply distinct_dec; cbn; repeat constructor; cbn; intuition discriminate.
(** The padding is the last node of the graph. *)
Theorem C120_last_refuted : ~ C120_constant_claim.
Proof.
  intros H. destruct (H ex_tensor ex_ops ex_const ex_zero ex_last (fun _ => [7%nat]) [[7%nat]] ex_operators) as [m' E]; [distinct|vm_compute; reflexivity| |vm_compute in E; discriminate E].
  intros n I Op. cbn in I. destruct I as [<-|[<-|[]]]; [discriminate Op|]. exists "u", "p", [], [0%nat; 0%nat]. split; [reflexivity|]. apply const_init. left. reflexivity.
Qed.
(** The padding is computed when the graph is executed. *)
Theorem C120_computed_refuted : ~ C120_claim.
Proof. intros H. destruct (H ex_tensor ex_ops ex_const ex_zero ex_shape (fun _ => [7%nat]) [[7%nat; 7%nat]] ex_operators) as [m' E]; [distinct|vm_compute; reflexivity|vm_compute in E; discriminate E]. Qed.
(** The padded tensor is used by a node and is also an output: the output is lost. *)
Theorem C120_kept_refuted : ~ C120_kept_claim.
Proof.
  intros H. remember (remove_fake_pad_op ex_tensor ex_zero ex_both (map_name_and_data ex_tensor ex_const ex_both) (map_input_and_node ex_tensor ex_both)) as o eqn:E. vm_compute in E.
  destruct o as [m'|]; [|discriminate E]. apply Ok_inj in E. assert (G := H ex_tensor ex_ops ex_const ex_zero ex_both m' (fun _ => [7%nat]) [[7%nat]; [7%nat]] ex_operators).
  rewrite E in G. specialize (G ltac:(distinct) ltac:(vm_compute; reflexivity) ltac:(vm_compute; reflexivity)). vm_compute in G. discriminate G.
Qed.
(** Two paddings by zero in a row, one of them with a constant node and an identity, and a real one. *)
Definition ex_pads : omodel ex_tensor := {| m_node := [
    {| o_name := "c"; o_op := "Constant"; o_attr := 2; o_in := []; o_out := ["z"] |}; nd "i" "Identity" ["z"] ["z2"];
    nd "p1" "Pad" ["x"; "z2"] ["u"]; nd "p2" "Pad" ["u"; "z"] ["v"]; nd "p3" "Pad" ["v"; "w"] ["t"]; nd "add" "Add" ["v"; "t"; "u"] ["y"]];
  m_init := [("w", [1%nat])]; m_in := ["x"]; m_out := ["y"] |}.
Example C120_case : operators ex_tensor ex_ops ex_const ex_zero /\ distinct ex_tensor ex_pads /\ plain ex_tensor ex_const ex_zero ex_pads /\
  evaluate ex_tensor ex_ops ex_pads (fun _ => [7%nat]) = Some [[7; 1; 7; 7]%nat] /\
  match remove_fake_pad_op ex_tensor ex_zero ex_pads (map_name_and_data ex_tensor ex_const ex_pads) (map_input_and_node ex_tensor ex_pads) with
  | Ok m' => m_node _ m' = [{| o_name := "c"; o_op := "Constant"; o_attr := 2; o_in := []; o_out := ["z"] |}; nd "i" "Identity" ["z"] ["z2"];
      nd "p3" "Pad" ["x"; "w"] ["t"]; nd "add" "Add" ["x"; "t"; "x"] ["y"]] /\ evaluate ex_tensor ex_ops m' (fun _ => [7%nat]) = Some [[7; 1; 7; 7]%nat]
  | Raise _ => False
  end.
Proof.
  split; [exact ex_operators|]. split; [distinct|]. split; [|split; [vm_compute; reflexivity|vm_compute; split; reflexivity]].
  assert (Cz : constant ex_tensor ex_const ex_pads "z" [0%nat; 0%nat]) by (eapply const_node; [left; reflexivity|reflexivity|reflexivity|reflexivity]).
  assert (Ci : constant ex_tensor ex_const ex_pads "z2" [0%nat; 0%nat]) by (eapply const_same; [right; left; reflexivity|reflexivity|reflexivity|reflexivity|exact Cz]).
  assert (Cw : constant ex_tensor ex_const ex_pads "w" [1%nat]) by (apply const_init; left; reflexivity).
  assert (U : forall o, In o ["u"; "v"; "t"] -> consumed ex_tensor ex_pads o /\ ~ In o (m_out _ ex_pads)).
  { intros o Ho. split; [exists (nd "add" "Add" ["v"; "t"; "u"] ["y"]); cbn in *; intuition (subst; auto 10)|]. intros K. cbn in Ho, K. intuition (subst; discriminate). }
  intros n I. cbn in I. destruct I as [<-|[<-|[<-|[<-|[<-|[<-|[]]]]]]]; (split; [|split]); intros Op; try discriminate Op; try reflexivity; try (destruct Op as [Op _]; discriminate Op).
  - exists "x", "z2", [], [0%nat; 0%nat]. auto.
  - exists "u", []. split; [reflexivity|]. apply U. cbn. auto.
  - exists "u", "z", [], [0%nat; 0%nat]. auto.
  - exists "v", []. split; [reflexivity|]. apply U. cbn. auto.
  - exists "v", "w", [], [1%nat]. auto.
  - exists "t", []. split; [reflexivity|]. apply U. cbn. auto.
Qed.
Print Assumptions C120_same_partial.
Print Assumptions C120_last_refuted.
Print Assumptions C120_computed_refuted.
Print Assumptions C120_kept_refuted.
