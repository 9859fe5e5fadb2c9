(** Properties of deleting fake quantizers from a prepared graph (FxQuant_Model.v): the functions
    deleting before targets (C126). *)
From Coq Require Import String.
From Verif Require Import Prelude Onnx_Model Onnx_Lemmas Engine_Model FxQuant_Model FxQuant_Props.
Local Open Scope string_scope.
Local Open Scope list_scope.
Local Open Scope nat_scope.

(** * Spec: walking back from a node to the quantizers before it *)
Section Spec.
Context {M : Type} (is_fq : M -> bool).
(** [walk l mods i path f]: the quantizer [f] is met first when following, from the node [i], the
    arguments at the positions [path]; keyword arguments count after the others. *)
Inductive walk (l : list fnode) (mods : list (string * M)) : nat -> list nat -> nat -> Prop :=
| walk_here n : In n l -> quantizer is_fq mods n = true -> walk l mods (f_id n) [] (f_id n)
| walk_back n a j path f : In n l -> quantizer is_fq mods n = false -> nth_error (f_args n ++ map snd (f_kwargs n)) a = Some (ANode j) ->
    walk l mods j path f -> walk l mods (f_id n) (a :: path) f.
End Spec.

(** * Lemmas *)
Lemma nodup_flat_map {A B} (g : A -> list B) (l : list A) :
  (forall a x, nth_error l a = Some x -> NoDup (g x)) ->
  (forall a b x y f, nth_error l a = Some x -> nth_error l b = Some y -> In f (g x) -> In f (g y) -> a = b) -> NoDup (flat_map g l).
Proof.
  induction l as [|x l IH]; intros H1 H2; cbn [flat_map]; [constructor|].
  assert (NoDup (flat_map g l)) as N.
  { apply IH; [intros a y E; exact (H1 (S a) y E)|]. intros a b y z f Ea Eb Fa Fb. pose proof (H2 (S a) (S b) y z f Ea Eb Fa Fb). lia. }
  pose proof (H1 0 x eq_refl) as Nx.
  assert (forall f, In f (g x) -> ~ In f (flat_map g l)) as D.
  { intros f F J. apply in_flat_map in J. destruct J as (y & Hy & Fy). apply In_nth_error in Hy. destruct Hy as (b & Eb). pose proof (H2 0 (S b) x y f eq_refl Eb F Fy). lia. }
  clear - N Nx D. induction (g x) as [|b r IHr]; [exact N|]. apply NoDup_cons_iff in Nx. destruct Nx as [N1 N2]. cbn. constructor.
  - rewrite in_app_iff. intros [X|X]; [contradiction|]. apply (D b); [now left|exact X].
  - apply IHr; [exact N2|]. intros f F. apply D. now right.
Qed.
Lemma filter_length_le {A} (p : A -> bool) (l : list A) : length (filter p l) <= length l.
Proof. induction l as [|x l IH]; cbn; [lia|]. destruct (p x); cbn; lia. Qed.
Lemma flat_map_map {A B C} (g : B -> list C) (f : A -> B) (l : list A) : flat_map g (map f l) = flat_map (fun x => g (f x)) l.
Proof. induction l as [|x l IH]; cbn; [reflexivity|]. now rewrite IH. Qed.
Lemma flat_map_ext_in {A B} (f g : A -> list B) (l : list A) : (forall x, In x l -> f x = g x) -> flat_map f l = flat_map g l.
Proof. induction l as [|x l IH]; intros H; cbn; [reflexivity|]. rewrite H by now left. f_equal. apply IH. intros; apply H; now right. Qed.
Lemma all_args_refer r n : all_args (refer r n) = map (refer_arg r) (all_args n).
Proof. unfold all_args. cbn [refer f_args f_kwargs]. rewrite map_app, !map_map. reflexivity. Qed.

Section Proofs.
Context {M : Type} (is_fq : M -> bool).
Notation rf := (recursive_find M is_fq).
(** What is found are quantizers of the graph. *)
Lemma found_quant nodes mods : forall k i f, In f (rf k nodes mods i) -> exists n, In n nodes /\ f_id n = f /\ quantizer is_fq mods n = true.
Proof.
  induction k as [|k IH]; intros i f H; [destruct H|]. cbn [recursive_find] in H. destruct (find_node nodes i) as [n|] eqn:F; [|destruct H].
  rewrite fq_same in H. destruct (quantizer is_fq mods n) eqn:Q.
  - destruct H as [<-|[]]. apply find_in in F. exists n. tauto.
  - apply in_flat_map in H. destruct H as ([j|c|x] & _ & H); [|destruct H|destruct H]. now apply (IH j).
Qed.
(** Found by a walk. *)
Lemma found_walk nodes mods : forall k i f, In f (rf k nodes mods i) -> exists path, walk is_fq nodes mods i path f.
Proof.
  induction k as [|k IH]; intros i f H; [destruct H|]. cbn [recursive_find] in H. destruct (find_node nodes i) as [n|] eqn:F; [|destruct H].
  apply find_in in F. destruct F as [F <-]. rewrite fq_same in H. destruct (quantizer is_fq mods n) eqn:Q.
  - destruct H as [<-|[]]. exists []. now constructor.
  - apply in_flat_map in H. destruct H as (x & Hx & H). destruct x as [j|c|x]; [|destruct H|destruct H]. destruct (IH j f H) as (path & P).
    apply In_nth_error in Hx. destruct Hx as (a & Ha). exists (a :: path). now apply (walk_back is_fq nodes mods n a j).
Qed.

(** More fuel than nodes changes nothing. *)
Lemma enough_fuel nodes mods : NoDup (map f_id nodes) -> (forall l1 n l2 k, nodes = l1 ++ n :: l2 -> refers n k -> In k (map f_id l1)) ->
  forall d l1 n l2, nodes = l1 ++ n :: l2 -> length l1 <= d -> forall k1 k2, S (length l1) <= k1 -> S (length l1) <= k2 -> rf k1 nodes mods (f_id n) = rf k2 nodes mods (f_id n).
Proof.
  intros N O. induction d as [|d IH]; intros l1 n l2 E D k1 k2 K1 K2; (destruct k1 as [|k1]; [lia|]); (destruct k2 as [|k2]; [lia|]);
    cbn [recursive_find]; rewrite (find_nodup nodes n N) by (rewrite E; apply in_elt); (destruct (fake_quant M is_fq mods n); [reflexivity|]);
    apply flat_map_ext_in; intros [j|c|x] Hx; try reflexivity;
    assert (In j (map f_id l1)) as J by (apply (O l1 n l2 j E); exists (ANode j); auto).
  - destruct l1; [destruct J|cbn in D; lia].
  - apply in_map_iff in J. destruct J as (m & <- & J). apply in_split in J. destruct J as (a & b & ->). rewrite app_length in D, K1, K2. cbn [length] in D, K1, K2.
    apply (IH a m (b ++ n :: l2)); [now rewrite E, <- app_assoc|lia|lia|lia].
Qed.
Lemma fuel_total nodes mods i k : NoDup (map f_id nodes) -> (forall l1 n l2 k, nodes = l1 ++ n :: l2 -> refers n k -> In k (map f_id l1)) ->
  length nodes <= k -> rf (S k) nodes mods i = rf (S (length nodes)) nodes mods i.
Proof.
  intros N O K. destruct (find_node nodes i) as [n|] eqn:F.
  - apply find_in in F. destruct F as [F <-]. apply in_split in F. destruct F as (a & b & E). apply (enough_fuel nodes mods N O (length a) a n b E); [lia| |]; rewrite E, app_length in *; cbn [length] in *; lia.
  - cbn [recursive_find]. now rewrite F.
Qed.
(** Every walk is found. *)
Lemma walk_found nodes mods : NoDup (map f_id nodes) -> (forall l1 n l2 k, nodes = l1 ++ n :: l2 -> refers n k -> In k (map f_id l1)) ->
  forall i path f, walk is_fq nodes mods i path f -> In f (rf (S (length nodes)) nodes mods i).
Proof.
  intros N O i path f H. induction H as [n H Q|n a j path f H Q A P IH].
  - cbn [recursive_find]. rewrite (find_nodup nodes n N H), fq_same, Q. now left.
  - rewrite <- (fuel_total nodes mods (f_id n) (S (length nodes)) N O) by lia. cbn [recursive_find]. rewrite (find_nodup nodes n N H), fq_same, Q.
    apply in_flat_map. exists (ANode j). split; [unfold all_args; now apply nth_error_In in A|]. exact IH.
Qed.
Lemma walks_nodup nodes mods : forall k i,
  (forall p1 p2 f, walk is_fq nodes mods i p1 f -> walk is_fq nodes mods i p2 f -> p1 = p2) -> NoDup (rf k nodes mods i).
Proof.
  induction k as [|k IH]; intros i U; [constructor|]. cbn [recursive_find]. destruct (find_node nodes i) as [n|] eqn:F; [|constructor].
  apply find_in in F. destruct F as [F <-]. rewrite fq_same. destruct (quantizer is_fq mods n) eqn:Q; [repeat constructor; intros []|].
  apply nodup_flat_map.
  - intros a [j|c|x] A; [|constructor|constructor]. apply IH. intros p1 p2 f P1 P2.
    pose proof (U (a :: p1) (a :: p2) f (walk_back is_fq nodes mods n a j p1 f F Q A P1) (walk_back is_fq nodes mods n a j p2 f F Q A P2)) as E. now injection E.
  - intros a b x y f A B Fx Fy. destruct x as [j|c|x]; [|destruct Fx|destruct Fx]. destruct y as [j2|c|y]; [|destruct Fy|destruct Fy].
    apply found_walk in Fx, Fy. destruct Fx as (p1 & P1). destruct Fy as (p2 & P2).
    pose proof (U (a :: p1) (b :: p2) f (walk_back is_fq nodes mods n a j p1 f F Q A P1) (walk_back is_fq nodes mods n b j2 p2 f F Q B P2)) as E. now injection E.
Qed.

Variables (l0 : list fnode) (mods0 : list (string * M)).
Hypothesis W : well_formed is_fq l0 mods0.
Notation quant := (quantizer is_fq mods0).
Notation here g := (without g (l0, mods0)).
Notation okay g := (only_quantizers is_fq g l0 mods0).
Definition join (f : list nat) (g : nat -> bool) : nat -> bool := fun k => (existsb (Nat.eqb k) f || g k)%bool.

Lemma erase_all_view : forall f g, okay g -> (forall i, In i f -> exists n, In n l0 /\ f_id n = i /\ quant n = true) ->
  (NoDup f /\ (forall i, In i f -> g i = false) /\ okay (join f g) /\ erase_all M is_fq f (here g) = Ok (here (join f g))) \/
  (~ (NoDup f /\ forall i, In i f -> g i = false) /\ erase_all M is_fq f (here g) = Raise AssertionError).
Proof.
  induction f as [|i f IH]; intros g G H.
  - left. split; [constructor|]. split; [intros i []|]. split; [exact G|]. cbn. f_equal. 
  - destruct (H i (or_introl eq_refl)) as (n & Hn & <- & Q). cbn [erase_all]. rewrite find_view.
    destruct (g (f_id n)) eqn:Z.
    + right. split; [|reflexivity]. intros [_ X]. rewrite (X _ (or_introl eq_refl)) in Z. discriminate.
    + rewrite (find_nodup l0 n (wf_ids _ _ _ W) Hn). cbn [option_map]. rewrite fq_same, (left_quant is_fq l0 mods0 W) by assumption. rewrite Q.
      destruct (input_of is_fq l0 mods0 W n Hn Q) as [A _]. 
      change (f_args (refer (redirect g l0) n)) with (map (refer_arg (redirect g l0)) (f_args n)). rewrite map_length, A. cbn [length Nat.eqb andb assert_ bind].
      rewrite (erase_step is_fq l0 mods0 W g n G Hn Q Z). cbn [bind].
      destruct (IH (add (f_id n) g) (add_okay is_fq l0 mods0 g n G Hn Q) (fun j J => H j (or_intror J))) as [(N & D & O & E)|(X & E)].
      * left. split; [|split; [|split]].
        -- constructor; [|exact N]. intros J. specialize (D _ J). unfold add in D. now rewrite Nat.eqb_refl in D.
        -- intros j [<-|J]; [exact Z|]. specialize (D _ J). unfold add in D. now apply orb_false_iff in D.
        -- intros j J. apply O. unfold join, add in *. cbn [existsb] in J. destruct (Nat.eqb j (f_id n)), (existsb (Nat.eqb j) f), (g j); easy.
        -- rewrite E. f_equal. apply view_ext. intros k. unfold join, add. cbn [existsb]. destruct (Nat.eqb k (f_id n)), (existsb (Nat.eqb k) f), (g k); reflexivity.
      * right. split; [|exact E]. intros [N D]. apply X. apply NoDup_cons_iff in N. destruct N as [N1 N2]. split; [exact N2|].
        intros j J. unfold add. rewrite (D j (or_intror J)), orb_false_r. apply Nat.eqb_neq. intros ->. contradiction.
Qed.

(** The graph left is in order. *)
Lemma view_ids g : map f_id (view g l0) = filter (fun k => negb (g k)) (map f_id l0).
Proof. unfold view. rewrite map_map. cbn [refer f_id]. rewrite filter_map_comm. reflexivity. Qed.
Lemma split_filter {A} (p : A -> bool) (l : list A) a x b : filter p l = a ++ x :: b -> exists l1 l2, l = l1 ++ x :: l2 /\ filter p l1 = a /\ filter p l2 = b.
Proof.
  revert a. induction l as [|y l IH]; intros a E; [destruct a; discriminate|]. cbn [filter] in E. destruct (p y) eqn:P.
  - destruct a as [|z a]; injection E as E1 E2.
    + subst y. exists [], l. auto.
    + subst z. destruct (IH a E2) as (l1 & l2 & -> & X & Y). exists (y :: l1), l2. cbn. rewrite P, X. auto.
  - destruct (IH a E) as (l1 & l2 & -> & X & Y). exists (y :: l1), l2. cbn. rewrite P. auto.
Qed.
Lemma split_map {A B} (f : A -> B) (l : list A) a x b : map f l = a ++ x :: b -> exists l1 y l2, l = l1 ++ y :: l2 /\ map f l1 = a /\ f y = x /\ map f l2 = b.
Proof.
  revert a. induction l as [|y l IH]; intros a E; [destruct a; discriminate|]. destruct a as [|z a]; injection E as E1 E2.
  - exists [], y, l. auto.
  - destruct (IH a E2) as (l1 & u & l2 & -> & X & Y & Z). exists (y :: l1), u, l2. cbn. rewrite E1, X. auto.
Qed.
Lemma view_ordered g : okay g -> forall l1 n l2 k, view g l0 = l1 ++ n :: l2 -> refers n k -> In k (map f_id l1).
Proof.
  intros G l1 n l2 k E Rk. unfold view in E. apply split_map in E. destruct E as (a & m & b & E & <- & <- & <-). apply split_filter in E. destruct E as (a0 & b0 & E & <- & <-).
  apply refers_refer in Rk. destruct Rk as (j & J & ->). apply (wf_order _ _ _ W a0 m b0 j E) in J.
  rewrite map_map. cbn [refer f_id].
  pose proof (redirect_earlier is_fq l0 mods0 W g a0 (m :: b0) j G E J) as X. apply in_map_iff in X. destruct X as (u & U & X). apply in_map_iff. exists u. split; [exact U|].
  apply filter_In. split; [exact X|]. rewrite U. now rewrite (redirect_kept is_fq l0 mods0 W g j G).
Qed.
Lemma view_nodup g : NoDup (map f_id (view g l0)).
Proof. rewrite view_ids. apply NoDup_filter. apply (wf_ids _ _ _ W). Qed.

(** As long as none of the quantizers before a node are gone, the same are found. *)
Lemma found_view g : okay g -> forall k i, g i = false -> (forall f, In f (rf k l0 mods0 i) -> g f = false) ->
  rf k (fst (here g)) (snd (here g)) i = rf k l0 mods0 i.
Proof.
  intros G. induction k as [|k IH]; intros i Z D; [reflexivity|]. cbn [recursive_find] in *. rewrite find_view, Z.
  destruct (find_node l0 i) as [n|] eqn:F; cbn [option_map]; [|reflexivity]. apply find_in in F. destruct F as [F <-].
  rewrite fq_same, (left_quant is_fq l0 mods0 W) by assumption. rewrite fq_same in *. destruct (quant n) eqn:Q; [reflexivity|].
  rewrite all_args_refer, flat_map_map. apply flat_map_ext_in. intros [j|c|x] Hx; cbn [refer_arg]; try reflexivity.
  assert (forall f, In f (rf k l0 mods0 j) -> g f = false) as Dj by (intros f Hf; apply D; apply in_flat_map; exists (ANode j); auto).
  destruct k as [|k]; [reflexivity|]. unfold redirect. destruct (g j) eqn:Gj; [|now apply IH].
  exfalso. destruct (G j Gj) as (m & Hm & <- & Qm). assert (g (f_id m) = false) as X; [|congruence]. apply Dj.
  cbn [recursive_find]. rewrite (find_nodup l0 m (wf_ids _ _ _ W) Hm), fq_same, Qm. now left.
Qed.

Variable select : fnode -> bool.
Hypothesis Sel : forall r n, select (refer r n) = select n.
(** Any run of the loop either fails an assertion or deletes some quantizers. *)
Lemma before_loop_safe : forall ids g, okay g -> (exists g', okay g' /\ (forall k, g k = true -> g' k = true) /\ before_loop M is_fq select ids (here g) = Ok (here g')) \/
  before_loop M is_fq select ids (here g) = Raise AssertionError.
Proof.
  induction ids as [|i ids IH]; intros g G; [left; exists g; auto|]. cbn [before_loop]. rewrite find_view. destruct (g i) eqn:Z; [now apply IH|].
  destruct (find_node l0 i) as [n|] eqn:F; cbn [option_map]; [|now apply IH]. rewrite Sel. destruct (select n); [|now apply IH].
  set (f := rf _ _ _ _). assert (forall j, In j f -> exists n, In n l0 /\ f_id n = j /\ quant n = true) as FQ.
  { intros j J. apply found_quant in J. destruct J as (m & Hm & <- & Qm). cbn [without fst] in Hm. unfold view in Hm. apply in_map_iff in Hm. destruct Hm as (u & <- & Hu).
    apply filter_In in Hu. destruct Hu as [Hu Zu]. exists u. split; [exact Hu|]. split; [reflexivity|]. rewrite (left_quant is_fq l0 mods0 W) in Qm; [exact Qm|assumption|exact Hu|now apply negb_true_iff]. }
  destruct (erase_all_view f g G FQ) as [(_ & _ & O & E)|(_ & E)]; rewrite E; cbn [bind]; [|now right].
  destruct (IH (join f g) O) as [(g' & O' & X & E')|E']; [left|now right]. exists g'. split; [exact O'|]. split; [|exact E'].
  intros k K. apply X. unfold join. rewrite K. apply orb_true_r.
Qed.
Lemma del_before_safe : (exists g, okay g /\ del_before M is_fq select (l0, mods0) = Ok (here g)) \/ del_before M is_fq select (l0, mods0) = Raise AssertionError.
Proof.
  assert (del_before M is_fq select (l0, mods0) = (do s <- before_loop M is_fq select (map f_id l0) (here (fun _ => false)); finish M s)) as B by (rewrite view_none; reflexivity).
  rewrite B. destruct (before_loop_safe (map f_id l0) (fun _ => false)) as [(g & O & _ & E)|E]; [intros i X; discriminate| |]; rewrite E; cbn [bind]; [left|now right].
  exists g. split; [exact O|]. now apply (finish_view is_fq l0 mods0 W).
Qed.

Notation K := (S (length l0)).
Hypothesis U : forall t1 t2 p1 p2 f, In t1 l0 -> In t2 l0 -> select t1 = true -> select t2 = true ->
  walk is_fq l0 mods0 (f_id t1) p1 f -> walk is_fq l0 mods0 (f_id t2) p2 f -> t1 = t2 /\ p1 = p2.
Lemma before_loop_exact : forall ids g, okay g -> NoDup ids -> (forall i, In i ids -> In i (map f_id l0)) ->
  (forall k, g k = true -> exists t p, In t l0 /\ select t = true /\ ~ In (f_id t) ids /\ walk is_fq l0 mods0 (f_id t) p k) ->
  exists g', okay g' /\ before_loop M is_fq select ids (here g) = Ok (here g') /\
    forall k, g' k = true <-> g k = true \/ exists t p, In t l0 /\ select t = true /\ In (f_id t) ids /\ walk is_fq l0 mods0 (f_id t) p k.
Proof.
  induction ids as [|i ids IH]; intros g G N I T.
  - exists g. split; [exact G|]. split; [reflexivity|]. intros k. split; [now left|]. intros [H|(t & p & _ & _ & [] & _)]. exact H.
  - apply NoDup_cons_iff in N. destruct N as [N1 N2]. assert (forall j, In j ids -> In j (map f_id l0)) as I' by (intros; apply I; now right).
    pose proof (I i (or_introl eq_refl)) as Ii. apply in_map_iff in Ii. destruct Ii as (n & <- & H).
    assert (forall k, g k = true -> exists t p, In t l0 /\ select t = true /\ ~ In (f_id t) ids /\ walk is_fq l0 mods0 (f_id t) p k) as T'.
    { intros k Kk. destruct (T k Kk) as (t & p & A & B & C & D). exists t, p. repeat split; try assumption. intros X. apply C. now right. }
    assert (forall g', select n = false -> (forall k, g' k = true <-> g k = true \/ exists t p, In t l0 /\ select t = true /\ In (f_id t) ids /\ walk is_fq l0 mods0 (f_id t) p k) ->
      forall k, g' k = true <-> g k = true \/ exists t p, In t l0 /\ select t = true /\ In (f_id t) (f_id n :: ids) /\ walk is_fq l0 mods0 (f_id t) p k) as Skip.
    { intros g' Sn X k. rewrite X. split; (intros [Y|(t & p & A & B & C & D)]; [now left|right]); exists t, p; repeat split; try assumption; [now right|].
      destruct C as [C|C]; [|exact C]. rewrite (same_id l0 n t (wf_ids _ _ _ W) H A C) in Sn. congruence. }
    cbn [before_loop]. rewrite find_view. destruct (g (f_id n)) eqn:Z.
    + assert (select n = false) as Sn.
      { destruct (select n) eqn:Sn; [|reflexivity]. exfalso. destruct (T _ Z) as (t & p & A & B & C & D). destruct (G _ Z) as (m & Hm & Em & Qm).
        rewrite (same_id l0 m n (wf_ids _ _ _ W) Hm H Em) in Qm. destruct (U t n p [] (f_id n) A H B Sn D (walk_here is_fq l0 mods0 n H Qm)) as [-> _]. apply C. now left. }
      destruct (IH g G N2 I' T') as (g' & O & E & X). exists g'. split; [exact O|]. split; [exact E|]. now apply Skip.
    + rewrite (find_nodup l0 n (wf_ids _ _ _ W) H). cbn [option_map]. rewrite Sel. destruct (select n) eqn:Sn.
      2: { destruct (IH g G N2 I' T') as (g' & O & E & X). exists g'. split; [exact O|]. split; [exact E|]. now apply Skip. }
      assert (forall f, In f (rf K l0 mods0 (f_id n)) -> g f = false) as D.
      { intros f F. destruct (g f) eqn:Gf; [|reflexivity]. exfalso. destruct (T f Gf) as (t & p & A & B & C & Dt). apply found_walk in F. destruct F as (p2 & P2).
        destruct (U t n p p2 f A H B Sn Dt P2) as [-> _]. apply C. now left. }
      assert (length (fst (here g)) <= length l0) as Len. { cbn [without fst]. unfold view. rewrite map_length. apply filter_length_le. }
      rewrite <- (fuel_total (fst (here g)) (snd (here g)) (f_id n) (length l0) (view_nodup g) (view_ordered g G) Len).
      rewrite (found_view g G K (f_id n) Z D).
      destruct (erase_all_view (rf K l0 mods0 (f_id n)) g G (found_quant l0 mods0 K (f_id n))) as [(_ & _ & O & E)|(X & E)].
      2: { exfalso. apply X. split; [|exact D]. apply walks_nodup. intros p1 p2 f P1 P2. now destruct (U n n p1 p2 f H H Sn Sn P1 P2). }
      rewrite E. cbn [bind].
      assert (forall k, join (rf K l0 mods0 (f_id n)) g k = true <-> g k = true \/ exists p, walk is_fq l0 mods0 (f_id n) p k) as J.
      { intros k. unfold join. rewrite orb_true_iff, in_seen. split.
        - intros [F|F]; [right; now apply found_walk in F|now left].
        - intros [F|(p & P)]; [now right|left]. now apply (walk_found l0 mods0 (wf_ids _ _ _ W) (wf_order _ _ _ W)) in P. }
      destruct (IH _ O N2 I') as (g' & O' & E' & X).
      * intros k Kk. apply J in Kk. destruct Kk as [Kk|(p & P)]; [now apply T'|]. exists n, p. auto.
      * exists g'. split; [exact O'|]. split; [exact E'|]. intros k. rewrite X, J. split.
        -- intros [[Y|(p & P)]|(t & p & A & B & C & Dt)]; [now left|right; exists n, p; repeat split; try assumption; now left|right; exists t, p; repeat split; try assumption; now right].
        -- intros [Y|(t & p & A & B & [C|C] & Dt)]; [left; now left| |right; exists t, p; tauto]. left. right. exists p. now rewrite C.
Qed.
Lemma del_before_exact : exists gone, (forall f, gone f = true <-> exists t p, In t l0 /\ select t = true /\ walk is_fq l0 mods0 (f_id t) p f) /\
  del_before M is_fq select (l0, mods0) = Ok (here gone).
Proof.
  destruct (before_loop_exact (map f_id l0) (fun _ => false)) as (g & O & E & X); [intros i Y; discriminate|apply (wf_ids _ _ _ W)|auto|discriminate|].
  exists g. split.
  - intros f. rewrite X. split; [intros [Y|(t & p & A & B & _ & D)]; [discriminate|exists t, p; tauto]|]. intros (t & p & A & B & D). right. exists t, p. repeat split; try assumption. now apply in_map.
  - unfold del_before. cbn [fst]. rewrite <- (view_none l0 mods0) at 1. rewrite E. cbn [bind]. now apply (finish_view is_fq l0 mods0 W).
Qed.
End Proofs.

(** * C126 *)
(** No quantizer is met twice walking back from targets. *)
Definition met_once {M : Type} (is_fq : M -> bool) (l : list fnode) (mods : list (string * M)) (target : fnode -> Prop) : Prop :=
  forall t1 t2 p1 p2 f, In t1 l -> In t2 l -> target t1 -> target t2 -> walk is_fq l mods (f_id t1) p1 f -> walk is_fq l mods (f_id t2) p2 f -> t1 = t2 /\ p1 = p2.
Definition method_call (patterns : list string) (n : fnode) : Prop := f_op n = "call_method" /\ In (f_target n) patterns.
Definition function_call (patterns : list string) (n : fnode) : Prop := f_op n = "call_function" /\ In (f_target n) patterns.
Definition has_op (ops : list string) (n : fnode) : Prop := In (f_op n) ops.
Lemma del_before_spec {M : Type} (is_fq : M -> bool) select (target : fnode -> Prop) l mods : (forall r n, select (refer r n) = select n) -> (forall n, select n = true <-> target n) ->
  well_formed is_fq l mods -> met_once is_fq l mods target ->
  exists gone, (forall f, gone f = true <-> exists t p, In t l /\ target t /\ walk is_fq l mods (f_id t) p f) /\ del_before M is_fq select (l, mods) = Ok (without gone (l, mods)).
Proof.
  intros Sr St W U. destruct (del_before_exact is_fq l mods W select Sr) as (g & X & E).
  - intros t1 t2 p1 p2 f A B C D. apply (U t1 t2 p1 p2 f A B); now apply St.
  - exists g. split; [|exact E]. intros f. rewrite X. split; intros (t & p & A & B & C); exists t, p; (repeat split; [exact A|now apply St|exact C]).
Qed.
(** If no quantizer is met twice, exactly the quantizers met walking back from targets go. *)
Theorem C126_op_partial : forall (M : Type) (is_fq : M -> bool) ops l mods, well_formed is_fq l mods -> met_once is_fq l mods (has_op ops) ->
  exists gone, (forall f, gone f = true <-> exists t p, In t l /\ has_op ops t /\ walk is_fq l mods (f_id t) p f) /\ del_fakequant_before_op M is_fq ops (l, mods) = Ok (without gone (l, mods)).
Proof. intros M is_fq ops l mods. apply del_before_spec; [reflexivity|]. intros n. apply mem_in. Qed.
Lemma call_iff op patterns n : (String.eqb (f_op n) op && mem (f_target n) patterns)%bool = true <-> f_op n = op /\ In (f_target n) patterns.
Proof. now rewrite andb_true_iff, String.eqb_eq, mem_in. Qed.
Theorem C126_method_partial : forall (M : Type) (is_fq : M -> bool) patterns l mods, well_formed is_fq l mods -> met_once is_fq l mods (method_call patterns) ->
  exists gone, (forall f, gone f = true <-> exists t p, In t l /\ method_call patterns t /\ walk is_fq l mods (f_id t) p f) /\ del_fakequant_before_method M is_fq patterns (l, mods) = Ok (without gone (l, mods)).
Proof. intros M is_fq ops l mods. apply del_before_spec; [reflexivity|]. intros n. apply call_iff. Qed.
Theorem C126_function_partial : forall (M : Type) (is_fq : M -> bool) patterns l mods, well_formed is_fq l mods -> met_once is_fq l mods (function_call patterns) ->
  exists gone, (forall f, gone f = true <-> exists t p, In t l /\ function_call patterns t /\ walk is_fq l mods (f_id t) p f) /\ del_fakequant_before_function M is_fq patterns (l, mods) = Ok (without gone (l, mods)).
Proof. intros M is_fq ops l mods. apply del_before_spec; [reflexivity|]. intros n. apply call_iff. Qed.
(** In any case nothing but quantizers go, or an assertion fails. *)
Definition trims {M : Type} (is_fq : M -> bool) (l : list fnode) (mods : list (string * M)) (o : outcome (fstate M)) : Prop :=
  (exists gone, only_quantizers is_fq gone l mods /\ o = Ok (without gone (l, mods))) \/ o = Raise AssertionError.
Theorem C126_safe_partial : forall (M : Type) (is_fq : M -> bool) names l mods, well_formed is_fq l mods ->
  trims is_fq l mods (del_fakequant_before_op M is_fq names (l, mods)) /\
  trims is_fq l mods (del_fakequant_before_method M is_fq names (l, mods)) /\
  trims is_fq l mods (del_fakequant_before_function M is_fq names (l, mods)).
Proof. intros M is_fq names l mods W. repeat split; apply del_before_safe; try assumption; reflexivity. Qed.

(** With a single target, the call succeeds exactly if the walks from it end in different quantizers. *)
Lemma nodup_flat_map_inv {A B} (g : A -> list B) (l : list A) : NoDup (flat_map g l) ->
  (forall a x, nth_error l a = Some x -> NoDup (g x)) /\ (forall a b x y f, nth_error l a = Some x -> nth_error l b = Some y -> In f (g x) -> In f (g y) -> a = b).
Proof.
  induction l as [|z l IH]; intros N; [split; [intros [|a] x E; discriminate|intros [|a] b x y f E; discriminate]|]. cbn [flat_map] in N.
  assert (NoDup (g z) /\ NoDup (flat_map g l) /\ forall f, In f (g z) -> ~ In f (flat_map g l)) as (N1 & N2 & D).
  { clear IH. induction (g z) as [|b r IHr]; [split; [constructor|]; split; [exact N|intros f []]|]. cbn in N. apply NoDup_cons_iff in N. destruct N as [Nb N]. destruct (IHr N) as (A1 & A2 & A3).
    rewrite in_app_iff in Nb. split; [constructor; tauto|]. split; [exact A2|]. intros f [<-|F]; [tauto|now apply A3]. }
  destruct (IH N2) as [X Y]. split.
  - intros [|a] x E; [injection E as <-; exact N1|now apply (X a)].
  - intros [|a] [|b] x y f Ea Eb Fx Fy; cbn in Ea, Eb; [reflexivity| | |f_equal; now apply (Y a b x y f)].
    + injection Ea as <-. exfalso. apply (D f Fx). apply in_flat_map. exists y. split; [now apply nth_error_In in Eb|exact Fy].
    + injection Eb as <-. exfalso. apply (D f Fy). apply in_flat_map. exists x. split; [now apply nth_error_In in Ea|exact Fx].
Qed.
Lemma find_more {M : Type} (is_fq : M -> bool) k nodes mods i : recursive_find M is_fq (S k) nodes mods i = match find_node nodes i with
  | None => []
  | Some n => if fake_quant M is_fq mods n then [i] else flat_map (fun a => match a with ANode j => recursive_find M is_fq k nodes mods j | _ => [] end) (all_args n)
  end.
Proof. reflexivity. Qed.
Lemma nodup_walks {M : Type} (is_fq : M -> bool) l mods : well_formed is_fq l mods -> forall i p1 f, walk is_fq l mods i p1 f -> forall p2, walk is_fq l mods i p2 f ->
  NoDup (recursive_find M is_fq (S (length l)) l mods i) -> p1 = p2.
Proof.
  intros W i p1 f H. induction H as [n H Q|n a j p f H Q A P IH]; intros p2 P2 N.
  - inversion P2 as [m Hm Qm Em|m b j2 p3 f3 Hm Qm B P3 Em]; subst; [reflexivity|]. rewrite (same_id l m n (wf_ids _ _ _ W) Hm H Em) in Qm. congruence.
  - rewrite <- (fuel_total is_fq l mods (f_id n) (S (length l)) (wf_ids _ _ _ W) (wf_order _ _ _ W)) in N by lia.
    rewrite find_more, (find_nodup l n (wf_ids _ _ _ W) H), fq_same, Q in N.
    inversion P2 as [m Hm Qm Em|m b j2 p3 f3 Hm Qm B P3 Em]; subst.
    + rewrite (same_id l m n (wf_ids _ _ _ W) Hm H Em) in Qm. congruence.
    + pose proof (same_id l m n (wf_ids _ _ _ W) Hm H Em) as ->. destruct (nodup_flat_map_inv _ _ N) as [X Y].
      assert (a = b) as <-.
      { apply (Y a b (ANode j) (ANode j2) f A B); [exact (walk_found is_fq l mods (wf_ids _ _ _ W) (wf_order _ _ _ W) j p f P)|exact (walk_found is_fq l mods (wf_ids _ _ _ W) (wf_order _ _ _ W) j2 p3 f P3)]. }
      rewrite A in B. injection B as <-. f_equal. apply IH; [exact P3|]. exact (X a (ANode j) A).
Qed.
Lemma del_before_single {M : Type} (is_fq : M -> bool) select l mods t : (forall r n, select (refer r n) = select n) -> well_formed is_fq l mods ->
  In t l -> (forall n, In n l -> select n = true <-> n = t) ->
  ((exists s, del_before M is_fq select (l, mods) = Ok s) <-> forall p1 p2 f, walk is_fq l mods (f_id t) p1 f -> walk is_fq l mods (f_id t) p2 f -> p1 = p2).
Proof.
  intros Sr W Ht St. split.
  - intros (s & E) p1 p2 f P1 P2. apply (nodup_walks is_fq l mods W (f_id t) p1 f P1 p2 P2).
    assert (del_before M is_fq select (l, mods) = (do s <- before_loop M is_fq select (map f_id l) (without (fun _ => false) (l, mods)); finish M s)) as B0 by (rewrite view_none; reflexivity).
    rewrite B0 in E.
    assert (forall ids g, only_quantizers is_fq g l mods -> (forall k, g k = false) -> In (f_id t) ids -> (forall i, In i ids -> In i (map f_id l)) ->
      forall s, before_loop M is_fq select ids (without g (l, mods)) = Ok s -> NoDup (recursive_find M is_fq (S (length l)) l mods (f_id t))) as K.
    { induction ids as [|i ids IH]; intros g G Z I Il s0 E0; [destruct I|]. cbn [before_loop] in E0. rewrite find_view, Z in E0.
      pose proof (Il i (or_introl eq_refl)) as Ii. apply in_map_iff in Ii. destruct Ii as (n & <- & Hn). rewrite (find_nodup l n (wf_ids _ _ _ W) Hn) in E0. cbn [option_map] in E0.
      rewrite Sr in E0. destruct (select n) eqn:Sn.
      - apply St in Sn; [|exact Hn]. subst n.
        assert (without g (l, mods) = (l, mods)) as X by (rewrite <- (view_none l mods) at 2; apply view_ext; exact Z).
        destruct (erase_all_view is_fq l mods W (recursive_find M is_fq (S (length l)) l mods (f_id t)) g) as [(N & _)|(_ & N)]; [exact G|apply found_quant|exact N|].
        rewrite X in N, E0. cbn [fst snd] in E0. rewrite N in E0. discriminate.
      - destruct I as [I|I]; [rewrite (same_id l n t (wf_ids _ _ _ W) Hn Ht I) in Sn; pose proof (proj2 (St t Ht) eq_refl); congruence|].
        now apply (IH g G Z I (fun j J => Il j (or_intror J)) s0). }
    destruct (before_loop M is_fq select (map f_id l) (without (fun _ => false) (l, mods))) as [s'|e] eqn:B; [|discriminate].
    refine (K (map f_id l) (fun _ => false) _ _ _ _ s' B); [intros i X; discriminate|reflexivity|now apply in_map|auto].
  - intros U. destruct (del_before_exact is_fq l mods W select Sr) as (g & _ & E); [|now exists (without g (l, mods))].
    intros t1 t2 p1 p2 f A B C D P1 P2. apply St in C; [|exact A]. apply St in D; [|exact B]. subst. split; [reflexivity|]. now apply (U p1 p2 f).
Qed.
Theorem C126_output_partial : forall (M : Type) (is_fq : M -> bool) l mods t, well_formed is_fq l mods -> In t l -> f_op t = "output" -> (forall n, In n l -> f_op n = "output" -> n = t) ->
  ((exists s, del_fakequant_before_op M is_fq ["output"] (l, mods) = Ok s) <-> forall p1 p2 f, walk is_fq l mods (f_id t) p1 f -> walk is_fq l mods (f_id t) p2 f -> p1 = p2).
Proof.
  intros M is_fq l mods t W Ht Ot U. apply del_before_single; [reflexivity|exact W|exact Ht|]. intros n Hn. rewrite mem_in. split; [intros [X|[]]; now apply U|]. intros ->. now left.
Qed.

(** ** Examples *)
(** The network of C125: the quantizer before the output goes. *)
Fixpoint walks_from (k : nat) (l : list fnode) (mods : list (string * string)) (i : nat) : list (list nat * nat) :=
  match k with
  | O => []
  | S k => flat_map (fun n => if Nat.eqb (f_id n) i then (if quantizer is_quantizer mods n then [([], i)]
      else flat_map (fun a => match nth_error (f_args n ++ map snd (f_kwargs n)) a with Some (ANode j) => map (fun pf => (a :: fst pf, snd pf)) (walks_from k l mods j) | _ => [] end)
             (seq 0 (length (f_args n ++ map snd (f_kwargs n))))) else []) l
  end.
Lemma walks_from_spec l mods : forall k i path f, length path < k -> walk is_quantizer l mods i path f -> In (path, f) (walks_from k l mods i).
Proof.
  induction k as [|k IH]; intros i path f L H; [lia|]. cbn [walks_from]. inversion H as [n Hn Q E1 E2|n a j p f' Hn Q A P E1 E2]; subst.
  - apply in_flat_map. exists n. split; [exact Hn|]. rewrite Nat.eqb_refl, Q. now left.
  - apply in_flat_map. exists n. split; [exact Hn|]. rewrite Nat.eqb_refl, Q. apply in_flat_map. exists a. split.
    + apply in_seq. split; [lia|]. apply nth_error_Some. now rewrite A.
    + rewrite A. apply in_map_iff. exists (p, f). split; [reflexivity|]. apply IH; [cbn in L; lia|exact P].
Qed.
(** Walks go down the list, so they are no longer than it. *)
Lemma walk_short {M : Type} (is_fq : M -> bool) l mods : well_formed is_fq l mods -> forall i path f, walk is_fq l mods i path f -> forall l1 n l2, l = l1 ++ n :: l2 -> f_id n = i -> length path <= length l1.
Proof.
  intros W i path f H. induction H as [n H Q|n a j p f H Q A P IH]; intros l1 m l2 E X; [cbn; lia|].
  assert (In m l) as Hm by (rewrite E; apply in_elt). pose proof (same_id l m n (wf_ids _ _ _ W) Hm H X) as ->.
  assert (In j (map f_id l1)) as J. { apply (wf_order _ _ _ W l1 n l2 j E). exists (ANode j). split; [now apply nth_error_In in A|now left]. }
  apply in_map_iff in J. destruct J as (u & <- & J). apply in_split in J. destruct J as (b & c & ->).
  rewrite app_length. cbn [length]. pose proof (IH b u (c ++ n :: l2) ltac:(rewrite E, <- app_assoc; reflexivity) eq_refl). lia.
Qed.
Lemma walks_all l mods i path f : well_formed is_quantizer l mods -> walk is_quantizer l mods i path f -> In (path, f) (walks_from (length l) l mods i).
Proof.
  intros W H. apply walks_from_spec; [|exact H]. assert (exists n, In n l /\ f_id n = i) as (n & Hn & X) by (inversion H; eauto). apply in_split in Hn. destruct Hn as (a & b & E).
  pose proof (walk_short is_quantizer l mods W i path f H a n b E X). rewrite E, app_length. cbn [length]. lia.
Qed.
Example C126_op_example : well_formed is_quantizer net net_modules /\ met_once is_quantizer net net_modules (has_op ["output"]) /\
  summary (del_fakequant_before_op string is_quantizer ["output"] (net, net_modules)) =
  Ok ([(0, []); (1, [ANode 0]); (2, [ANode 1]); (3, [ANode 2]); (4, [ANode 3]); (5, [ANode 4; AConst 1]); (6, [ANode 5]); (7, [ANode 6]); (9, [ANode 7])], ["conv"; "aq0"; "pool"; "aq1"; "fc"; "aq2"]).
Proof.
  split; [exact C125_net_ok|]. split; [|reflexivity]. intros t1 t2 p1 p2 f A B C D P1 P2. apply (walks_all _ _ _ _ _ C125_net_ok) in P1, P2.
  assert (forall t, In t net -> has_op ["output"] t -> t = fnd 9 "output" "output" [ANode 8]) as O.
  { intros t H [X|[]]. cbn in H. repeat (destruct H as [<-|H]; [first [discriminate X|reflexivity]|]). destruct H. }
  rewrite (O t1 A C) in *. rewrite (O t2 B D) in *. vm_compute in P1, P2. destruct P1 as [P1|[]]. destruct P2 as [P2|[]]. split; congruence.
Qed.
(** [view(q1(q0(x) * y), q2(y))] and a size method that stops nothing. *)
Definition view_net : list fnode :=
  [fnd 0 "placeholder" "x" []; fnd 1 "placeholder" "y" []; fnd 2 "call_module" "aq0" [ANode 0]; fnd 3 "call_function" "mul" [ANode 2; ANode 1]; fnd 4 "call_module" "aq1" [ANode 3];
   fnd 5 "call_module" "aq2" [ANode 1]; fnd 6 "call_method" "size" [ANode 5; AConst 0]; {| f_id := 7; f_op := "call_method"; f_target := "view"; f_args := [ANode 4]; f_kwargs := [("size", ANode 6)] |}; fnd 8 "output" "output" [ANode 7]].
Definition view_modules : list (string * string) := [("aq0", "FakeQuantize"); ("aq1", "FakeQuantize"); ("aq2", "FakeQuantize")].
Example C126_view_ok : well_formed is_quantizer view_net view_modules.
Proof. apply well_formed_by; vm_compute; reflexivity. Qed.
Example C126_method_example : met_once is_quantizer view_net view_modules (method_call ["view"]) /\
  summary (del_fakequant_before_method string is_quantizer ["view"] (view_net, view_modules)) =
  Ok ([(0, []); (1, []); (2, [ANode 0]); (3, [ANode 2; ANode 1]); (6, [ANode 1; AConst 0]); (7, [ANode 3]); (8, [ANode 7])], ["aq0"]) /\
  summary (del_fakequant_before_function string is_quantizer ["mul"] (view_net, view_modules)) =
  Ok ([(0, []); (1, []); (3, [ANode 0; ANode 1]); (4, [ANode 3]); (5, [ANode 1]); (6, [ANode 5; AConst 0]); (7, [ANode 4]); (8, [ANode 7])], ["aq1"; "aq2"]).
Proof.
  split; [|split; reflexivity]. intros t1 t2 p1 p2 f A B C D P1 P2. apply (walks_all _ _ _ _ _ C126_view_ok) in P1, P2.
  assert (forall t, In t view_net -> method_call ["view"] t -> f_id t = 7) as O.
  { intros t H [X [Y|[]]]. cbn in H. repeat (destruct H as [<-|H]; [first [discriminate X|discriminate Y|reflexivity]|]). destruct H. }
  pose proof (same_id view_net t1 t2 (wf_ids _ _ _ C126_view_ok) A B ltac:(rewrite (O t1 A C), (O t2 B D); reflexivity)) as <-. split; [reflexivity|].
  rewrite (O t1 A C) in *. vm_compute in P1, P2. destruct P1 as [P1|[P1|[]]]; destruct P2 as [P2|[P2|[]]]; congruence.
Qed.
Example C126_safe_example : trims is_quantizer net net_modules (del_fakequant_before_op string is_quantizer ["call_module"] (net, net_modules)).
Proof. apply (C126_safe_partial string is_quantizer ["call_module"] net net_modules C125_net_ok). Qed.

(** ** What fails *)
(** Claimed: for every graph, exactly the quantizers met walking back from the output go. It fails for
    an output [q(x) * q(x)]: the quantizer is listed twice and the second time it is gone. *)
Definition C126_claim : Prop := forall l mods, well_formed is_quantizer l mods ->
  exists gone, (forall f, gone f = true <-> exists t p, In t l /\ has_op ["output"] t /\ walk is_quantizer l mods (f_id t) p f) /\ del_fakequant_before_op string is_quantizer ["output"] (l, mods) = Ok (without gone (l, mods)).
Definition square : list fnode := [fnd 0 "placeholder" "x" []; fnd 1 "call_module" "aq0" [ANode 0]; fnd 2 "call_function" "mul" [ANode 1; ANode 1]; fnd 3 "output" "output" [ANode 2]].
Example C126_square : well_formed is_quantizer square [("aq0", "FakeQuantize")] /\ del_fakequant_before_op string is_quantizer ["output"] (square, [("aq0", "FakeQuantize")]) = Raise AssertionError.
Proof. split; [apply well_formed_by; vm_compute; reflexivity|reflexivity]. Qed.
Theorem C126_square_refuted : ~ C126_claim.
Proof. intros H. destruct (H square _ (proj1 C126_square)) as (g & _ & E). rewrite (proj2 C126_square) in E. discriminate. Qed.
(** Claimed: if the call succeeds, only quantizers met walking back from targets go. It fails if two
    targets use the same quantizer: the second target walks on to quantizers further back. *)
Definition C126_only_claim : Prop := forall names l mods s, well_formed is_quantizer l mods -> del_fakequant_before_method string is_quantizer names (l, mods) = Ok s ->
  forall n, In n l -> (forall t p, In t l -> method_call names t -> ~ walk is_quantizer l mods (f_id t) p (f_id n)) -> In (f_id n) (map f_id (fst s)).
(** [y = q1(fc(q0(x)))], [y.view(y.size(0))] *)
Definition twice : list fnode :=
  [fnd 0 "placeholder" "x" []; fnd 1 "call_module" "aq0" [ANode 0]; fnd 2 "call_module" "fc" [ANode 1]; fnd 3 "call_module" "aq1" [ANode 2];
   fnd 4 "call_method" "size" [ANode 3; AConst 0]; fnd 5 "call_method" "view" [ANode 3; AConst 1]; fnd 6 "output" "output" [ANode 5; ANode 4]].
Definition twice_modules : list (string * string) := [("aq0", "FakeQuantize"); ("fc", "Linear"); ("aq1", "FakeQuantize")].
Example C126_twice_ok : well_formed is_quantizer twice twice_modules.
Proof. apply well_formed_by; vm_compute; reflexivity. Qed.
Theorem C126_only_refuted : ~ C126_only_claim.
Proof.
  intros H. assert (In 1 (map f_id ([fnd 0 "placeholder" "x" []; fnd 2 "call_module" "fc" [ANode 0]; fnd 4 "call_method" "size" [ANode 2; AConst 0]; fnd 5 "call_method" "view" [ANode 2; AConst 1]; fnd 6 "output" "output" [ANode 5; ANode 4]]))) as X.
  - refine (H ["size"; "view"] twice twice_modules (_, [("fc", "Linear")]) C126_twice_ok eq_refl (fnd 1 "call_module" "aq0" [ANode 0]) _ _); [vm_compute; tauto|].
    intros t p Ht [T1 T2] P. apply (walks_all _ _ _ _ _ C126_twice_ok) in P. cbn in Ht.
    repeat (destruct Ht as [<-|Ht]; [first [discriminate T1|vm_compute in P; destruct P as [P|[]]; discriminate P]|]). destruct Ht.
  - vm_compute in X. repeat (destruct X as [X|X]; [discriminate X|]). destruct X.
Qed.
(** Claimed: no quantizer is left that the output uses. It fails if the output is a tuple. *)
Definition C126_tuple_claim : Prop := forall l mods s, well_formed is_quantizer l mods -> del_fakequant_before_op string is_quantizer ["output"] (l, mods) = Ok s ->
  forall o n, In o (fst s) -> In n (fst s) -> f_op o = "output" -> refers o (f_id n) -> quantizer is_quantizer (snd s) n = false.
Definition pair_net : list fnode := [fnd 0 "placeholder" "x" []; fnd 1 "call_module" "aq0" [ANode 0]; fnd 2 "call_module" "fc" [ANode 1]; fnd 3 "call_module" "aq1" [ANode 2]; fnd 4 "output" "output" [AList [1; 3]]].
Theorem C126_tuple_refuted : ~ C126_tuple_claim.
Proof.
  intros H. specialize (H pair_net twice_modules (pair_net, twice_modules) ltac:(apply well_formed_by; vm_compute; reflexivity) eq_refl (fnd 4 "output" "output" [AList [1; 3]]) (fnd 3 "call_module" "aq1" [ANode 2])).
  assert (quantizer is_quantizer twice_modules (fnd 3 "call_module" "aq1" [ANode 2]) = false) as X; [|discriminate X].
  apply H; [vm_compute; tauto|vm_compute; tauto|reflexivity|]. exists (AList [1; 3]). split; [now left|]. right. exists [1; 3]. split; [reflexivity|]. right. now left.
Qed.
Print Assumptions C126_op_partial.
Print Assumptions C126_method_partial.
Print Assumptions C126_function_partial.
Print Assumptions C126_safe_partial.
Print Assumptions C126_output_partial.
Print Assumptions C126_square_refuted.
Print Assumptions C126_only_refuted.
Print Assumptions C126_tuple_refuted.
(** The output of [square] reaches its quantizer by two walks, that of [net] by one. *)
Example C126_output_example : walk is_quantizer square [("aq0", "FakeQuantize")] 3 [0; 0] 1 /\ walk is_quantizer square [("aq0", "FakeQuantize")] 3 [0; 1] 1 /\
  (forall p1 p2 f, walk is_quantizer net net_modules 9 p1 f -> walk is_quantizer net net_modules 9 p2 f -> p1 = p2).
Proof.
  split; [|split].
  - refine (walk_back is_quantizer square [("aq0", "FakeQuantize")] (fnd 3 "output" "output" [ANode 2]) 0 2 [0] 1 _ eq_refl eq_refl _); [vm_compute; tauto|].
    refine (walk_back is_quantizer square [("aq0", "FakeQuantize")] (fnd 2 "call_function" "mul" [ANode 1; ANode 1]) 0 1 [] 1 _ eq_refl eq_refl _); [vm_compute; tauto|].
    refine (walk_here is_quantizer square [("aq0", "FakeQuantize")] (fnd 1 "call_module" "aq0" [ANode 0]) _ eq_refl). vm_compute. tauto.
  - refine (walk_back is_quantizer square [("aq0", "FakeQuantize")] (fnd 3 "output" "output" [ANode 2]) 0 2 [1] 1 _ eq_refl eq_refl _); [vm_compute; tauto|].
    refine (walk_back is_quantizer square [("aq0", "FakeQuantize")] (fnd 2 "call_function" "mul" [ANode 1; ANode 1]) 1 1 [] 1 _ eq_refl eq_refl _); [vm_compute; tauto|].
    refine (walk_here is_quantizer square [("aq0", "FakeQuantize")] (fnd 1 "call_module" "aq0" [ANode 0]) _ eq_refl). vm_compute. tauto.
  - intros p1 p2 f P1 P2. apply (walks_all _ _ _ _ _ C125_net_ok) in P1, P2. vm_compute in P1, P2. destruct P1 as [P1|[]]. destruct P2 as [P2|[]]. congruence.
Qed.
