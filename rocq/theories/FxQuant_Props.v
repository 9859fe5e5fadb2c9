(** Properties of deleting fake quantizers from a prepared graph (FxQuant_Model.v): what a call that
    succeeds does, and what the functions deleting after targets do (C125). *)
From Coq Require Import String.
From Verif Require Import Prelude Onnx_Model Onnx_Lemmas Engine_Model FxQuant_Model.
Local Open Scope string_scope.
Local Open Scope list_scope.
Local Open Scope nat_scope.

(** * Spec: which nodes are quantizers, references, a graph without some of its quantizers *)
Section Spec.
Context {M : Type} (is_fq : M -> bool).
Definition quantizer (mods : list (string * M)) (n : fnode) : bool :=
  String.eqb (f_op n) "call_module" && match get mods (f_target n) with Some x => is_fq x | None => false end.
Definition refers (n : fnode) (k : nat) : Prop :=
  exists a, In a (f_args n ++ map snd (f_kwargs n)) /\ (a = ANode k \/ exists l, a = AList l /\ In k l).
(** Arguments are listed before, quantizers quantize one value that is not quantized already, have
    modules of their own, and these are children of the root. *)
Record well_formed (l : list fnode) (mods : list (string * M)) : Prop := {
  wf_ids : NoDup (map f_id l);
  wf_order : forall l1 n l2 k, l = l1 ++ n :: l2 -> refers n k -> In k (map f_id l1);
  wf_fq : forall n, In n l -> quantizer mods n = true -> exists j, f_args n = [ANode j] /\ forall m, In m l -> f_id m = j -> quantizer mods m = false;
  wf_names : forall n m, In n l -> In m l -> quantizer mods n = true -> quantizer mods m = true -> f_target n = f_target m -> f_id n = f_id m;
  wf_plain : forall n, In n l -> quantizer mods n = true -> contains "." (f_target n) = false }.
(** The value a node quantizes. *)
Definition input (l : list fnode) (i : nat) : nat :=
  match find (fun n => Nat.eqb (f_id n) i) l with
  | Some n => match f_args n with [ANode j] => j | _ => i end
  | None => i
  end.
Definition redirect (gone : nat -> bool) (l : list fnode) (k : nat) : nat := if gone k then input l k else k.
Definition refer_arg (r : nat -> nat) (a : farg) : farg := match a with ANode k => ANode (r k) | AConst c => AConst c | AList l => AList (map r l) end.
Definition refer (r : nat -> nat) (n : fnode) : fnode :=
  {| f_id := f_id n; f_op := f_op n; f_target := f_target n; f_args := map (refer_arg r) (f_args n); f_kwargs := map (fun kv => (fst kv, refer_arg r (snd kv))) (f_kwargs n) |}.
(** The graph without the nodes [gone]: who used them uses what they quantize. *)
Definition view (gone : nat -> bool) (l : list fnode) : list fnode := map (refer (redirect gone l)) (filter (fun n => negb (gone (f_id n))) l).
(** The modules without those of the nodes [gone]. *)
Definition left (gone : nat -> bool) (l : list fnode) (mods : list (string * M)) : list (string * M) :=
  filter (fun kv => negb (existsb (fun n => gone (f_id n) && String.eqb (f_target n) (fst kv)) l)) mods.
Definition only_quantizers (gone : nat -> bool) (l : list fnode) (mods : list (string * M)) : Prop :=
  forall i, gone i = true -> exists n, In n l /\ f_id n = i /\ quantizer mods n = true.
Definition without (gone : nat -> bool) (s : list fnode * list (string * M)) : list fnode * list (string * M) := (view gone (fst s), left gone (fst s) (snd s)).
End Spec.

(** Running a graph: [call] is any meaning of nodes. Nodes [off] pass on their first argument. *)
Inductive value (V : Type) : Type := VOne (v : V) | VConst (c : nat) | VList (l : list V).
Arguments VOne {V}. Arguments VConst {V}. Arguments VList {V}.
Section Run.
Context {V : Type} (call : string -> string -> list (value V) -> list (string * value V) -> V).
Definition read (env : nat -> V) (a : farg) : value V := match a with ANode k => VOne (env k) | AConst c => VConst c | AList l => VList (map env l) end.
Definition result (off : nat -> bool) (env : nat -> V) (n : fnode) : V :=
  match off (f_id n), f_args n with
  | true, ANode j :: _ => env j
  | _, _ => call (f_op n) (f_target n) (map (read env) (f_args n)) (map (fun kv => (fst kv, read env (snd kv))) (f_kwargs n))
  end.
Definition execute (off : nat -> bool) (l : list fnode) (env : nat -> V) : nat -> V :=
  fold_left (fun e n => fun k => if Nat.eqb k (f_id n) then result off e n else e k) l env.
End Run.

(** * Lemmas *)
Lemma find_in (l : list fnode) i n : find_node l i = Some n -> In n l /\ f_id n = i.
Proof. unfold find_node. intros H. apply find_some in H. destruct H as [H E]. apply Nat.eqb_eq in E. now split. Qed.
Lemma find_nodup (l : list fnode) n : NoDup (map f_id l) -> In n l -> find_node l (f_id n) = Some n.
Proof.
  unfold find_node. induction l as [|m r IH]; intros N H; [destruct H|]. cbn [map] in N. apply NoDup_cons_iff in N. destruct N as [N1 N2].
  cbn [find]. destruct (Nat.eqb (f_id m) (f_id n)) eqn:E.
  - apply Nat.eqb_eq in E. destruct H as [<-|H]; [reflexivity|]. destruct N1. rewrite E. now apply in_map.
  - destruct H as [->|H]; [now rewrite Nat.eqb_refl in E|]. now apply IH.
Qed.
Lemma find_none_in (l : list fnode) i : find_node l i = None -> ~ In i (map f_id l).
Proof.
  intros H J. apply in_map_iff in J. destruct J as (n & E & J). unfold find_node in H. apply (find_none _ _ H) in J. rewrite E, Nat.eqb_refl in J. discriminate.
Qed.
Lemma same_id (l : list fnode) n m : NoDup (map f_id l) -> In n l -> In m l -> f_id n = f_id m -> n = m.
Proof. intros N H1 H2 E. apply (find_nodup l n N) in H1. apply (find_nodup l m N) in H2. rewrite E in H1. congruence. Qed.
Lemma refer_arg_twice r1 r2 a : refer_arg r2 (refer_arg r1 a) = refer_arg (fun k => r2 (r1 k)) a.
Proof. destruct a; cbn; [reflexivity|reflexivity|now rewrite map_map]. Qed.
Lemma refer_twice r1 r2 n : refer r2 (refer r1 n) = refer (fun k => r2 (r1 k)) n.
Proof.
  unfold refer. cbn. f_equal.
  - rewrite map_map. apply map_ext. intros a. apply refer_arg_twice.
  - rewrite map_map. apply map_ext. intros [k a]. cbn. now rewrite refer_arg_twice.
Qed.
Lemma refer_arg_ext r1 r2 a : (forall k, r1 k = r2 k) -> refer_arg r1 a = refer_arg r2 a.
Proof. intros H. destruct a; cbn; [now rewrite H|reflexivity|]. f_equal. now apply map_ext. Qed.
Lemma refer_ext r1 r2 n : (forall k, r1 k = r2 k) -> refer r1 n = refer r2 n.
Proof.
  intros H. unfold refer. f_equal; apply map_ext; [intros a; now apply refer_arg_ext|]. intros [k a]. cbn. now rewrite (refer_arg_ext r1 r2 a H).
Qed.
Lemma refer_id n : refer (fun k => k) n = n.
Proof.
  destruct n as [i o t a k]. unfold refer. cbn. f_equal.
  - rewrite <- (map_id a) at 2. apply map_ext. intros [x|x|x]; cbn; [reflexivity|reflexivity|now rewrite map_id].
  - rewrite <- (map_id k) at 2. apply map_ext. intros [s [x|x|x]]; cbn; [reflexivity|reflexivity|now rewrite map_id].
Qed.
Lemma replace_refer i j n : replace_uses i j n = refer (fun k => if Nat.eqb k i then j else k) n.
Proof. reflexivity. Qed.
Lemma filter_map_comm {A B} (f : A -> B) (p : B -> bool) (l : list A) : filter p (map f l) = map f (filter (fun x => p (f x)) l).
Proof. induction l as [|x l IH]; cbn; [reflexivity|]. destruct (p (f x)); cbn; now rewrite IH. Qed.
Lemma filter_both {A} (p q : A -> bool) (l : list A) : filter p (filter q l) = filter (fun x => q x && p x) l.
Proof. induction l as [|x l IH]; cbn; [reflexivity|]. destruct (q x); cbn; [destruct (p x); now rewrite IH|exact IH]. Qed.
Lemma get_filter {A} (p : string -> bool) (l : list (string * A)) k : get (filter (fun kv => p (fst kv)) l) k = if p k then get l k else None.
Proof.
  induction l as [|[x v] l IH]; cbn [filter get fst]; [now destruct (p k)|]. destruct (p x) eqn:P; cbn [get].
  - destruct (String.eqb x k) eqn:E; [apply String.eqb_eq in E; subst x; now rewrite P|exact IH].
  - rewrite IH. destruct (String.eqb x k) eqn:E; [apply String.eqb_eq in E; subst x; now rewrite P|reflexivity].
Qed.

Section Proofs.
Context {M : Type} (is_fq : M -> bool).
Lemma fq_same mods n : fake_quant M is_fq mods n = quantizer is_fq mods n.
Proof. unfold fake_quant, module_of, quantizer. now destruct (String.eqb (f_op n) "call_module"). Qed.
Lemma refer_quantizer mods r n : quantizer is_fq mods (refer r n) = quantizer is_fq mods n.
Proof. reflexivity. Qed.

Variables (l0 : list fnode) (mods0 : list (string * M)).
Hypothesis W : well_formed is_fq l0 mods0.
Notation quant := (quantizer is_fq mods0).
Notation here g := (without g (l0, mods0)).
Notation okay g := (only_quantizers is_fq g l0 mods0).

Lemma view_ext g1 g2 : (forall k, g1 k = g2 k) -> here g1 = here g2.
Proof.
  intros H. unfold without, view, left. cbn [fst snd]. f_equal.
  - rewrite (filter_ext (fun n => negb (g1 (f_id n))) (fun n => negb (g2 (f_id n)))) by (intros; now rewrite H).
    apply map_ext. intros n. apply refer_ext. intros k. unfold redirect. now rewrite H.
  - apply filter_ext. intros [k x]. f_equal. induction l0 as [|n r IH] in |- *; [reflexivity|]. cbn [existsb]. now rewrite H, IH.
Qed.
Lemma view_none : here (fun _ => false) = (l0, mods0).
Proof.
  unfold without, view, left. cbn [fst snd]. f_equal.
  - induction l0 as [|n r IH] in |- *; [reflexivity|]. cbn. f_equal; [apply refer_id|exact IH].
  - induction mods0 as [|kv r IH] in |- *; [reflexivity|]. cbn [filter].
    replace (existsb (fun n => false && String.eqb (f_target n) (fst kv)) l0) with false; [cbn [negb]; f_equal; exact IH|].
    induction l0 as [|x y IHx] in |- *; [reflexivity|exact IHx].
Qed.
Lemma find_map_filter (r : nat -> nat) (p : nat -> bool) (l : list fnode) i :
  find_node (map (refer r) (filter (fun n => p (f_id n)) l)) i = if p i then option_map (refer r) (find_node l i) else None.
Proof.
  induction l as [|n l IH]; unfold find_node in *; cbn [filter map find]; [now destruct (p i)|]. destruct (p (f_id n)) eqn:P; cbn [map find].
  - change (f_id (refer r n)) with (f_id n). destruct (Nat.eqb (f_id n) i) eqn:E; [apply Nat.eqb_eq in E; subst i; now rewrite P|exact IH].
  - rewrite IH. destruct (Nat.eqb (f_id n) i) eqn:E; [apply Nat.eqb_eq in E; subst i; now rewrite P|reflexivity].
Qed.
Lemma find_view g i : find_node (fst (here g)) i = if g i then None else option_map (refer (redirect g l0)) (find_node l0 i).
Proof. cbn [without fst]. unfold view. rewrite (find_map_filter (redirect g l0) (fun k => negb (g k))). now destruct (g i). Qed.

Lemma input_of n : In n l0 -> quant n = true -> f_args n = [ANode (input l0 (f_id n))] /\ forall m, In m l0 -> f_id m = input l0 (f_id n) -> quant m = false.
Proof.
  intros H Q. destruct (wf_fq _ _ _ W n H Q) as (j & E & J). unfold input.
  pose proof (find_nodup l0 n (wf_ids _ _ _ W) H) as F. unfold find_node in F. rewrite F, E. auto.
Qed.
Lemma input_kept g n : okay g -> In n l0 -> quant n = true -> g (input l0 (f_id n)) = false.
Proof.
  intros G H Q. destruct (g (input l0 (f_id n))) eqn:E; [|reflexivity]. destruct (G _ E) as (m & Hm & Em & Qm).
  destruct (input_of n H Q) as [_ J]. rewrite (J m Hm Em) in Qm. discriminate.
Qed.
Lemma redirect_kept g k : okay g -> g (redirect g l0 k) = false.
Proof. intros G. unfold redirect. destruct (g k) eqn:E; [|exact E]. destruct (G _ E) as (n & H & <- & Q). now apply input_kept. Qed.

(** Membership of a module in what is left. *)
Lemma existsb_iff {A} (p : A -> bool) l : existsb p l = false -> forall x, In x l -> p x = false.
Proof. intros H x J. destruct (p x) eqn:E; [|reflexivity]. rewrite <- H. symmetry. apply existsb_exists. now exists x. Qed.
Lemma left_get g n : okay g -> In n l0 -> f_op n = "call_module" -> g (f_id n) = false -> get (snd (here g)) (f_target n) = get mods0 (f_target n).
Proof.
  intros G H O Z. cbn [without snd]. unfold left. rewrite (get_filter (fun k => negb (existsb (fun n => g (f_id n) && String.eqb (f_target n) k) l0))).
  destruct (existsb _ l0) eqn:E; [|reflexivity]. apply existsb_exists in E. destruct E as (m & Hm & E). apply andb_true_iff in E. destruct E as [E1 E2].
  apply String.eqb_eq in E2. destruct (G _ E1) as (m' & Hm' & Em & Qm). pose proof (same_id l0 m' m (wf_ids _ _ _ W) Hm' Hm Em) as ->.
  assert (quant n = true) as Q. { unfold quantizer in Qm |- *. rewrite O. rewrite <- E2. apply andb_true_iff in Qm. now destruct Qm as [_ ->]. }
  rewrite (wf_names _ _ _ W m n Hm H Qm Q E2) in E1. congruence.
Qed.
Lemma left_quant g n r : okay g -> In n l0 -> g (f_id n) = false -> quantizer is_fq (snd (here g)) (refer r n) = quant n.
Proof.
  intros G H Z. unfold quantizer. cbn [refer f_op f_target]. destruct (String.eqb (f_op n) "call_module") eqn:O; [|reflexivity].
  apply String.eqb_eq in O. now rewrite left_get.
Qed.
Lemma left_pattern (pat : M -> bool) g n r : okay g -> In n l0 -> g (f_id n) = false ->
  pattern_module M pat (snd (here g)) (refer r n) = pattern_module M pat mods0 n.
Proof.
  intros G H Z. unfold pattern_module, module_of. cbn [refer f_op f_target]. destruct (String.eqb (f_op n) "call_module") eqn:O; [|reflexivity].
  apply String.eqb_eq in O. now rewrite left_get.
Qed.

Definition add (i : nat) (g : nat -> bool) : nat -> bool := fun k => Nat.eqb k i || g k.
Lemma add_okay g n : okay g -> In n l0 -> quant n = true -> okay (add (f_id n) g).
Proof. intros G H Q i. unfold add. destruct (Nat.eqb i (f_id n)) eqn:E; [|apply G]. apply Nat.eqb_eq in E. subst i. intros _. now exists n. Qed.

Lemma erase_step g n : okay g -> In n l0 -> quant n = true -> g (f_id n) = false ->
  erase M (here g) (refer (redirect g l0) n) = Ok (here (add (f_id n) g)).
Proof.
  intros G H Q Z. destruct (input_of n H Q) as [A J]. unfold erase. change (f_args (refer (redirect g l0) n)) with (map (refer_arg (redirect g l0)) (f_args n)).
  rewrite A. cbn [map refer_arg]. assert (redirect g l0 (input l0 (f_id n)) = input l0 (f_id n)) as RI by (unfold redirect; now rewrite input_kept).
  rewrite RI. cbn [refer f_target f_id]. unfold delattr. rewrite (wf_plain _ _ _ W n H Q).
  assert (f_op n = "call_module") as O by (unfold quantizer in Q; apply andb_true_iff in Q; destruct Q as [Q _]; now apply String.eqb_eq in Q).
  assert (has (snd (here g)) (f_target n) = true) as HH.
  { unfold has. rewrite left_get by assumption. unfold quantizer in Q. destruct (get mods0 (f_target n)); [reflexivity|]. now rewrite andb_false_r in Q. }
  rewrite HH. cbn [bind]. unfold without, view, left. cbn [fst snd]. f_equal. f_equal.
  - rewrite filter_map_comm, filter_both, map_map.
    rewrite (filter_ext _ (fun n0 => negb (add (f_id n) g (f_id n0)))).
    2: { intros m. unfold add. cbn [refer f_id]. now rewrite negb_orb, andb_comm. }
    apply map_ext. intros m. rewrite replace_refer, refer_twice. apply refer_ext. intros k. unfold redirect, add.
    destruct (g k) eqn:Ek.
    + rewrite orb_true_r. destruct (Nat.eqb (input l0 k) (f_id n)) eqn:E; [|reflexivity]. exfalso. apply Nat.eqb_eq in E.
      destruct (G k Ek) as (m' & Hm & <- & Qm). destruct (input_of m' Hm Qm) as [_ Jm]. rewrite (Jm n H (eq_sym E)) in Q. discriminate.
    + rewrite orb_false_r. destruct (Nat.eqb k (f_id n)) eqn:E; [|reflexivity]. apply Nat.eqb_eq in E. now subst k.
  - rewrite filter_both. apply filter_ext. intros [t x]. cbn [fst]. rewrite <- negb_orb. f_equal.
    apply eq_true_iff_eq. rewrite orb_true_iff, !existsb_exists. split.
    + intros [(m & Hm & E)|E].
      * exists m. split; [exact Hm|]. apply andb_true_iff in E. destruct E as [E1 E2]. unfold add. rewrite E1, E2. now rewrite orb_true_r.
      * exists n. split; [exact H|]. unfold add. rewrite Nat.eqb_refl. cbn. now rewrite String.eqb_sym.
    + intros (m & Hm & E). unfold add in E. apply andb_true_iff in E. destruct E as [E1 E2]. apply orb_true_iff in E1. destruct E1 as [E1|E1].
      * right. apply Nat.eqb_eq in E1. pose proof (same_id l0 m n (wf_ids _ _ _ W) Hm H E1) as ->. now rewrite String.eqb_sym.
      * left. exists m. now rewrite E1, E2.
Qed.

(** The graph left is a graph: [lint] accepts it. *)
Lemma in_seen k seen : existsb (Nat.eqb k) seen = true <-> In k seen.
Proof.
  rewrite existsb_exists. split; [intros (x & H & E); apply Nat.eqb_eq in E; now subst|]. intros H. exists k. split; [exact H|apply Nat.eqb_refl].
Qed.
Lemma uses_refers n k : In k (uses_of n) <-> refers n k.
Proof.
  unfold uses_of, refers, all_args. rewrite in_flat_map. split.
  - intros (a & H & E). exists a. split; [exact H|]. destruct a as [x|x|x]; cbn in E; [destruct E as [->|[]]; now left|destruct E|right; now exists x].
  - intros (a & H & [->|(l & -> & E)]); [exists (ANode k)|exists (AList l)]; (split; [exact H|]); [now left|exact E].
Qed.
Lemma refers_refer r n k : refers (refer r n) k -> exists j, refers n j /\ k = r j.
Proof.
  intros (a & H & E). cbn [refer f_args f_kwargs] in H. rewrite map_map in H. cbn [snd] in H.
  replace (map (fun x => refer_arg r (snd x)) (f_kwargs n)) with (map (refer_arg r) (map snd (f_kwargs n))) in H by now rewrite map_map.
  rewrite <- map_app in H. apply in_map_iff in H. destruct H as (b & <- & H). destruct b as [x|x|x]; cbn in E.
  - destruct E as [E|(l & E & _)]; [|discriminate]. injection E as <-. exists x. split; [|reflexivity]. exists (ANode x). auto.
  - destruct E as [E|(l & E & _)]; discriminate.
  - destruct E as [E|(l & E & J)]; [discriminate|]. injection E as <-. apply in_map_iff in J. destruct J as (j & <- & J). exists j. split; [|reflexivity].
    exists (AList x). split; [exact H|]. right. now exists x.
Qed.
Lemma redirect_earlier g l1 l2 k : okay g -> l0 = l1 ++ l2 -> In k (map f_id l1) -> In (redirect g l0 k) (map f_id l1).
Proof.
  intros G E H. unfold redirect. destruct (g k) eqn:Gk; [|exact H]. destruct (G k Gk) as (n & Hn & <- & Q).
  apply in_map_iff in H. destruct H as (m & Em & H). assert (In m l0) as Hm by (rewrite E; apply in_or_app; now left).
  pose proof (same_id l0 m n (wf_ids _ _ _ W) Hm Hn Em) as ->.
  apply in_split in H. destruct H as (a & b & ->). destruct (input_of n Hn Q) as [A _].
  rewrite map_app. apply in_or_app. left. apply (wf_order _ _ _ W a n (b ++ l2)).
  - rewrite E, <- app_assoc. reflexivity.
  - exists (ANode (input l0 (f_id n))). split; [rewrite A; now left|now left].
Qed.
Lemma lint_view g : okay g -> lint [] (fst (here g)) = true.
Proof.
  intros G. cbn [without fst]. unfold view.
  enough (forall l2 l1 seen, l0 = l1 ++ l2 -> (forall k, In k (map f_id l1) -> g k = false -> In k seen) ->
    lint seen (map (refer (redirect g l0)) (filter (fun n => negb (g (f_id n))) l2)) = true) as Y by (apply (Y l0 [] []); [reflexivity|intros k []]).
  induction l2 as [|n l2 IH]; intros l1 seen E Sn; [reflexivity|]. cbn [filter].
  assert (l0 = (l1 ++ [n]) ++ l2) as E' by (rewrite <- app_assoc; exact E).
  destruct (g (f_id n)) eqn:Z; cbn [negb].
  - apply (IH (l1 ++ [n])); [exact E'|]. intros k H Gk. rewrite map_app in H. apply in_app_iff in H. destruct H as [H|[<-|[]]]; [now apply Sn|congruence].
  - cbn [map lint]. apply andb_true_iff. split.
    + apply forallb_forall. intros k H. apply in_seen. apply uses_refers in H. apply refers_refer in H. destruct H as (j & H & ->).
      apply (wf_order _ _ _ W l1 n l2 j E) in H. apply Sn; [|now apply redirect_kept]. now apply (redirect_earlier g l1 (n :: l2)).
    + apply (IH (l1 ++ [n])); [exact E'|]. intros k H Gk. rewrite map_app in H. apply in_app_iff in H. destruct H as [H|[<-|[]]]; [right; now apply Sn|now left].
Qed.
Lemma finish_view g : okay g -> finish M (here g) = Ok (here g).
Proof. intros G. unfold finish. now rewrite lint_view. Qed.
End Proofs.

(** * What the graph left computes: that of the graph with the deleted quantizers switched off *)
Section Meaning.
Context {V : Type} (call : string -> string -> list (value V) -> list (string * value V) -> V).
Context {M : Type} (is_fq : M -> bool).
Variables (l0 : list fnode) (mods0 : list (string * M)) (gone : nat -> bool).
Hypothesis W : well_formed is_fq l0 mods0.
Hypothesis G : only_quantizers is_fq gone l0 mods0.
Lemma read_refer (e1 e2 : nat -> V) r a : (forall k, (a = ANode k \/ exists l, a = AList l /\ In k l) -> e1 (r k) = e2 k) -> read e1 (refer_arg r a) = read e2 a.
Proof.
  intros H. destruct a as [k|c|l]; cbn; [now rewrite H by now left|reflexivity|]. f_equal. rewrite map_map. apply map_ext_in. intros k K. apply H. right. now exists l.
Qed.
Lemma execute_view env n : In n l0 -> gone (f_id n) = false ->
  execute call (fun _ => false) (view gone l0) env (f_id n) = execute call gone l0 env (f_id n).
Proof.
  enough (forall l2 l1 e1 e2, l0 = l1 ++ l2 -> (forall k, In k (map f_id l1) -> e1 (redirect gone l0 k) = e2 k) ->
    forall k, In k (map f_id l0) -> execute call (fun _ => false) (map (refer (redirect gone l0)) (filter (fun n => negb (gone (f_id n))) l2)) e1 (redirect gone l0 k) = execute call gone l2 e2 k) as Y.
  { intros H Z. specialize (Y l0 [] env env eq_refl (fun k (f : In k []) => match f with end) (f_id n) (in_map f_id _ _ H)). unfold redirect at 2 in Y. rewrite Z in Y. exact Y. }
  induction l2 as [|n2 l2 IH]; intros l1 e1 e2 E I k K.
  - cbn. rewrite app_nil_r in E. subst l1. now apply I.
  - assert (l0 = (l1 ++ [n2]) ++ l2) as E' by (rewrite <- app_assoc; exact E).
    assert (In n2 l0) as H2 by (rewrite E; apply in_elt).
    assert (~ In (f_id n2) (map f_id l1)) as NI.
    { intros J. pose proof (wf_ids _ _ _ W) as N. rewrite E, map_app in N. cbn [map] in N. apply NoDup_remove_2 in N. destruct N. apply in_or_app. now left. }
    cbn [filter]. destruct (gone (f_id n2)) eqn:Z; cbn [negb].
    + change (execute call gone (n2 :: l2) e2) with (execute call gone l2 (fun k => if Nat.eqb k (f_id n2) then result call gone e2 n2 else e2 k)).
      apply (IH (l1 ++ [n2])); [exact E'| |exact K]. intros j J. rewrite map_app in J. apply in_app_iff in J. destruct J as [J|[<-|[]]].
      * destruct (Nat.eqb j (f_id n2)) eqn:Ej; [apply Nat.eqb_eq in Ej; subst j; contradiction|]. now apply I.
      * cbn [f_id]. rewrite Nat.eqb_refl. unfold result. rewrite Z. destruct (G _ Z) as (m & Hm & Em & Q).
        pose proof (same_id l0 m n2 (wf_ids _ _ _ W) Hm H2 Em) as ->. destruct (input_of is_fq l0 mods0 W n2 H2 Q) as [A _]. rewrite A.
        assert (In (input l0 (f_id n2)) (map f_id l1)) as Bf.
        { apply (wf_order _ _ _ W l1 n2 l2); [exact E|]. exists (ANode (input l0 (f_id n2))). split; [rewrite A; now left|now left]. }
        rewrite <- (I _ Bf). f_equal. unfold redirect. rewrite Z. now rewrite (input_kept is_fq l0 mods0 W).
    + cbn [map].
      change (execute call gone (n2 :: l2) e2) with (execute call gone l2 (fun k => if Nat.eqb k (f_id n2) then result call gone e2 n2 else e2 k)).
      change (execute call (fun _ => false) (refer (redirect gone l0) n2 :: map (refer (redirect gone l0)) (filter (fun n => negb (gone (f_id n))) l2)) e1)
        with (execute call (fun _ => false) (map (refer (redirect gone l0)) (filter (fun n => negb (gone (f_id n))) l2)) (fun k => if Nat.eqb k (f_id n2) then result call (fun _ => false) e1 (refer (redirect gone l0) n2) else e1 k)).
      apply (IH (l1 ++ [n2])); [exact E'| |exact K]. intros j J. rewrite map_app in J. apply in_app_iff in J. destruct J as [J|[<-|[]]].
      * assert (Nat.eqb j (f_id n2) = false) as -> by (apply Nat.eqb_neq; intros ->; contradiction).
        assert (Nat.eqb (redirect gone l0 j) (f_id n2) = false) as ->; [|now apply I].
        apply Nat.eqb_neq. intros X. apply NI. rewrite <- X. now apply (redirect_earlier is_fq l0 mods0 W gone l1 (n2 :: l2)).
      * cbn [f_id map]. assert (redirect gone l0 (f_id n2) = f_id n2) as -> by (unfold redirect; now rewrite Z). rewrite Nat.eqb_refl.
        unfold result. rewrite Z. cbn [refer f_op f_target f_args f_kwargs].
        assert (forall a, In a (f_args n2 ++ map snd (f_kwargs n2)) -> read e1 (refer_arg (redirect gone l0) a) = read e2 a) as RA.
        { intros a Ha. apply read_refer. intros j J. apply I. apply (wf_order _ _ _ W l1 n2 l2 j E). now exists a. }
        f_equal.
        -- rewrite map_map. apply map_ext_in. intros a Ha. apply RA. apply in_or_app. now left.
        -- rewrite map_map. apply map_ext_in. intros [s a] Ha. cbn [fst snd]. f_equal. apply RA. apply in_or_app. right. apply in_map_iff. now exists (s, a).
Qed.
End Meaning.

(** * C125: the functions deleting after targets *)
Section After.
Context {M : Type} (is_fq : M -> bool).
Variables (l0 : list fnode) (mods0 : list (string * M)).
Hypothesis W : well_formed is_fq l0 mods0.
Notation quant := (quantizer is_fq mods0).
Notation here g := (without g (l0, mods0)).
Notation okay g := (only_quantizers is_fq g l0 mods0).
Definition chosen (targets : list nat) (k : nat) : bool := match find_node l0 k with Some n => quant n && existsb (Nat.eqb (input l0 k)) targets | None => false end.
Lemma chosen_okay g targets ids : okay g -> okay (fun k => g k || existsb (Nat.eqb k) ids && chosen targets k).
Proof.
  intros G i H. apply orb_true_iff in H. destruct H as [H|H]; [now apply G|]. apply andb_true_iff in H. destruct H as [_ H]. unfold chosen in H.
  destruct (find_node l0 i) as [n|] eqn:F; [|discriminate]. apply find_in in F. destruct F as [F1 F2]. apply andb_true_iff in H. exists n. tauto.
Qed.
Lemma after_loop_view targets : forall ids g, okay g -> NoDup ids -> (forall i, In i ids -> In i (map f_id l0)) -> (forall i, In i ids -> g i = false) ->
  after_loop M is_fq targets ids (here g) = Ok (here (fun k => g k || existsb (Nat.eqb k) ids && chosen targets k)).
Proof.
  induction ids as [|i ids IH]; intros g G N I Z.
  - cbn [after_loop existsb]. f_equal. apply view_ext. intros k. cbn. now rewrite orb_false_r.
  - apply NoDup_cons_iff in N. destruct N as [N1 N2]. cbn [after_loop]. rewrite find_view by assumption. rewrite (Z i (or_introl eq_refl)).
    specialize (I i (or_introl eq_refl)) as Ii. apply in_map_iff in Ii. destruct Ii as (n & <- & H). pose proof (find_nodup l0 n (wf_ids _ _ _ W) H) as F. rewrite F. cbn [option_map].
    rewrite fq_same, left_quant; try assumption; [|apply Z; now left].
    assert (chosen targets (f_id n) = (quant n && existsb (Nat.eqb (input l0 (f_id n))) targets)%bool) as C by (unfold chosen; now rewrite F).
    assert (forall b, chosen targets (f_id n) = b -> (forall k, (if b then add (f_id n) g k else g k) || existsb (Nat.eqb k) ids && chosen targets k = (g k || existsb (Nat.eqb k) (f_id n :: ids) && chosen targets k))%bool) as T.
    { intros b B k. cbn [existsb]. unfold add. destruct (Nat.eqb k (f_id n)) eqn:Ek; [apply Nat.eqb_eq in Ek; subst k; rewrite B|].
      - destruct b, (g (f_id n)), (existsb (Nat.eqb (f_id n)) ids); reflexivity.
      - now destruct b. }
    assert (forall i, In i ids -> In i (map f_id l0)) as I' by (intros; apply I; now right).
    destruct (quant n) eqn:Q.
    + destruct (input_of is_fq l0 mods0 W n H Q) as [A _]. cbn [refer f_args]. rewrite A. cbn [map length Nat.eqb assert_ bind refer_arg].
      assert (redirect g l0 (input l0 (f_id n)) = input l0 (f_id n)) as -> by (unfold redirect; now rewrite (input_kept is_fq l0 mods0 W)).
      cbn [andb] in C. destruct (existsb (Nat.eqb (input l0 (f_id n))) targets) eqn:X.
      * rewrite (erase_step is_fq l0 mods0 W g n G H Q (Z _ (or_introl eq_refl))). cbn [bind].
        rewrite IH; [|now apply add_okay|exact N2|exact I'|].
        -- f_equal. apply view_ext. exact (T true C).
        -- intros j J. unfold add. rewrite (Z j (or_intror J)). destruct (Nat.eqb j (f_id n)) eqn:E; [|reflexivity]. apply Nat.eqb_eq in E. now subst j.
      * rewrite IH; [|exact G|exact N2|exact I'|intros; apply Z; now right]. f_equal. apply view_ext. exact (T false C).
    + cbn [andb] in C. rewrite IH; [|exact G|exact N2|exact I'|intros; apply Z; now right]. f_equal. apply view_ext. exact (T false C).
Qed.
Lemma del_after_view select :
  exists gone, (forall i, gone i = true <-> exists n t, In n l0 /\ f_id n = i /\ quant n = true /\ In t l0 /\ select mods0 t = true /\ f_args n = [ANode (f_id t)]) /\
    del_after M is_fq select (l0, mods0) = Ok (without gone (l0, mods0)).
Proof.
  set (targets := map f_id (filter (select mods0) l0)).
  exists (fun k => existsb (Nat.eqb k) (map f_id l0) && chosen targets k)%bool. split.
  - intros i. rewrite andb_true_iff, in_seen. unfold chosen. split.
    + intros [_ H]. destruct (find_node l0 i) as [n|] eqn:F; [|discriminate]. apply find_in in F. destruct F as [F <-].
      apply andb_true_iff in H. destruct H as [Q H]. apply in_seen in H. apply in_map_iff in H. destruct H as (t & E & H). apply filter_In in H.
      destruct (input_of is_fq l0 mods0 W n F Q) as [A _]. exists n, t. rewrite E. tauto.
    + intros (n & t & H & <- & Q & Ht & St & A). rewrite (find_nodup l0 n (wf_ids _ _ _ W) H), Q. split; [now apply in_map|].
      destruct (input_of is_fq l0 mods0 W n H Q) as [A' _]. rewrite A in A'. injection A' as A'. rewrite <- A'. apply in_seen. apply in_map. now apply filter_In.
  - unfold del_after. cbn [fst snd]. fold targets. rewrite <- (view_none l0 mods0) at 1.
    rewrite after_loop_view; [|intros i X; discriminate|apply (wf_ids _ _ _ W)|auto|auto]. cbn [bind]. rewrite (finish_view is_fq l0 mods0 W); [reflexivity|].
    apply chosen_okay. intros i X. discriminate.
Qed.
End After.

(** A quantizer goes exactly if the node it quantizes is a target; all others stay, and who used
    a quantizer that goes uses the target itself. *)
Theorem C125_op_partial : forall (M : Type) (is_fq : M -> bool) ops l mods, well_formed is_fq l mods ->
  exists gone, (forall i, gone i = true <-> exists n t, In n l /\ f_id n = i /\ quantizer is_fq mods n = true /\ f_args n = [ANode (f_id t)] /\ In t l /\ In (f_op t) ops) /\
    del_fakequant_after_op M is_fq ops (l, mods) = Ok (without gone (l, mods)).
Proof.
  intros M is_fq ops l mods W. destruct (del_after_view is_fq l mods W (fun _ n => mem (f_op n) ops)) as (g & G & E). exists g. split; [|exact E].
  intros i. rewrite G. split; intros (n & t & H); exists n, t; [rewrite mem_in in H|rewrite mem_in]; tauto.
Qed.
Theorem C125_method_partial : forall (M : Type) (is_fq : M -> bool) patterns l mods, well_formed is_fq l mods ->
  exists gone, (forall i, gone i = true <-> exists n t, In n l /\ f_id n = i /\ quantizer is_fq mods n = true /\ f_args n = [ANode (f_id t)] /\ In t l /\ f_op t = "call_method" /\ In (f_target t) patterns) /\
    del_fakequant_after_method M is_fq patterns (l, mods) = Ok (without gone (l, mods)).
Proof.
  intros M is_fq ops l mods W. destruct (del_after_view is_fq l mods W (fun _ n => String.eqb (f_op n) "call_method" && mem (f_target n) ops)%bool) as (g & G & E). exists g. split; [|exact E].
  intros i. rewrite G. split; intros (n & t & H); exists n, t; [rewrite andb_true_iff, String.eqb_eq, mem_in in H|rewrite andb_true_iff, String.eqb_eq, mem_in]; tauto.
Qed.
Theorem C125_function_partial : forall (M : Type) (is_fq : M -> bool) patterns l mods, well_formed is_fq l mods ->
  exists gone, (forall i, gone i = true <-> exists n t, In n l /\ f_id n = i /\ quantizer is_fq mods n = true /\ f_args n = [ANode (f_id t)] /\ In t l /\ f_op t = "call_function" /\ In (f_target t) patterns) /\
    del_fakequant_after_function M is_fq patterns (l, mods) = Ok (without gone (l, mods)).
Proof.
  intros M is_fq ops l mods W. destruct (del_after_view is_fq l mods W (fun _ n => String.eqb (f_op n) "call_function" && mem (f_target n) ops)%bool) as (g & G & E). exists g. split; [|exact E].
  intros i. rewrite G. split; intros (n & t & H); exists n, t; [rewrite andb_true_iff, String.eqb_eq, mem_in in H|rewrite andb_true_iff, String.eqb_eq, mem_in]; tauto.
Qed.
Lemma pattern_iff {M : Type} (pat : M -> bool) mods t : pattern_module M pat mods t = true <-> f_op t = "call_module" /\ exists x, get mods (f_target t) = Some x /\ pat x = true.
Proof.
  unfold pattern_module, module_of. destruct (String.eqb (f_op t) "call_module") eqn:E.
  - apply String.eqb_eq in E. destruct (get mods (f_target t)) as [x|]; split.
    + intros H. eauto.
    + intros (_ & y & X & Y). injection X as ->. exact Y.
    + discriminate.
    + intros (_ & y & X & Y). discriminate.
  - apply String.eqb_neq in E. split; [discriminate|tauto].
Qed.
Theorem C125_module_partial : forall (M : Type) (is_fq pat : M -> bool) l mods, well_formed is_fq l mods ->
  exists gone, (forall i, gone i = true <-> exists n t x, In n l /\ f_id n = i /\ quantizer is_fq mods n = true /\ f_args n = [ANode (f_id t)] /\ In t l /\ f_op t = "call_module" /\ get mods (f_target t) = Some x /\ pat x = true) /\
    del_fakequant_after_module M is_fq pat (l, mods) = Ok (without gone (l, mods)).
Proof.
  intros M is_fq pat l mods W. destruct (del_after_view is_fq l mods W (pattern_module M pat)) as (g & G & E). exists g. split; [|exact E].
  intros i. rewrite G. split.
  - intros (n & t & H). rewrite pattern_iff in H. destruct H as (H1 & H2 & H3 & H4 & (H5 & x & H6) & H7). exists n, t, x. tauto.
  - intros (n & t & x & H). exists n, t. rewrite pattern_iff. firstorder.
Qed.
(** A graph without some of its quantizers computes what the graph computes with them switched off. *)
Theorem C125_meaning_partial : forall (V : Type) (call : string -> string -> list (value V) -> list (string * value V) -> V) (M : Type) (is_fq : M -> bool) l mods gone,
  well_formed is_fq l mods -> only_quantizers is_fq gone l mods ->
  forall env n, In n l -> gone (f_id n) = false -> execute call (fun _ => false) (fst (without gone (l, mods))) env (f_id n) = execute call gone l env (f_id n).
Proof. intros V call M is_fq l mods gone W G env n. exact (execute_view call is_fq l mods gone W G env n). Qed.

(** ** A network with a pooling, a flatten and a head *)
Definition fnd (i : nat) (op target : string) (a : list farg) : fnode := {| f_id := i; f_op := op; f_target := target; f_args := a; f_kwargs := [] |}.
Definition net : list fnode :=
  [fnd 0 "placeholder" "x" []; fnd 1 "call_module" "conv" [ANode 0]; fnd 2 "call_module" "aq0" [ANode 1]; fnd 3 "call_module" "pool" [ANode 2]; fnd 4 "call_module" "aq1" [ANode 3];
   fnd 5 "call_method" "flatten" [ANode 4; AConst 1]; fnd 6 "call_module" "aq2" [ANode 5]; fnd 7 "call_module" "fc" [ANode 6]; fnd 8 "call_module" "aq3" [ANode 7]; fnd 9 "output" "output" [ANode 8]].
(** Modules are known by their types. *)
Definition is_quantizer (x : string) : bool := String.eqb x "FakeQuantize".
Definition net_modules : list (string * string) :=
  [("conv", "Conv2d"); ("aq0", "FakeQuantize"); ("pool", "MaxPool2d"); ("aq1", "FakeQuantize"); ("fc", "Linear"); ("aq2", "FakeQuantize"); ("aq3", "FakeQuantize")].
(** Checking [well_formed] by computation. *)
Fixpoint ordered (seen : list nat) (l : list fnode) : bool := match l with [] => true | n :: r => forallb (fun k => existsb (Nat.eqb k) seen) (uses_of n) && negb (existsb (Nat.eqb (f_id n)) seen) && ordered (f_id n :: seen) r end.
Definition check_fq {M : Type} (is_fq : M -> bool) (mods : list (string * M)) (l : list fnode) : bool :=
  forallb (fun n => negb (quantizer is_fq mods n) ||
    (match f_args n with [ANode j] => forallb (fun m => negb (Nat.eqb (f_id m) j) || negb (quantizer is_fq mods m)) l | _ => false end
     && negb (contains "." (f_target n))
     && forallb (fun m => negb (quantizer is_fq mods m) || negb (String.eqb (f_target n) (f_target m)) || Nat.eqb (f_id n) (f_id m)) l)) l.
Lemma ordered_spec : forall l seen, ordered seen l = true -> NoDup (map f_id l) /\ (forall i, In i (map f_id l) -> ~ In i seen) /\
  forall l1 n l2 k, l = l1 ++ n :: l2 -> refers n k -> In k (map f_id l1) \/ In k seen.
Proof.
  induction l as [|m l IH]; intros seen H.
  - split; [constructor|]. split; [intros i []|]. intros l1 n l2 k E. now destruct l1.
  - cbn [ordered] in H. apply andb_true_iff in H. destruct H as [H H3]. apply andb_true_iff in H. destruct H as [H1 H2]. destruct (IH _ H3) as (A & B & C).
    split; [|split].
    + cbn. constructor; [|exact A]. intros X. apply (B _ X). now left.
    + intros i [<-|X]; [intros Y; apply in_seen in Y; now rewrite Y in H2|]. intros Y. apply (B _ X). now right.
    + intros [|a l1] n l2 k E Rk; injection E as E1 E2.
      * subst m. right. apply in_seen. apply uses_refers in Rk. rewrite forallb_forall in H1. now apply H1.
      * subst a. destruct (C l1 n l2 k E2 Rk) as [X|[<-|X]]; [left; now right|left; now left|now right].
Qed.
Lemma well_formed_by {M : Type} (is_fq : M -> bool) mods l : ordered [] l = true -> check_fq is_fq mods l = true -> well_formed is_fq l mods.
Proof.
  intros H1 H2. destruct (ordered_spec l [] H1) as (A & _ & C). unfold check_fq in H2. rewrite forallb_forall in H2.
  assert (forall n, In n l -> quantizer is_fq mods n = true -> exists j, f_args n = [ANode j] /\ (forall m, In m l -> f_id m = j -> quantizer is_fq mods m = false) /\
    contains "." (f_target n) = false /\ (forall m, In m l -> quantizer is_fq mods m = true -> f_target n = f_target m -> f_id n = f_id m)) as K.
  { intros n H Q. specialize (H2 n H). rewrite Q in H2. cbn [negb orb] in H2. apply andb_true_iff in H2. destruct H2 as [H2 H5]. apply andb_true_iff in H2. destruct H2 as [H2 H4].
    destruct (f_args n) as [|[j|c|x] [|b r]]; try discriminate. exists j. split; [reflexivity|]. rewrite forallb_forall in H2, H5. split; [|split].
    - intros m Hm E. specialize (H2 m Hm). rewrite E, Nat.eqb_refl in H2. cbn in H2. now apply negb_true_iff in H2.
    - now apply negb_true_iff in H4.
    - intros m Hm Qm E. specialize (H5 m Hm). rewrite Qm, E, String.eqb_refl in H5. cbn in H5. now apply Nat.eqb_eq in H5. }
  constructor.
  - exact A.
  - intros l1 n l2 k E Rk. destruct (C l1 n l2 k E Rk) as [X|[]]. exact X.
  - intros n H Q. destruct (K n H Q) as (j & E & J & _). eauto.
  - intros n m Hn Hm Qn Qm E. destruct (K n Hn Qn) as (j & _ & _ & _ & J). now apply J.
  - intros n H Q. destruct (K n H Q) as (j & _ & _ & J & _). exact J.
Qed.
Example C125_net_ok : well_formed is_quantizer net net_modules.
Proof. apply well_formed_by; vm_compute; reflexivity. Qed.
Definition summary (o : outcome (fstate string)) : outcome (list (nat * list farg) * list string) :=
  match o with Ok s => Ok (map (fun n => (f_id n, f_args n)) (fst s), map fst (snd s)) | Raise e => Raise e end.
Example C125_module_example : summary (del_fakequant_after_module string is_quantizer (String.eqb "MaxPool2d") (net, net_modules)) =
  Ok ([(0, []); (1, [ANode 0]); (2, [ANode 1]); (3, [ANode 2]); (5, [ANode 3; AConst 1]); (6, [ANode 5]); (7, [ANode 6]); (8, [ANode 7]); (9, [ANode 8])], ["conv"; "aq0"; "pool"; "fc"; "aq2"; "aq3"]).
Proof. reflexivity. Qed.
Example C125_method_example : summary (del_fakequant_after_method string is_quantizer ["flatten"] (net, net_modules)) =
  Ok ([(0, []); (1, [ANode 0]); (2, [ANode 1]); (3, [ANode 2]); (4, [ANode 3]); (5, [ANode 4; AConst 1]); (7, [ANode 5]); (8, [ANode 7]); (9, [ANode 8])], ["conv"; "aq0"; "pool"; "aq1"; "fc"; "aq3"]).
Proof. reflexivity. Qed.
Example C125_op_example : summary (del_fakequant_after_op string is_quantizer ["call_method"; "call_function"] (net, net_modules)) = summary (del_fakequant_after_method string is_quantizer ["flatten"] (net, net_modules)).
Proof. reflexivity. Qed.
(** [q(x + y)] *)
Definition sum_net : list fnode := [fnd 0 "placeholder" "x" []; fnd 1 "placeholder" "y" []; fnd 2 "call_function" "add" [ANode 0; ANode 1]; fnd 3 "call_module" "aq0" [ANode 2]; fnd 4 "output" "output" [AList [3; 2]]].
Example C125_function_example : well_formed is_quantizer sum_net [("aq0", "FakeQuantize")] /\
  summary (del_fakequant_after_function string is_quantizer ["add"] (sum_net, [("aq0", "FakeQuantize")])) = Ok ([(0, []); (1, []); (2, [ANode 0; ANode 1]); (4, [AList [2; 2]])], []).
Proof. split; [apply well_formed_by; vm_compute; reflexivity|reflexivity]. Qed.
(** Modules write down their names. *)
Definition trace_call (op target : string) (a : list (value string)) (k : list (string * value string)) : string :=
  String.append target (String.concat "" (map (fun v => match v with VOne x => String.append "<" (String.append x ">") | _ => "" end) a)).
Example C125_meaning_example : well_formed is_quantizer net net_modules /\ only_quantizers is_quantizer (Nat.eqb 4) net net_modules /\
  execute trace_call (fun _ => false) net (fun _ => "") 9 = "output<aq3<fc<aq2<flatten<aq1<pool<aq0<conv<x>>>>>>>>>" /\
  execute trace_call (fun _ => false) (view (Nat.eqb 4) net) (fun _ => "") 9 = "output<aq3<fc<aq2<flatten<pool<aq0<conv<x>>>>>>>>" /\
  execute trace_call (Nat.eqb 4) net (fun _ => "") 9 = "output<aq3<fc<aq2<flatten<pool<aq0<conv<x>>>>>>>>".
Proof.
  split; [apply C125_net_ok|]. split; [|split; [|split]; vm_compute; reflexivity].
  intros i H. apply Nat.eqb_eq in H. subst i. exists (fnd 4 "call_module" "aq1" [ANode 3]). repeat split. vm_compute. tauto.
Qed.

(** Claimed for any graph in order whose quantizers have one input: what is left calls only modules
    that are left. It fails if two nodes call the same quantizer: the module goes with the first. *)
Definition C125_claim : Prop := forall (is_fq pat : string -> bool) l mods s,
  NoDup (map f_id l) -> (forall l1 n l2 k, l = l1 ++ n :: l2 -> refers n k -> In k (map f_id l1)) ->
  (forall n, In n l -> quantizer is_fq mods n = true -> exists j, f_args n = [ANode j]) ->
  (forall n, In n l -> f_op n = "call_module" -> get mods (f_target n) <> None) ->
  del_fakequant_after_module string is_fq pat (l, mods) = Ok s -> forall n, In n (fst s) -> f_op n = "call_module" -> get (snd s) (f_target n) <> None.
Definition shared_net : list fnode := [fnd 0 "placeholder" "x" []; fnd 1 "call_module" "aq0" [ANode 0]; fnd 2 "call_module" "pool" [ANode 1]; fnd 3 "call_module" "aq0" [ANode 2]; fnd 4 "output" "output" [ANode 3]].
Theorem C125_shared_refuted : ~ C125_claim.
Proof.
  intros H. assert (ordered [] shared_net = true) as O by reflexivity. destruct (ordered_spec shared_net [] O) as (A & _ & C).
  specialize (H is_quantizer (String.eqb "MaxPool2d") shared_net [("aq0", "FakeQuantize"); ("pool", "MaxPool2d")]
    ([fnd 0 "placeholder" "x" []; fnd 1 "call_module" "aq0" [ANode 0]; fnd 2 "call_module" "pool" [ANode 1]; fnd 4 "output" "output" [ANode 2]], [("pool", "MaxPool2d")]) A).
  refine (H _ _ _ eq_refl (fnd 1 "call_module" "aq0" [ANode 0]) _ eq_refl eq_refl).
  - intros l1 n l2 k E Rk. destruct (C l1 n l2 k E Rk) as [X|[]]. exact X.
  - intros n Hn Q. cbn in Hn. destruct Hn as [<-|[<-|[<-|[<-|[<-|[]]]]]]; try discriminate Q; cbn; eauto.
  - intros n Hn Q. cbn in Hn. destruct Hn as [<-|[<-|[<-|[<-|[<-|[]]]]]]; try discriminate Q; discriminate.
  - vm_compute. tauto.
Qed.
Print Assumptions C125_op_partial.
Print Assumptions C125_method_partial.
Print Assumptions C125_function_partial.
Print Assumptions C125_module_partial.
Print Assumptions C125_meaning_partial.
Print Assumptions C125_shared_refuted.
