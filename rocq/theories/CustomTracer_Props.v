(** The tracer of the quantizers: which methods it skips (C192), classes and methods named by strings (C193), the stand-ins for modules with skipped
    methods (C194) and the copies of modules that are used more than once (C195). *)
From Coq Require Import String Ascii DecimalString.
From Verif Require Import Prelude Onnx_Model Onnx_Lemmas Engine_Model CustomTracer_Model.
Local Open Scope string_scope.
Local Open Scope list_scope.
Local Open Scope nat_scope.

(** ** C192 *)
(** *** Specification *)
(** The methods a list of names stands for, up to the first that cannot be found. *)
Fixpoint registered {C} (find : string -> outcome (string * C)) (l : list string) : list (string * C) :=
  match l with [] => [] | s :: r => match find s with Ok mc => mc :: registered find r | Raise _ => [] end end.
(** The class given last for a method name. *)
Definition last_class {C} (name : string) (l : list (string * C)) : option C :=
  option_map snd (List.find (fun mc => String.eqb (fst mc) name) (rev l)).

(** *** Lemmas *)
Section R.
Context {C : Type}.
Variable fc : string -> string -> found C.
Variable hm : C -> string -> bool.
Lemma last_class_app name (a b : list (string * C)) : last_class name (a ++ b) = match last_class name b with Some c => Some c | None => last_class name a end.
Proof.
  unfold last_class. rewrite rev_app_distr. induction (rev b) as [|x r IH]; cbn [app List.find]; [destruct (option_map snd _); reflexivity|].
  destruct (String.eqb (fst x) name); [reflexivity|exact IH].
Qed.
Lemma last_class_one name (mc : string * C) : last_class name [mc] = if String.eqb (fst mc) name then Some (snd mc) else None.
Proof. unfold last_class. cbn. destruct (String.eqb (fst mc) name); reflexivity. Qed.
Lemma register_get name : forall l d, get (snd (register fc hm l d)) name = match last_class name (registered (find_method fc hm) l) with Some c => Some c | None => get d name end.
Proof.
  induction l as [|s l IH]; intros d; cbn [register registered]; [reflexivity|]. destruct (find_method fc hm s) as [mc|e]; cbn [snd]; [|reflexivity].
  rewrite IH, get_put. change (mc :: registered (find_method fc hm) l) with ([mc] ++ registered (find_method fc hm) l). rewrite last_class_app, last_class_one.
  destruct (last_class name (registered (find_method fc hm) l)); [reflexivity|]. destruct (String.eqb (fst mc) name); reflexivity.
Qed.
Lemma register_ok : forall l d, fst (register fc hm l d) = Ok tt <-> forall s, In s l -> exists mc, find_method fc hm s = Ok mc.
Proof.
  induction l as [|s l IH]; intros d; cbn [register fst]; [split; [intros _ s []|reflexivity]|]. destruct (find_method fc hm s) as [mc|e] eqn:E; cbn [fst].
  - rewrite IH. split; [intros H x [<-|X]; eauto|intros H x X; apply H; right; exact X].
  - split; [discriminate|]. intros H. destruct (H s (or_introl eq_refl)) as [mc X]. congruence.
Qed.
Lemma registered_in l mc : (forall s, In s l -> exists mc, find_method fc hm s = Ok mc) -> (In mc (registered (find_method fc hm) l) <-> exists s, In s l /\ find_method fc hm s = Ok mc).
Proof.
  induction l as [|s l IH]; intros H; cbn [registered]; [split; [intros []|intros (s & [] & _)]|].
  destruct (H s (or_introl eq_refl)) as [x X]. rewrite X. cbn [In]. rewrite IH by (intros y Y; apply H; right; exact Y). split.
  - intros [<-|(y & Y & Z)]; [exists s; auto|exists y; auto].
  - intros (y & [<-|Y] & Z); [left; congruence|right; exists y; auto].
Qed.
Lemma last_class_in name l (c : C) : last_class name l = Some c -> In (name, c) l.
Proof.
  unfold last_class. destruct (List.find _ (rev l)) as [[x y]|] eqn:F; [|discriminate]. cbn. intros H. injection H as <-. apply find_some in F as [F1 F2]. cbn in F2.
  apply String.eqb_eq in F2. subst x. apply in_rev. exact F1.
Qed.
Lemma last_class_some name l (c : C) : In (name, c) l -> exists c', last_class name l = Some c'.
Proof.
  intros H. unfold last_class. destruct (List.find _ (rev l)) as [x|] eqn:F; [eexists; reflexivity|].
  pose proof (find_none _ _ F (name, c) (proj1 (in_rev _ _) H)) as X. cbn in X. rewrite String.eqb_refl in X. discriminate X.
Qed.
End R.

(** *** Theorems *)
(** Whatever tracers have been constructed, and whether or not that failed: what is patched while any of them traces is, for each method name,
    the class that was given last for it, and calls are put into the graph of the tracer constructed last. *)
Theorem C192_registry : forall C (fc : string -> string -> found C) hm l name,
  get (patched (run_tracers fc hm l empty_registry)) name = last_class name (flat_map (fun t => registered (find_method fc hm) (snd t)) l) /\
  records_in (run_tracers fc hm l empty_registry) = option_map fst (hd_error (rev l)).
Proof.
  intros C fc hm l name. unfold patched, records_in. induction l as [|[k s] l IH] using rev_ind; [split; reflexivity|]. destruct IH as [IH _].
  unfold run_tracers in *. rewrite fold_left_app. set (g := fold_left _ l empty_registry) in *. clearbody g. cbn [fold_left fst snd]. unfold new_tracer. cbn [snd g_methods g_tracer]. rewrite rev_app_distr. cbn. split; [|reflexivity].
  rewrite register_get, flat_map_app, last_class_app. cbn [flat_map snd]. rewrite app_nil_r, IH. reflexivity.
Qed.
(** A tracer that could be constructed skips the methods it was given and no others, in its own graph. *)
Definition skips_its_own {C} (fc : string -> string -> found C) hm (before after : list (nat * list string)) (k : nat) (skipped : list string) : Prop :=
  fst (new_tracer fc hm k skipped (run_tracers fc hm before empty_registry)) = Ok tt ->
  let g := run_tracers fc hm (before ++ (k, skipped) :: after) empty_registry in
  records_in g = Some k /\ forall name c, get (patched g) name = Some c <-> exists s, In s skipped /\ find_method fc hm s = Ok (name, c).
Definition C192_claim : Prop := forall C (fc : string -> string -> found C) hm before after k skipped, skips_its_own fc hm before after k skipped.
(** Classes 0 and 1 in a module m; every class has every method. *)
Definition two (m n : string) : found nat := if String.eqb m "m" then if String.eqb n "A" then IsClass 0 else if String.eqb n "B" then IsClass 1 else NoAttr else NoModule.
Definition every (c : nat) (n : string) : bool := true.
(** Of two methods of the same name only the last is skipped. *)
Theorem C192_name_refuted : ~ (forall C (fc : string -> string -> found C) hm k skipped, skips_its_own fc hm [] [] k skipped).
Proof.
  intros H. destruct (H nat two every 0 ["m.A.f"; "m.B.f"] eq_refl) as [_ X]. destruct (X "f" 0) as [_ Y].
  assert (Z : get (patched (run_tracers two every ([] ++ [(0, ["m.A.f"; "m.B.f"])]) empty_registry)) "f" = Some 0) by (apply Y; exists "m.A.f"; split; [left; reflexivity|reflexivity]).
  vm_compute in Z. discriminate Z.
Qed.
(** What earlier tracers skip is skipped by later ones. *)
Theorem C192_leak_refuted : ~ (forall C (fc : string -> string -> found C) hm before k skipped, skips_its_own fc hm before [] k skipped).
Proof.
  intros H. destruct (H nat two every [(0, ["m.A.f"])] 1 [] eq_refl) as [_ X]. destruct (X "f" 0) as [Y _]. destruct (Y eq_refl) as (s & [] & _).
Qed.
(** Constructing another tracer redirects the calls. *)
Theorem C192_other_refuted : ~ C192_claim.
Proof. intros H. destruct (H nat two every [] [(1, ["m.A.f"])] 0 ["m.A.f"] eq_refl) as [X _]. vm_compute in X. discriminate X. Qed.
(** Proved for a single tracer whose methods have different names. *)
Theorem C192_single_partial : forall C (fc : string -> string -> found C) hm k skipped,
  (forall s s' n c c', In s skipped -> In s' skipped -> find_method fc hm s = Ok (n, c) -> find_method fc hm s' = Ok (n, c') -> c = c') ->
  skips_its_own fc hm [] [] k skipped.
Proof.
  intros C fc hm k skipped D OK. cbn [app]. unfold run_tracers, new_tracer in OK. cbn [fst fold_left] in OK. pose proof (proj1 (register_ok fc hm skipped _) OK) as OK1. clear OK. rename OK1 into OK. cbn zeta.
  destruct (C192_registry C fc hm [(k, skipped)] "") as [_ R0]. split; [exact R0|]. intros name c.
  destruct (C192_registry C fc hm [(k, skipped)] name) as [G _]. change (flat_map (fun t => registered (find_method fc hm) (snd t)) [(k, skipped)]) with (registered (find_method fc hm) skipped ++ []) in G. rewrite app_nil_r in G. rewrite G. split.
  - intros H. apply last_class_in in H. apply registered_in in H; [exact H|exact OK].
  - intros (s & S1 & S2). assert (I0 : In (name, c) (registered (find_method fc hm) skipped)) by (apply registered_in; [exact OK|eauto]).
    destruct (last_class_some _ _ _ I0) as [c' L]. rewrite L. f_equal. apply last_class_in in L. apply registered_in in L; [|exact OK]. destruct L as (s' & S1' & S2'). exact (D s' s name c' c S1' S1 S2' S2).
Qed.
Example C192_example : fst (new_tracer two every 3 ["m.A.f"; "m.B.g"] empty_registry) = Ok tt /\
  patched (run_tracers two every [(3, ["m.A.f"; "m.B.g"])] empty_registry) = [("f", 0); ("g", 1)] /\
  patched (run_tracers two every [(3, ["m.A.f"; "n.B.g"; "m.B.h"]); (4, ["m.B.f"])] empty_registry) = [("f", 1)].
Proof. repeat split. Qed.

(** ** C193 *)
(** Names without dots. *)
Definition plain_name (s : string) : Prop := forall c, In c (list_ascii_of_string s) -> c <> "."%char.
Lemma split_plain s : plain_name s -> split "."%char s = [s].
Proof.
  induction s as [|c s IH]; intros P; cbn [split]; [reflexivity|]. destruct (Ascii.eqb_spec c "."%char) as [->|N]; [contradiction (P "."%char); [left; reflexivity|reflexivity]|].
  rewrite IH; [reflexivity|]. intros x X. apply P. right; exact X.
Qed.
Lemma split_nonempty s : split "."%char s <> [].
Proof. destruct s as [|c s]; cbn; [discriminate|]. destruct (Ascii.eqb _ _); [discriminate|]. destruct (split _ s); discriminate. Qed.
Lemma split_app a b : split "."%char (a ++ "." ++ b)%string = split "."%char a ++ split "."%char b.
Proof.
  induction a as [|c a IH]; [reflexivity|]. change ((String c a ++ "." ++ b)%string) with (String c (a ++ "." ++ b)%string). cbn [split].
  destruct (Ascii.eqb c "."%char); [rewrite IH; reflexivity|]. rewrite IH. destruct (split "."%char a) eqn:E; [|reflexivity].
  contradiction (split_nonempty a E).
Qed.
Lemma concat_split s : String.concat "." (split "."%char s) = s.
Proof.
  induction s as [|c s IH]; cbn [split]; [reflexivity|]. pose proof (split_nonempty s) as N. destruct (Ascii.eqb_spec c "."%char) as [->|D].
  - destruct (split "."%char s) as [|h t] eqn:E; [contradiction N; reflexivity|]. change (String.concat "." ("" :: h :: t)) with ("" ++ "." ++ String.concat "." (h :: t))%string. rewrite IH. reflexivity.
  - destruct (split "."%char s) as [|h t] eqn:E; [contradiction N; reflexivity|]. destruct t as [|h' t]; cbn in IH |- *; rewrite <- IH; reflexivity.
Qed.
Lemma removelast_snoc {X} (l : list X) x : removelast (l ++ [x]) = l.
Proof. apply removelast_last. Qed.
(** A class is looked up in the module before the last dot; names without a dot are refused. *)
Theorem C193_class : forall C (fc : string -> string -> found C),
  (forall m n, plain_name n -> str2class fc (m ++ "." ++ n)%string = match fc m n with NoModule => Raise GenericException | NoAttr => Raise AttributeError | NotType => Raise TypeError | IsClass c => Ok c end) /\
  (forall s, plain_name s -> str2class fc s = Raise AssertionError).
Proof.
  intros C fc. split.
  - intros m n P. unfold str2class. rewrite split_app, (split_plain n P). rewrite removelast_last, last_last, concat_split.
    destruct (Nat.ltb_spec 1 (length (split "."%char m ++ [n]))) as [L|L]; [reflexivity|]. rewrite app_length in L. cbn in L. pose proof (split_nonempty m). destruct (split "."%char m); [congruence|cbn in L; lia].
  - intros s P. unfold str2class. rewrite split_plain by exact P. reflexivity.
Qed.
(** A skipped method with at least one dot, which is all that is checked, is looked up in a class or module. *)
Definition C193_claim : Prop := forall C (fc : string -> string -> found C) hm a n c, plain_name n -> plain_name a -> (forall m, fc m a = IsClass c) -> hm c n = true ->
  find_method fc hm (a ++ "." ++ n)%string = Ok (n, c).
Theorem C193_short_refuted : ~ C193_claim.
Proof.
  intros H. specialize (H nat (fun _ _ => IsClass 0) (fun _ _ => true) "A" "f" 0). vm_compute in H.
  enough (X : (@Raise (string * nat) AttributeError) = Ok ("f", 0)) by discriminate X. apply H; try reflexivity; intros c [<-|[]]; discriminate.
Qed.
(** Proved with two dots or more: the method must exist on the class found. *)
Theorem C193_method_partial : forall C (fc : string -> string -> found C) hm m a n, plain_name n -> plain_name a ->
  find_method fc hm (m ++ "." ++ a ++ "." ++ n)%string = match fc m a with
    | NoModule => Raise GenericException | NoAttr => Raise AttributeError | NotType => Raise TypeError
    | IsClass c => if hm c n then Ok (n, c) else Raise AssertionError end.
Proof.
  intros C fc hm m a n P Q. unfold find_method. rewrite !split_app, (split_plain n P), (split_plain a Q). rewrite app_assoc, removelast_last, !last_last, removelast_last, concat_split.
  destruct (Nat.ltb_spec 1 (length ((split "."%char m ++ [a]) ++ [n]))) as [L|L]; [|rewrite !app_length in L; cbn in L; lia]. cbn [assert_ bind].
  destruct (split "."%char m) eqn:E; [contradiction (split_nonempty m E)|]. unfold import_class. destruct (fc m a); cbn [bind]; try reflexivity. destruct (hm c n); reflexivity.
Qed.
Example C193_example : str2class two "m.A" = Ok 0 /\ str2class two "m.C" = Raise AttributeError /\ str2class two "A" = Raise AssertionError /\
  find_method two every "m.B.f" = Ok ("f", 1) /\ find_method two every "B.f" = Raise AttributeError /\ str2classes two ["m.A"; "m.B"] = Ok [0; 1].
Proof. repeat split. Qed.

Print Assumptions C192_registry.
Print Assumptions C192_name_refuted.
Print Assumptions C192_leak_refuted.
Print Assumptions C192_other_refuted.
Print Assumptions C192_single_partial.
Print Assumptions C193_class.
Print Assumptions C193_short_refuted.
Print Assumptions C193_method_partial.
