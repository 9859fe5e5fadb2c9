(** C221: what a call of a wrapped function does.  C222: what tracing a model records. *)
From Coq Require Import String Ascii.
From Verif Require Import Prelude FxTrace_Model.
Local Open Scope string_scope.
Local Open Scope list_scope.

(** ** C221 *)
(** The state a function called [name] starts in: one call more. *)
Definition entered (name : string) (s : tstate) : tstate := {| t_graph := t_graph s; t_calls := t_calls s ++ [name] |}.
Definition node (op name : string) (args : list arg) : fnode := {| f_op := op; f_target := name; f_args := args |}.

(** A wrapped function that succeeds does what it did unwrapped. *)
Theorem C221_transparent : forall op name f args s s' v, f args (entered name s) = (s', Ok v) -> wrapped op name f args s = (s', Ok v).
Proof. intros op name f args s s' v E. unfold wrapped, called. fold (entered name s). now rewrite E. Qed.
(** One given a traced value never fails: what it could not do becomes one node more, whose value it returns. *)
Theorem C221_caught : forall op name f args s s' e x, f args (entered name s) = (s', Raise e) -> In (Prox x) args ->
  wrapped op name f args s = ({| t_graph := t_graph s' ++ [node op name args]; t_calls := t_calls s' |}, Ok (Prox (length (t_graph s')))).
Proof.
  intros op name f args s s' e x E Hx. unfold wrapped, called. fold (entered name s). rewrite E. cbn [snd fst].
  assert (Hf : find_proxy args = true) by (apply existsb_exists; exists (Prox x); auto). now rewrite Hf.
Qed.
Theorem C221_never_raises : forall op name f args s x, In (Prox x) args -> exists v, snd (wrapped op name f args s) = Ok v.
Proof.
  intros op name f args s x Hx. destruct (f args (entered name s)) as [s' [v | e]] eqn:E.
  - rewrite (C221_transparent _ _ _ _ _ _ _ E). now exists v.
  - rewrite (C221_caught _ _ _ _ _ _ _ _ E Hx). eexists. reflexivity.
Qed.
(** One given only concrete values is run again after it fails, in the state the failure left, and what that does is final. *)
Theorem C221_concrete : forall op name f args s s' e, f args (entered name s) = (s', Raise e) -> (forall x, ~ In (Prox x) args) ->
  wrapped op name f args s = f args (entered name s').
Proof.
  intros op name f args s s' e E Hx. unfold wrapped, called. fold (entered name s). rewrite E. cbn [snd fst].
  assert (Hf : find_proxy args = false); [| now rewrite Hf].
  destruct (find_proxy args) eqn:H; auto. apply existsb_exists in H as [[z | x] [Ha Hb]]; [discriminate | now apply Hx in Ha].
Qed.
Definition failing (l : list arg) : comp := fun s => (s, Raise ValueError).
Definition shape_of (l : list arg) : comp := fun s => let y := emit "call_method" "size" l s in (fst y, Raise TypeError).
(** The claims in full: a call runs the function once, and records what it could not do as one node. *)
Definition C221_claim : Prop := forall op name f args s, (forall a t, t_calls (fst (f a t)) = t_calls t) -> t_calls (fst (wrapped op name f args s)) = t_calls s ++ [name].
Definition C221_node_claim : Prop := forall op name f args s s' e x, f args (entered name s) = (s', Raise e) -> In (Prox x) args ->
  t_graph (fst (wrapped op name f args s)) = t_graph s ++ [node op name args].
(** A function that rejects concrete values runs twice, with its effects. *)
Theorem C221_once_refuted : ~ C221_claim.
Proof. intro H. specialize (H "call_function" "check" failing [Conc 1] {| t_graph := []; t_calls := [] |} (fun _ _ => eq_refl)). discriminate. Qed.
(** A function that read the size of its argument before it failed leaves that node in the graph too. *)
Theorem C221_node_refuted : ~ C221_node_claim.
Proof. intro H. specialize (H "call_function" "pad" shape_of [Prox 0] {| t_graph := []; t_calls := [] |} _ _ 0%nat eq_refl (or_introl eq_refl)). discriminate. Qed.
(** With a traced argument, or when it succeeds, a function runs once; one that records nothing before it fails leaves one node. *)
Theorem C221_partial : forall op name f args s, (forall a t, t_calls (fst (f a t)) = t_calls t) ->
  (exists x, In (Prox x) args) \/ (exists v, snd (f args (entered name s)) = Ok v) ->
  t_calls (fst (wrapped op name f args s)) = t_calls s ++ [name] /\
  (t_graph (fst (f args (entered name s))) = t_graph s -> forall e, snd (f args (entered name s)) = Raise e -> t_graph (fst (wrapped op name f args s)) = t_graph s ++ [node op name args]).
Proof.
  intros op name f args s Hc Hx. specialize (Hc args (entered name s)). destruct (f args (entered name s)) as [s' [v | e]] eqn:E.
  - rewrite (C221_transparent _ _ _ _ _ _ _ E). cbn [fst snd]. split; auto. discriminate.
  - destruct Hx as [[x Hx] | [v Hv]]; [| discriminate]. rewrite (C221_caught _ _ _ _ _ _ _ _ E Hx). cbn [fst snd t_graph t_calls] in *. split; auto. intros -> _ _. reflexivity.
Qed.
Example C221_example :
  wrapped "call_function" "pad" shape_of [Prox 0; Conc 2] {| t_graph := []; t_calls := [] |}
  = ({| t_graph := [node "call_method" "size" [Prox 0; Conc 2]; node "call_function" "pad" [Prox 0; Conc 2]]; t_calls := ["pad"] |}, Ok (Prox 1)).
Proof. reflexivity. Qed.
Example C221_twice : wrapped "call_function" "check" failing [Conc 1] {| t_graph := []; t_calls := [] |} = ({| t_graph := []; t_calls := ["check"; "check"] |}, Raise ValueError).
Proof. reflexivity. Qed.

(** ** C222 *)
(** A body that stops by itself: a statement of its own fails, or it calls a module that is not below the root. *)
Definition stops (body : list instr) : Prop := exists i, In i body /\ (i = IFail \/ exists l o b, i = ICall (TMod None l o b)).

Lemma call_eq path leaf own body x s : call_module (TMod path leaf own body) x s =
  match path with
  | None => (s, Raise GenericException)
  | Some p => if leaf then emit "call_module" p [x] s
              else match snd (run_body body x s) with
                   | Ok _ => run_body body x s
                   | Raise _ => if own then emit "call_method" "forward" [x] (fst (run_body body x s)) else emit "call_module" p [x] (fst (run_body body x s))
                   end
  end.
Proof.
  destruct path as [p |]; [destruct leaf |]; reflexivity.
Qed.
(** A module below the root never makes a call fail. *)
Theorem C222_module : forall p leaf own body x s, exists v, snd (call_module (TMod (Some p) leaf own body) x s) = Ok v.
Proof.
  intros p leaf own body x s. rewrite call_eq. destruct leaf; [eexists; reflexivity |].
  destruct (snd (run_body body x s)) as [v | e] eqn:E; [exists v; exact E |]. destruct own; eexists; reflexivity.
Qed.
Lemma run_ok body : forall x s, (exists v, snd (run_body body x s) = Ok v) <-> ~ stops body.
Proof.
  induction body as [| i body IH]; intros x s; cbn [run_body].
  - split; [intros _ [i [[] _]] | intros _; now exists x].
  - assert (Hc : forall x s, (i <> IFail /\ forall l o b, i <> ICall (TMod None l o b)) -> (exists v, snd (run_body body x s) = Ok v) <-> ~ stops (i :: body)).
    { intros x' s' [Hi1 Hi2]. rewrite (IH x' s'). split; intros H [j [Hj Hk]]; apply H.
      - destruct Hj as [<- | Hj]; [| now exists j]. destruct Hk as [Hk | [l [o [b Hk]]]]; [contradiction | now apply Hi2 in Hk].
      - exists j. split; [now right | auto]. }
    destruct i as [n | | c].
    + cbn [emit fst snd]. apply Hc. split; [discriminate | intros; discriminate].
    + cbn. split; [intros [v Hv]; discriminate | intro H; exfalso; apply H; exists IFail; cbn; auto].
    + destruct c as [[p |] l o b].
      * destruct (C222_module p l o b x s) as [v Hv]. rewrite Hv. apply Hc. split; [discriminate | intros; discriminate].
      * rewrite call_eq. cbn. split; [intros [v Hv]; discriminate | intro H; exfalso; apply H; exists (ICall (TMod None l o b)); split; [now left | eauto]].
Qed.
(** Tracing fails exactly when the root's own forward stops: whatever the children do is caught. *)
Theorem C222_trace : forall body, (exists g, trace body = Ok g) <-> ~ stops body.
Proof.
  intro body. unfold trace. cbn zeta.
  match goal with |- context [run_body body (Prox 0) ?s] => rewrite <- (run_ok body (Prox 0) s); destruct (run_body body (Prox 0) s) as [s' [v | e]] end; cbn [fst snd].
  - split; intros _; eexists; reflexivity.
  - split; intros [v Hv]; discriminate.
Qed.

Section Ind.
Variables (P : tmodule -> Prop) (Q : instr -> Prop).
Hypothesis H1 : forall p l o b, Forall Q b -> P (TMod p l o b).
Hypothesis H2 : forall n, Q (IOp n).
Hypothesis H3 : Q IFail.
Hypothesis H4 : forall m, P m -> Q (ICall m).
Fixpoint tm_ind (m : tmodule) : P m :=
  match m with TMod p l o b => H1 p l o b ((fix go (b : list instr) : Forall Q b := match b with [] => Forall_nil _ | i :: r => Forall_cons _ (in_ind i) (go r) end) b) end
with in_ind (i : instr) : Q i := match i with IOp n => H2 n | IFail => H3 | ICall m => H4 m (tm_ind m) end.
End Ind.

(** Every node's arguments are nodes before it, and so is the value at hand. *)
Definition scoped (x : arg) (g : list fnode) : Prop :=
  (forall i, x = Prox i -> (i < length g)%nat) /\ forall i n j, nth_error g i = Some n -> In (Prox j) (f_args n) -> (j < i)%nat.
Definition extends (g g' : list fnode) : Prop := exists l, g' = g ++ l.
Lemma emit_scoped op t x s : scoped x (t_graph s) -> let y := emit op t [x] s in scoped (Prox (length (t_graph s))) (t_graph (fst y)) /\ extends (t_graph s) (t_graph (fst y)).
Proof.
  intros [Hx Hg]. cbn. split; [| eexists; reflexivity]. split.
  - intros i E. injection E as <-. rewrite app_length. cbn. lia.
  - intros i n j Hi Hj. destruct (Nat.lt_ge_cases i (length (t_graph s))) as [Hl | Hl].
    + rewrite nth_error_app1 in Hi by lia. eapply Hg; eauto.
    + rewrite nth_error_app2 in Hi by lia. destruct (i - length (t_graph s))%nat eqn:Ei; cbn in Hi.
      * injection Hi as <-. cbn in Hj. destruct Hj as [Hj | []]. apply Hx in Hj. lia.
      * destruct n0; discriminate.
Qed.
Definition keeps (r : tstate * outcome arg) (x : arg) (s : tstate) : Prop :=
  extends (t_graph s) (t_graph (fst r)) /\ match snd r with Ok v => scoped v (t_graph (fst r)) | Raise _ => True end /\ scoped x (t_graph (fst r)).
Lemma extends_refl g : extends g g.
Proof. exists []. now rewrite app_nil_r. Qed.
Lemma extends_trans a b c : extends a b -> extends b c -> extends a c.
Proof. intros [l ->] [k ->]. exists (l ++ k). now rewrite app_assoc. Qed.
Lemma scoped_more x v g g' : scoped x g -> extends g g' -> scoped v g' -> scoped x g'.
Proof. intros [Hx _] [l ->] [_ Hg]. split; auto. intros i E. apply Hx in E. rewrite app_length. lia. Qed.
Lemma emit_keeps op t x s : scoped x (t_graph s) -> keeps (emit op t [x] s) x s.
Proof.
  intro H. destruct (emit_scoped op t x s H) as [Ha Hb]. split; [exact Hb |]. cbn [emit snd]. split; [exact Ha |]. eapply scoped_more; eauto.
Qed.
Lemma keeps_all : forall m x s, scoped x (t_graph s) -> keeps (call_module m x s) x s.
Proof.
  apply (tm_ind (fun m => forall x s, scoped x (t_graph s) -> keeps (call_module m x s) x s)
                (fun i => match i with ICall m => forall x s, scoped x (t_graph s) -> keeps (call_module m x s) x s | _ => True end)); auto.
  intros p l o b HF x s Hs.
  assert (HB : forall x s, scoped x (t_graph s) -> keeps (run_body b x s) x s).
  { clear x s Hs. induction b as [| i b IH]; intros x s Hs; cbn [run_body].
    - split; [apply extends_refl |]. cbn. auto.
    - inversion HF as [| ? ? Hi Hr]; subst. specialize (IH Hr).
      assert (Hstep : forall r, keeps r x s -> keeps (match snd r with Ok v => run_body b v (fst r) | Raise _ => r end) x s).
      { intros [s1 [v | e]] Hk; cbn [fst snd]; [| exact Hk]. destruct Hk as [Hk1 [Hk2 Hk3]]. cbn [fst snd] in *.
        destruct (IH v s1 Hk2) as [Ha [Hb Hc]]. split; [eapply extends_trans; eauto |]. split; auto. eapply scoped_more; eauto. }
      destruct i as [n | | c].
      + cbn zeta. apply Hstep. now apply emit_keeps.
      + split; [apply extends_refl |]. cbn. auto.
      + cbn zeta. apply Hstep. now apply Hi. }
  rewrite call_eq. destruct p as [p |].
  - destruct l; [now apply emit_keeps |]. specialize (HB x s Hs).
    destruct (run_body b x s) as [s1 [v | e]]; cbn [fst snd]; auto. destruct HB as [Ha [_ Hc]]. cbn [fst] in *.
    assert (HE : forall op t, keeps (emit op t [x] s1) x s).
    { intros op t. destruct (emit_keeps op t x s1 Hc) as [H5 [H6 H7]]. split; [eapply extends_trans; eauto | auto]. }
    destruct o; apply HE.
  - split; [apply extends_refl |]. cbn. auto.
Qed.
Lemma run_keeps b : forall x s, scoped x (t_graph s) -> keeps (run_body b x s) x s.
Proof.
  intros x s Hs. pose proof (keeps_all (TMod (Some "") false false b) x s Hs) as H. rewrite call_eq in H.
  revert H. induction b as [| i b IH] in x, s, Hs |- *; cbn [run_body]; intro H.
  - exact H.
  - clear H. assert (Hstep : forall r, keeps r x s -> keeps (match snd r with Ok v => run_body b v (fst r) | Raise _ => r end) x s).
    { intros [s1 [v | e]] Hk; cbn [fst snd]; [| exact Hk]. destruct Hk as [Hk1 [Hk2 Hk3]]. cbn [fst snd] in *.
      pose proof (keeps_all (TMod (Some "") false false b) v s1 Hk2) as H. rewrite call_eq in H.
      destruct (IH v s1 Hk2 H) as [Ha [Hb Hc]]. split; [eapply extends_trans; eauto |]. split; auto. eapply scoped_more; eauto. }
    destruct i as [n | | c].
    + cbn zeta. apply Hstep. now apply emit_keeps.
    + split; [apply extends_refl |]. cbn. auto.
    + cbn zeta. apply Hstep. now apply keeps_all.
Qed.
(** The graph starts with the input, ends with the output, and every node reads only nodes before it. *)
Theorem C222_graph : forall body g, trace body = Ok g ->
  (exists mid v, g = node "placeholder" "x" [] :: mid ++ [node "output" "output" [v]]) /\
  forall i n j, nth_error g i = Some n -> In (Prox j) (f_args n) -> (j < i)%nat.
Proof.
  intros body g. unfold trace. cbn zeta.
  set (s0 := {| t_graph := [{| f_op := "placeholder"; f_target := "x"; f_args := [] |}]; t_calls := [] |}).
  assert (H0 : scoped (Prox 0) (t_graph s0)).
  { split; [intros i E; injection E as <-; cbn; lia |]. intros i n j Hi Hj. destruct i as [| [| i]]; cbn in Hi; try discriminate. injection Hi as <-. destruct Hj. }
  destruct (run_keeps body (Prox 0) s0 H0) as [[l Hl] [Hv _]].
  destruct (run_body body (Prox 0) s0) as [s1 [v | e]]; cbn [fst snd] in *; intro E; [| discriminate]. apply Ok_inj in E. subst g. split.
  - exists l, v. rewrite Hl. reflexivity.
  - pose proof (proj1 (emit_scoped "output" "output" v s1 Hv)) as [_ H]. exact H.
Qed.
(** A leaf is one call_module node, whatever its forward would do. *)
Theorem C222_leaf : forall p own body x s, call_module (TMod (Some p) true own body) x s
  = ({| t_graph := t_graph s ++ [node "call_module" p [x]]; t_calls := t_calls s |}, Ok (Prox (length (t_graph s)))).
Proof. intros. now rewrite call_eq. Qed.
(** A module that stops ends in one node for all of it: a method call if its forward is wrapped, and a module call with its path if not. *)
Theorem C222_stopped : forall p own body x s, scoped x (t_graph s) -> stops body ->
  exists l, call_module (TMod (Some p) false own body) x s
  = ({| t_graph := t_graph s ++ l ++ [if own then node "call_method" "forward" [x] else node "call_module" p [x]]; t_calls := t_calls (fst (run_body body x s)) |}, Ok (Prox (length (t_graph s ++ l)))).
Proof.
  intros p own body x s Hs Hst. rewrite call_eq. destruct (run_keeps body x s Hs) as [[l Hl] _]. exists l.
  destruct (snd (run_body body x s)) as [v | e] eqn:E.
  - exfalso. apply (proj1 (run_ok body x s)); [now exists v | exact Hst].
  - destruct own; unfold emit; rewrite Hl, <- app_assoc; reflexivity.
Qed.
(** The claim in full: a module that cannot be traced is recorded as a call of that module, and as that alone. *)
Definition C222_claim : Prop := forall p own body x s, stops body ->
  t_graph (fst (call_module (TMod (Some p) false own body) x s)) = t_graph s ++ [node "call_module" p [x]].
(** With a wrapped forward it is the method "forward" of no module in particular. *)
Theorem C222_method_refuted : ~ C222_claim.
Proof.
  intro H. specialize (H "head" true [IFail] (Prox 0) {| t_graph := []; t_calls := [] |}). cbn in H. discriminate H.
  exists IFail. cbn. auto.
Qed.
(** Without one, what was recorded before the failure stays beside it. *)
Theorem C222_leftover_refuted : ~ (forall p body x s, stops body ->
  t_graph (fst (call_module (TMod (Some p) false false body) x s)) = t_graph s ++ [node "call_module" p [x]]).
Proof.
  intro H. specialize (H "head" [IOp "relu"; IFail] (Prox 0) {| t_graph := []; t_calls := [] |}). cbn in H. discriminate H.
  exists IFail. cbn. auto.
Qed.
Theorem C222_partial : forall p rest x s, t_graph (fst (call_module (TMod (Some p) false false (IFail :: rest)) x s)) = t_graph s ++ [node "call_module" p [x]].
Proof. intros. now rewrite call_eq. Qed.
(** A module that runs to its end leaves no node of its own: only what its body recorded. *)
Theorem C222_inlined : forall p own body x s, ~ stops body -> call_module (TMod (Some p) false own body) x s = run_body body x s.
Proof. intros p own body x s H. rewrite call_eq. destruct (proj2 (run_ok body x s) H) as [v ->]. reflexivity. Qed.
Example C222_example :
  trace [ICall (TMod (Some "backbone") false true [ICall (TMod (Some "backbone.conv") true false []); IOp "relu"]);
         ICall (TMod (Some "head") false true [ICall (TMod (Some "head.fc") true false []); IFail])]
  = Ok [node "placeholder" "x" []; node "call_module" "backbone.conv" [Prox 0]; node "call_function" "relu" [Prox 1];
        node "call_module" "head.fc" [Prox 2]; node "call_method" "forward" [Prox 2]; node "output" "output" [Prox 4]].
Proof. reflexivity. Qed.
Example C222_root_fails : trace [IOp "relu"; IFail] = Raise GenericException.
Proof. reflexivity. Qed.
Example C222_detached : trace [ICall (TMod None true false [])] = Raise GenericException.
Proof. reflexivity. Qed.
Example C222_stopped_at : call_module (TMod (Some "neck") false false [IOp "relu"; ICall (TMod None false false [])]) (Prox 0) {| t_graph := [node "placeholder" "x" []]; t_calls := [] |}
  = ({| t_graph := [node "placeholder" "x" []; node "call_function" "relu" [Prox 0]; node "call_module" "neck" [Prox 0]]; t_calls := [] |}, Ok (Prox 2)).
Proof. reflexivity. Qed.
Print Assumptions C221_transparent.
Print Assumptions C221_caught.
Print Assumptions C221_never_raises.
Print Assumptions C221_concrete.
Print Assumptions C221_once_refuted.
Print Assumptions C221_node_refuted.
Print Assumptions C221_partial.
Print Assumptions C222_module.
Print Assumptions C222_trace.
Print Assumptions C222_graph.
Print Assumptions C222_leaf.
Print Assumptions C222_stopped.
Print Assumptions C222_method_refuted.
Print Assumptions C222_leftover_refuted.
Print Assumptions C222_partial.
Print Assumptions C222_inlined.
