(** Qconfigs of modules (C196, C197), rewriter records (C198), the modules of a deployed model (C199) and the names of exported files (C201). *)
From Coq Require Import String Ascii QArith.
From Verif Require Import Prelude Gptq_Model Onnx_Model Onnx_Lemmas CustomTracer_Model Deploy_Model.
Local Open Scope string_scope.
Local Open Scope list_scope.
Local Open Scope nat_scope.

(** ** C196 *)
(** Modules of the classes listed in no_observer_modules are not observed. *)
Definition C196_claim : Prop := forall (QC : Type) fc (global : QC) fixed l m, native_mapping fc global fixed (Some l) = Ok m ->
  forall x c, In x l -> str2class fc x = Ok c -> qconfig_of m c = None.
Definition torch_nn (m n : string) : found string := if String.eqb m "torch.nn" then IsClass (m ++ "." ++ n)%string else NoModule.
(** A sigmoid has fixed parameters, which are set after the list is looked at. *)
Theorem C196_fixed_refuted : ~ C196_claim.
Proof.
  intros H. specialize (H nat torch_nn 0 [("torch.nn.Sigmoid", 1)] ["torch.nn.Sigmoid"] _ eq_refl "torch.nn.Sigmoid" "torch.nn.Sigmoid" (or_introl eq_refl) eq_refl). discriminate H.
Qed.
Lemma put_all_get {A B} (key : B -> string) (val : B -> A) : forall l d k,
  get (fold_left (fun d b => put d (key b) (val b)) l d) k = match find (fun b => String.eqb (key b) k) (rev l) with Some b => Some (val b) | None => get d k end.
Proof.
  induction l as [|b l IH]; intros d k; [reflexivity|]. cbn [fold_left rev]. rewrite IH, get_put.
  assert (E : forall r, find (fun b => String.eqb (key b) k) (r ++ [b]) = match find (fun b => String.eqb (key b) k) r with Some x => Some x | None => if String.eqb (key b) k then Some b else None end).
  { clear. induction r as [|x r IH]; cbn [app find]; [reflexivity|]. destruct (String.eqb (key x) k); [reflexivity|exact IH]. }
  rewrite E. destruct (find _ (rev l)); [reflexivity|]. destruct (String.eqb (key b) k); reflexivity.
Qed.
Lemma mapM_in {A B} (f : A -> outcome B) : forall l ys, mapM f l = Ok ys -> forall y, In y ys <-> exists x, In x l /\ f x = Ok y.
Proof.
  induction l as [|x l IH]; intros ys; cbn [mapM].
  - intros E. apply Ok_inj in E. subst. intros y. split; [intros []|intros (x & [] & _)].
  - destruct (f x) as [z|e] eqn:F; cbn [bind]; [|discriminate]. destruct (mapM f l) as [zs|e] eqn:G; cbn [bind]; [|discriminate]. intros E. apply Ok_inj in E. subst. intros y. cbn [In]. rewrite (IH zs eq_refl). split.
    + intros [<-|(u & U & V)]; [exists x; auto|exists u; auto].
    + intros (u & [<-|U] & V); [left; congruence|right; eauto].
Qed.
(** Of the classes without fixed parameters exactly the listed ones are not observed, the others get the global qconfig; a class with fixed parameters
    always gets its own. *)
Theorem C196_observed_partial : forall (QC : Type) fc (global : QC) fixed l m, native_mapping fc global fixed (Some l) = Ok m -> forall c,
  (~ In c (map fst fixed) -> (qconfig_of m c = None <-> exists x, In x l /\ str2class fc x = Ok c) /\ (qconfig_of m c = None \/ qconfig_of m c = Some global)) /\
  (In c (map fst fixed) -> exists q, In (c, q) fixed /\ qconfig_of m c = Some q).
Proof.
  intros QC fc global fixed l m. unfold native_mapping. destruct (str2classes fc l) as [cs|e] eqn:S; cbn [bind]; [|discriminate]. intros E. apply Ok_inj in E. subst m. intros c.
  unfold qconfig_of. cbn [fst snd]. 
  pose proof (put_all_get (@fst string QC) (fun oq => Some (snd oq)) fixed (fold_left (fun d c => put d c None) cs []) c) as PG. cbn beta in PG. rewrite PG. clear PG. split.
  - intros N. destruct (find _ (rev fixed)) as [[k q]|] eqn:F.
    + apply find_some in F as [F1 F2]. cbn in F2. apply String.eqb_eq in F2. subst k. contradiction N. apply in_map_iff. exists (c, q). split; [reflexivity|apply in_rev; exact F1].
    + pose proof (put_all_get (fun c : string => c) (fun _ => @None QC) cs [] c) as PG. cbn beta in PG. rewrite PG. clear PG. cbn [get]. rewrite <- (mapM_in _ _ _ S). destruct (find _ (rev cs)) as [k|] eqn:G.
      * apply find_some in G as [G1 G2]. apply String.eqb_eq in G2. subst k. split; [|left; reflexivity]. split; [intros _; apply in_rev; exact G1|reflexivity].
      * split; [|right; reflexivity]. split; [discriminate|]. intros I0. pose proof (find_none _ _ G c (proj1 (in_rev _ _) I0)) as X. cbn in X. rewrite String.eqb_refl in X. discriminate X.
  - intros I0. apply in_map_iff in I0 as ([k q] & K & I0). cbn in K. subst k. destruct (find _ (rev fixed)) as [[k q']|] eqn:F.
    + apply find_some in F as [F1 F2]. cbn in F2. apply String.eqb_eq in F2. subst k. exists q'. split; [apply in_rev; exact F1|reflexivity].
    + pose proof (find_none _ _ F (c, q) (proj1 (in_rev _ _) I0)) as X. cbn in X. rewrite String.eqb_refl in X. discriminate X.
Qed.
(** Activations have to be quantized per tensor; weights may be quantized either way. *)
Theorem C196_modes : forall w a, check_modes w a = Ok tt <-> a = false.
Proof. intros [] []; vm_compute; split; congruence. Qed.
Example C196_example : native_mapping torch_nn 0 [("torch.nn.Sigmoid", 1); ("torch.nn.Tanh", 1)] (Some ["torch.nn.GELU"]) = Ok (0, [("torch.nn.GELU", None); ("torch.nn.Sigmoid", Some 1); ("torch.nn.Tanh", Some 1)])
  /\ native_mapping torch_nn 0 [] (Some ["GELU"]) = Raise AssertionError.
Proof. split; reflexivity. Qed.

(** ** C197 *)
(** The qconfig of the entry given last for that key. *)
Definition last_entry {Cfg} (same : string -> bool) (l : list (string * Cfg)) : option Cfg := option_map snd (find (fun e => same (fst e)) (rev l)).
Definition documented {Cfg} (fc : string -> string -> found string) (c : acfg Cfg) (name cls : string) : option Cfg :=
  match last_entry (fun n => String.eqb n name) (c_names c) with
  | Some x => Some x
  | None => match last_entry (fun t => match str2class fc t with Ok k => String.eqb k cls | Raise _ => false end) (c_types c) with Some x => Some x | None => c_global c end
  end.
Lemma find_snoc {A} (p : A -> bool) r b : find p (r ++ [b]) = match find p r with Some x => Some x | None => if p b then Some b else None end.
Proof. induction r as [|x r IH]; cbn [app find]; [reflexivity|]. destruct (p x); [reflexivity|exact IH]. Qed.
Lemma set_types_get {QC Cfg} fc (convert : Cfg -> outcome QC) : forall l d d', set_types fc convert l d = Ok d' -> forall k,
  match last_entry (fun t => match str2class fc t with Ok x => String.eqb x k | Raise _ => false end) l with Some c => exists q, convert c = Ok q /\ get d' k = Some q | None => get d' k = get d k end.
Proof.
  unfold last_entry. induction l as [|[s c] l IH]; intros d d'; cbn [set_types rev find option_map]; [intros E; apply Ok_inj in E; subst; reflexivity|].
  destruct (convert c) as [q|] eqn:C0; cbn [bind]; [|discriminate]. destruct (str2class fc s) as [x|] eqn:S; cbn [bind]; [|discriminate]. intros E k. specialize (IH _ _ E k). rewrite find_snoc. cbn [fst] in *.
  destruct (find _ (rev l)) as [[s' c']|]; [exact IH|]. cbn [option_map] in IH. rewrite S, IH, get_put. destruct (String.eqb x k); cbn [option_map snd]; eauto.
Qed.
Lemma set_names_get {QC Cfg} (convert : Cfg -> outcome QC) : forall l d d', set_names convert l d = Ok d' -> forall k,
  match last_entry (fun n => String.eqb n k) l with Some c => exists q, convert c = Ok q /\ get d' k = Some q | None => get d' k = get d k end.
Proof.
  unfold last_entry. induction l as [|[s c] l IH]; intros d d'; cbn [set_names rev find option_map]; [intros E; apply Ok_inj in E; subst; reflexivity|].
  destruct (convert c) as [q|] eqn:C0; cbn [bind]; [|discriminate]. intros E k. specialize (IH _ _ E k). rewrite find_snoc. cbn [fst] in *.
  destruct (find _ (rev l)) as [[s' c']|]; [exact IH|]. cbn [option_map] in IH. rewrite IH, get_put. destruct (String.eqb s k); cbn [option_map snd]; eauto.
Qed.
(** A module gets the qconfig documented for it: by its name, otherwise by its class, otherwise the global one. *)
Theorem C197_priority : forall (QC Cfg : Type) fc (convert : Cfg -> outcome QC) c m, academic_mapping fc convert c = Ok m -> forall name cls,
  match documented fc c name cls with Some x => exists q, convert x = Ok q /\ academic_qconfig m name cls = Some q | None => academic_qconfig m name cls = None end.
Proof.
  intros QC Cfg fc convert c m. unfold academic_mapping. intros E name cls.
  assert (G : exists g t n, (match c_global c with None => g = None | Some x => exists q, convert x = Ok q /\ g = Some q end) /\ set_types fc convert (c_types c) [] = Ok t /\ set_names convert (c_names c) [] = Ok n /\ m = {| m_global := g; m_types := t; m_names := n |}).
  { destruct (c_global c) as [x|]; [destruct (convert x) as [q|] eqn:Q0; cbn [bind] in E; [|discriminate E]|cbn [bind] in E];
    (destruct (set_types fc convert (c_types c) []) as [t|]; cbn [bind] in E; [|discriminate E]; destruct (set_names convert (c_names c) []) as [n|]; cbn [bind] in E; [|discriminate E]; apply Ok_inj in E; subst m; eauto 10). }
  destruct G as (g & t & n & Hg & Ht & Hn & ->). unfold academic_qconfig, documented. cbn [m_names m_types m_global].
  pose proof (set_names_get _ _ _ _ Hn name) as N. destruct (last_entry (fun n0 => String.eqb n0 name) (c_names c)) as [x|].
  - destruct N as (q & Q0 & N). rewrite N. eauto.
  - rewrite N. cbn [get]. pose proof (set_types_get fc _ _ _ _ Ht cls) as T. destruct (last_entry _ (c_types c)) as [x|].
    + destruct T as (q & Q0 & T). rewrite T. eauto.
    + rewrite T. cbn [get]. destruct (c_global c); [exact Hg|subst g; reflexivity].
Qed.
(** The constructor accepts a mapping exactly when every qconfig in it is well-formed and every class can be imported. *)
Theorem C197_accepts : forall (QC Cfg : Type) fc (convert : Cfg -> outcome QC) c,
  (exists m, academic_mapping fc convert c = Ok m) <->
  (forall x, c_global c = Some x -> exists q, convert x = Ok q) /\ (forall t x, In (t, x) (c_types c) -> (exists q, convert x = Ok q) /\ exists k, str2class fc t = Ok k) /\ (forall n x, In (n, x) (c_names c) -> exists q, convert x = Ok q).
Proof.
  intros QC Cfg fc convert c.
  assert (T : forall l d, (exists d', set_types fc convert l d = Ok d') <-> forall t x, In (t, x) l -> (exists q, convert x = Ok q) /\ exists k, str2class fc t = Ok k).
  { induction l as [|[s y] l IH]; intros d; cbn [set_types]; [split; [intros _ t x []|eauto]|]. split.
    - intros [d' E]. destruct (convert y) as [q|] eqn:C0; cbn [bind] in E; [|discriminate E]. destruct (str2class fc s) as [k|] eqn:S; cbn [bind] in E; [|discriminate E].
      intros t x [X|X]; [injection X as <- <-; split; eauto|]. apply (proj1 (IH _) (ex_intro _ _ E) t x X).
    - intros H. destruct (H s y (or_introl eq_refl)) as [[q Q0] [k K]]. rewrite Q0. cbn [bind]. rewrite K. cbn [bind]. apply IH. intros t x X. apply H. right. exact X. }
  assert (N : forall l d, (exists d', set_names convert l d = Ok d') <-> forall t x, In (t, x) l -> exists q, convert x = Ok q).
  { induction l as [|[s y] l IH]; intros d; cbn [set_names]; [split; [intros _ t x []|eauto]|]. split.
    - intros [d' E]. destruct (convert y) as [q|] eqn:C0; cbn [bind] in E; [|discriminate E]. intros t x [X|X]; [injection X as <- <-; eauto|]. apply (proj1 (IH _) (ex_intro _ _ E) t x X).
    - intros H. destruct (H s y (or_introl eq_refl)) as [q Q0]. rewrite Q0. cbn [bind]. apply IH. intros t x X. apply (H t). right. exact X. }
  rewrite <- (T (c_types c) []), <- (N (c_names c) []). unfold academic_mapping. split.
  - intros [m E]. destruct (c_global c) as [x|]; [destruct (convert x) as [q|] eqn:Q0; cbn [bind] in E; [|discriminate E]|cbn [bind] in E];
      (destruct (set_types fc convert (c_types c) []) as [t|]; cbn [bind] in E; [|discriminate E]; destruct (set_names convert (c_names c) []) as [n|]; cbn [bind] in E; [|discriminate E]); repeat split; eauto; intros x0 X; try discriminate X; injection X as <-; eauto.
  - intros (G & [t Ht] & [n Hn]). destruct (c_global c) as [x|]; [destruct (G x eq_refl) as [q Q0]; rewrite Q0|]; cbn [bind]; rewrite Ht; cbn [bind]; rewrite Hn; cbn [bind]; eauto.
Qed.
Definition conv (n : nat) : outcome nat := if n <? 100 then Ok (n * 2) else Raise ValueError.
Example C197_example : let c := {| c_global := Some 1; c_types := [("torch.nn.Conv2d", 2); ("torch.nn.Linear", 3); ("torch.nn.Conv2d", 4)]; c_names := [("head.fc", 5)] |} in
  exists m, academic_mapping torch_nn conv c = Ok m /\ academic_qconfig m "stem" "torch.nn.Conv2d" = Some 8 /\ academic_qconfig m "head.fc" "torch.nn.Linear" = Some 10 /\ academic_qconfig m "x" "torch.nn.ReLU" = Some 2.
Proof. eexists. repeat split; reflexivity. Qed.

(** ** C198 *)
(** While the graphs are built the listed functions and the skipped methods are not rewritten.  Afterwards, whether or not building succeeded, the rewriter has
    the records it had and the deployment configuration is what it was. *)
Definition restored {F} (records records' : list (string * F)) : Prop := forall k, get records' k = get records k.
Definition C198_claim : Prop := forall (F M : Type) (prepare : list (string * F) -> string -> outcome M) modes skipped cfg records,
  match build_qmodels prepare modes skipped cfg records with (_, cfg', records') => restored records records' /\ cfg' = cfg end.
Theorem C198_failure_refuted : ~ C198_claim.
Proof.
  intros H. specialize (H nat nat (fun _ _ => Raise RuntimeError) ["tensor"] ["m.C.f"] (Some None) [("m.C.f", 1)]). destruct H as [H _]. specialize (H "m.C.f"). discriminate H.
Qed.
Theorem C198_config_refuted : ~ (forall (F M : Type) (prepare : list (string * F) -> string -> outcome M) modes skipped cfg records,
  match build_qmodels prepare modes skipped cfg records with (r, cfg', _) => (exists q, r = Ok q) -> cfg' = cfg end).
Proof.
  intros H. specialize (H nat nat (fun _ _ => Ok 0) ["tensor"] ["m.C.f"] (Some (Some ["m.g"])) []). cbn in H. specialize (H (ex_intro _ _ eq_refl)). discriminate H.
Qed.
Lemma get_remove {F} k (d : list (string * F)) x : get (remove k d) x = if String.eqb k x then None else get d x.
Proof.
  induction d as [|[y f] d IH]; cbn [remove filter get]; [destruct (String.eqb k x); reflexivity|]. cbn [fst]. fold (remove k d). destruct (String.eqb_spec y k) as [->|N]; cbn [negb].
  - rewrite IH. destruct (String.eqb_spec k x); reflexivity.
  - cbn [get]. rewrite IH. destruct (String.eqb_spec y x) as [->|]; [|reflexivity]. destruct (String.eqb_spec k x); [congruence|reflexivity].
Qed.
Lemma pop_spec {F} : forall l (b d : list (string * F)), NoDup (map fst b) -> let (b', d') := pop_records l b d in NoDup (map fst b') /\
  forall k, get d' k = (if mem k l then None else get d k) /\ get b' k = (if mem k l then match get d k with Some f => Some f | None => get b k end else get b k).
Proof.
  induction l as [|x l IH]; intros b d ND; cbn [pop_records]; [split; [exact ND|]; intros k; split; reflexivity|].
  destruct (get d x) as [f|] eqn:G.
  - assert (ND' : NoDup (map fst (put b x f))).
    { rewrite put_fst. destruct (has b x) eqn:H; [exact ND|]. assert (X : ~ In x (map fst b)) by (rewrite <- has_in, H; discriminate).
      apply NoDup_Add with (a := x) (l := map fst b); [rewrite <- (app_nil_r (map fst b)) at 1; apply Add_app|auto]. }
    specialize (IH (put b x f) (remove x d) ND'). destruct (pop_records l _ _) as [b' d']. destruct IH as [I1 I2]. split; [exact I1|]. intros k. destruct (I2 k) as [J1 J2]. rewrite J1, J2, get_remove, get_put.
    cbn [mem existsb]. fold (mem k l). rewrite (String.eqb_sym k x). destruct (String.eqb_spec x k) as [->|N]; cbn [orb]; [|split; reflexivity]. rewrite G. destruct (mem k l); split; reflexivity.
  - specialize (IH b d ND). destruct (pop_records l b d) as [b' d']. destruct IH as [I1 I2]. split; [exact I1|]. intros k. destruct (I2 k) as [J1 J2]. rewrite J1, J2.
    cbn [mem existsb]. fold (mem k l). rewrite (String.eqb_sym k x). destruct (String.eqb_spec x k) as [->|N]; cbn [orb]; [|split; reflexivity]. rewrite G. destruct (mem k l); split; reflexivity.
Qed.
(** When building succeeds the records are restored, and the configuration too unless it lists functions; while building, the functions to be left alone
    have no record and the others have theirs. *)
Theorem C198_success_partial : forall (F M : Type) (prepare : list (string * F) -> string -> outcome M) modes skipped cfg records qs cfg' records',
  build_qmodels prepare modes skipped cfg records = (Ok qs, cfg', records') ->
  restored records records' /\ ((cfg = None \/ cfg = Some None) -> cfg' = cfg) /\
  forall listed, cfg = Some listed -> exists during, prepare_modes prepare during modes = Ok qs /\
    forall k, get during k = if mem k ((match listed with Some l => l | None => [] end) ++ skipped) then None else get records k.
Proof.
  intros F M prepare modes skipped cfg records qs cfg' records'. unfold build_qmodels. destruct cfg as [listed|].
  - set (tp := (match listed with Some l => l | None => [] end) ++ skipped). pose proof (pop_spec tp [] records (NoDup_nil _)) as P. destruct (pop_records tp [] records) as [b left]. destruct P as [P1 P2].
    destruct (prepare_modes prepare left modes) as [q|] eqn:E; [|discriminate]. intros X. injection X as <- <- <-. split; [|split].
    + intros k. destruct (P2 k) as [P3 P4]. rewrite (put_all_get fst snd).
      destruct (find _ (rev b)) as [[k' f]|] eqn:FD.
      * apply find_some in FD as [F1 F2]. cbn in F2 |- *. apply String.eqb_eq in F2. subst k'. apply in_rev in F1. apply (get_nodup b k f P1) in F1. rewrite F1 in P4. cbn [get] in P4. destruct (mem k tp); [|discriminate P4]. destruct (get records k); congruence.
      * rewrite P3. destruct (mem k tp); [|reflexivity]. cbn [get] in P4. destruct (get records k) as [f|]; [|reflexivity]. apply get_in in P4. pose proof (find_none _ _ FD _ (proj1 (in_rev _ _) P4)) as X. cbn in X. rewrite String.eqb_refl in X. discriminate X.
    + intros [X|X]; [discriminate X|injection X as ->; reflexivity].
    + intros l X. injection X as <-. exists left. split; [exact E|]. intros k. apply (P2 k).
  - intros X. injection X as X <- <-. split; [intros k; reflexivity|]. split; [reflexivity|]. intros l Y. discriminate Y.
Qed.
Example C198_example : build_qmodels (fun d m => Ok (map fst d, m)) ["tensor"; "loss"] ["m.C.f"] (Some (Some ["m.g"; "m.h"])) [("m.C.f", 1); ("m.C.k", 2); ("m.g", 3)]
  = (Ok [("tensor", (["m.C.k"], "tensor")); ("loss", (["m.C.k"], "loss"))], Some (Some ["m.g"; "m.h"; "m.C.f"]), [("m.C.k", 2); ("m.g", 3); ("m.C.f", 1)]).
Proof. reflexivity. Qed.

(** ** C199 *)
(** The module at a path. *)
Fixpoint at_path (t : dmod) (p : list string) {struct p} : option dmod :=
  match p with
  | [] => Some t
  | n :: r => match t with DOther _ cs => (fix go cs := match cs with [] => None | (m, c) :: cs' => if String.eqb m n then at_path c r else go cs' end) cs | _ => None end
  end.
Definition is_qat (t : dmod) : bool := match t with DQat _ _ _ => true | _ => false end.
Section C199.
Variables (eps : Q) (s : scheme) (float_class : string -> string) (fold_bn : string -> list (list Q) -> list (list Q)) (merge_bn : string -> option string).
Let go := traverse eps s float_class fold_bn merge_bn.
Lemma traverse_at update keep : forall p t, at_path (go update keep t) p = match at_path t p with Some m => Some (go update keep m) | None => None end.
Proof.
  induction p as [|n r IH]; intros t; [reflexivity|]. destruct t as [cls w ps|cls w|i cs]; cbn [go traverse].
  - unfold deploy1. destruct keep; reflexivity.
  - reflexivity.
  - cbn [at_path]. induction cs as [|[m c] cs IHc]; cbn [map fst snd]; [reflexivity|]. destruct (String.eqb m n); [apply IH|exact IHc].
Qed.
End C199.
(** In a model that is not a QAT module itself: every QAT module is replaced in its place, by its float module or by a QAT module whose batch norm is merged, with
    its folded weights, fake-quantized if that is asked for; every other module stays where it is. *)
Theorem C199_deployed : forall eps s float_class fold_bn merge_bn update keep i cs p m,
  let t' := post_process eps s float_class fold_bn merge_bn update keep (DOther i cs) in
  at_path (DOther i cs) p = Some m ->
  match m with
  | DQat cls w ps =>
      let w' := if update then map (fun cp => map (fq (lo s) (hi s) (snd cp)) (fst cp)) (combine (fold_bn cls w) ps) else fold_bn cls w in
      if keep then exists cls' ps', at_path t' p = Some (DQat cls' w' ps') /\ cls' = (match merge_bn cls with Some c => c | None => cls end) /\ length ps' = length w'
      else at_path t' p = Some (DFloat (float_class cls) w')
  | DFloat _ _ => at_path t' p = Some m
  | DOther j ms => exists ms', at_path t' p = Some (DOther j ms') /\ map fst ms' = map fst ms
  end.
Proof.
  intros eps s fc fb mb update keep i cs p m t' E. unfold t', post_process. rewrite traverse_at, E. destruct m as [cls w ps|cls w|j ms]; cbn [traverse].
  - cbv zeta. unfold deploy1, fq_weights. destruct keep; [|reflexivity]. eexists _, _. split; [reflexivity|]. split; [reflexivity|]. rewrite map_length. reflexivity.
  - reflexivity.
  - eexists. split; [reflexivity|]. rewrite map_map. reflexivity.
Qed.
(** Nothing new appears; without keep_w_fake_quant no QAT module is left. *)
Theorem C199_complete : forall eps s float_class fold_bn merge_bn update keep i cs p,
  let t' := post_process eps s float_class fold_bn merge_bn update keep (DOther i cs) in
  (at_path t' p = None <-> at_path (DOther i cs) p = None) /\ (keep = false -> forall m, at_path t' p = Some m -> is_qat m = false).
Proof.
  intros eps s fc fb mb update keep i cs p t'. unfold t', post_process. rewrite traverse_at. destruct (at_path (DOther i cs) p) as [m|].
  - split; [split; discriminate|]. intros -> m' X. injection X as <-. destruct m; reflexivity.
  - split; [tauto|]. intros _ m' X. discriminate X.
Qed.
Definition scheme1 : scheme := {| symmetric := true; signed := true; lo := (-127)%Z; hi := 127%Z |}.
Example C199_example : let w := [fq (-127) 127 (1%Q, 0%Z) 127; fq (-127) 127 (1%Q, 0%Z) (-3)] in
  post_process (1 # 1000)%Q scheme1 (fun c => "float") (fun _ w => w) (fun c => if String.eqb c "ConvBn2d" then Some "Conv2d" else None) true true
    (DOther 0 [("conv", DQat "ConvBn2d" [[127%Q; (-3)%Q]] [(1%Q, 0%Z)]); ("act", DOther 1 [])])
  = DOther 0 [("conv", DQat "Conv2d" [w] [qparams_of (1 # 1000) scheme1 w]); ("act", DOther 1 [])].
Proof. reflexivity. Qed.

(** ** C201 *)
(** torch writes its own file beside the one asked for. *)
Definition sibling (a b : string) : Prop := exists dir f g, a = (dir ++ f)%string /\ b = (dir ++ g)%string /\ f <> g /\ ~ In "/"%char (list_ascii_of_string f) /\ ~ In "/"%char (list_ascii_of_string g).
Definition C201_claim : Prop := forall path, path <> "" -> sibling path (symbolic_path path).
Theorem C201_same_refuted : ~ C201_claim.
Proof. intros H. destruct (H "model") as (d & f & g & A & B & N & _); [discriminate|]. change (symbolic_path "model") with "model" in B. apply N. rewrite A in B. clear -B. induction d as [|c d IH]; cbn in B; [exact B|]. injection B as B. auto. Qed.
Theorem C201_directory_refuted : ~ (forall stem, sibling (stem ++ ".onnx") (symbolic_path (stem ++ ".onnx"))).
Proof.
  intros H. destruct (H "a.onnx/m") as (d & f & g & A & B & N & F & G). change (symbolic_path ("a.onnx/m" ++ ".onnx")) with "a_symbolic.onnx/m_symbolic.onnx" in B. cbn in A, B.
  destruct d as [|c0 [|c1 d]].
  - cbn in A. apply F. rewrite <- A. cbn. auto 20.
  - cbn in A. injection A as _ A. apply F. rewrite <- A. cbn. auto 20.
  - cbn in A, B. injection A as _ A1 _. injection B as _ B1 _. congruence.
Qed.
(** The string occurs in another one. *)
Fixpoint occurs (p s : string) : bool := match strip p s with Some _ => true | None => match s with EmptyString => false | String _ r => occurs p r end end.
Lemma replace_none old new : forall n s, occurs old s = false -> replace_fuel n old new s = s.
Proof.
  induction n as [|n IH]; intros s O; [reflexivity|]. destruct s as [|c s]; [reflexivity|]. cbn [replace_fuel]. cbn [occurs] in O. destruct (strip old (String c s)); [discriminate O|]. rewrite IH by exact O. reflexivity.
Qed.
Lemma strip_app p s : strip p (p ++ s) = Some s.
Proof. induction p as [|c p IH]; cbn; [reflexivity|]. rewrite Ascii.eqb_refl. exact IH. Qed.
Lemma strip_short p : forall s t, strip p (s ++ t) <> None -> strip p s = None -> String.length s < String.length p.
Proof.
  induction p as [|c p IH]; intros s t A B; [discriminate B|]. destruct s as [|d s]; cbn in *; [lia|]. destruct (Ascii.eqb c d); [|congruence]. specialize (IH s t A B). lia.
Qed.
Lemma occurs_tail c s : occurs ".onnx" (String c s) = false -> occurs ".onnx" s = false.
Proof. cbn [occurs]. destruct (strip ".onnx" (String c s)); [discriminate|auto]. Qed.
(** No proper suffix of the stem completes the extension. *)
Lemma no_overlap s : s <> "" -> strip ".onnx" s = None -> strip ".onnx" (s ++ ".onnx") = None.
Proof.
  intros N S. destruct (strip ".onnx" (s ++ ".onnx")) as [r|] eqn:E; [exfalso|reflexivity].
  destruct s as [|a s]; [congruence|]. cbn [append strip] in E, S. destruct (Ascii.eqb_spec "."%char a) as [<-|]; [|discriminate E].
  destruct s as [|b s]; [discriminate E|]. cbn [append strip] in E, S. destruct (Ascii.eqb_spec "o"%char b) as [<-|]; [|discriminate E].
  destruct s as [|b s]; [discriminate E|]. cbn [append strip] in E, S. destruct (Ascii.eqb_spec "n"%char b) as [<-|]; [|discriminate E].
  destruct s as [|b s]; [discriminate E|]. cbn [append strip] in E, S. destruct (Ascii.eqb_spec "n"%char b) as [<-|]; [|discriminate E].
  destruct s as [|b s]; [discriminate E|]. cbn [append strip] in E, S. destruct (Ascii.eqb_spec "x"%char b) as [<-|]; [discriminate S|discriminate E].
Qed.
Lemma replace_stem : forall s n, String.length s < n -> occurs ".onnx" s = false -> replace_fuel n ".onnx" "_symbolic.onnx" (s ++ ".onnx") = (s ++ "_symbolic.onnx")%string.
Proof.
  induction s as [|c s IH]; intros n L O; (destruct n as [|n]; [cbn in L; lia|]).
  - cbn [append]. cbn. destruct n; reflexivity.
  - cbn [append replace_fuel]. assert (S : strip ".onnx" (String c s) = None) by (cbn [occurs] in O; destruct (strip ".onnx" (String c s)); [discriminate O|reflexivity]).
    pose proof (no_overlap (String c s) ltac:(discriminate) S) as X. cbn [append] in X. rewrite X. rewrite IH; [reflexivity|cbn in L; lia|eapply occurs_tail; exact O].
Qed.
(** When ".onnx" is only the extension, torch writes to the name with "_symbolic" before it. *)
Theorem C201_named_partial : forall stem, occurs ".onnx" stem = false -> symbolic_path (stem ++ ".onnx") = (stem ++ "_symbolic.onnx")%string /\ sibling (stem ++ ".onnx") (symbolic_path (stem ++ ".onnx")).
Proof.
  intros stem O. unfold symbolic_path, replace.
  assert (L : forall a b, String.length (a ++ b) = String.length a + String.length b) by (induction a as [|c a IHa]; intros b; cbn; [reflexivity|rewrite IHa; reflexivity]).
  rewrite replace_stem by (try exact O; rewrite L; cbn; lia). split; [reflexivity|].
  assert (D : exists dir f, stem = (dir ++ f)%string /\ ~ In "/"%char (list_ascii_of_string f)).
  { clear. induction stem as [|c stem (dir & f & -> & F)]; [exists "", ""; split; [reflexivity|intros []]|]. destruct (Ascii.eqb_spec c "/") as [->|N].
    - exists (String "/" dir), f. split; [reflexivity|exact F].
    - destruct dir as [|d dir]; [exists "", (String c f); split; [reflexivity|]; intros [X|X]; [congruence|exact (F X)]|exists (String c (String d dir)), f; split; [reflexivity|exact F]]. }
  destruct D as (dir & f & -> & F).
  assert (A : forall a b c, ((a ++ b) ++ c)%string = (a ++ b ++ c)%string) by (induction a as [|x a IHa]; intros b c; cbn; [reflexivity|rewrite IHa; reflexivity]).
  assert (LA : forall a b, list_ascii_of_string (a ++ b) = (list_ascii_of_string a ++ list_ascii_of_string b)%list) by (induction a as [|x a IHa]; intros b; cbn; [reflexivity|rewrite IHa; reflexivity]).
  exists dir, (f ++ ".onnx")%string, (f ++ "_symbolic.onnx")%string. rewrite !A. split; [reflexivity|]. split; [reflexivity|]. split; [|split].
  - intros X. apply (f_equal String.length) in X. rewrite !L in X. cbn in X. lia.
  - rewrite LA. intros X. apply in_app_or in X as [X|X]; [exact (F X)|]. cbn in X. repeat destruct X as [X|X]; try discriminate X. exact X.
  - rewrite LA. intros X. apply in_app_or in X as [X|X]; [exact (F X)|]. cbn in X. repeat destruct X as [X|X]; try discriminate X. exact X.
Qed.
Example C201_example : symbolic_path "work_dirs/model.onnx" = "work_dirs/model_symbolic.onnx".
Proof. reflexivity. Qed.

Print Assumptions C196_fixed_refuted.
Print Assumptions C196_observed_partial.
Print Assumptions C196_modes.
Print Assumptions C197_priority.
Print Assumptions C197_accepts.
Print Assumptions C198_failure_refuted.
Print Assumptions C198_config_refuted.
Print Assumptions C198_success_partial.
Print Assumptions C199_deployed.
Print Assumptions C199_complete.
Print Assumptions C201_same_refuted.
Print Assumptions C201_directory_refuted.
Print Assumptions C201_named_partial.

(** A root that is quantized itself is left as it is. *)
Definition C199_root_claim : Prop := forall eps s float_class fold_bn merge_bn update t, is_qat (post_process eps s float_class fold_bn merge_bn update false t) = false.
Theorem C199_root_refuted : ~ C199_root_claim.
Proof. intro H. specialize (H 1%Q scheme1 (fun c => c) (fun _ w => w) (fun _ => None) false (DQat "Linear" [] [])). discriminate. Qed.
Print Assumptions C199_root_refuted.
