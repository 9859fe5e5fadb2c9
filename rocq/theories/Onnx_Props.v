(** C118 - topological sorting of ONNX graphs. *)
From Coq Require Import String Permutation.
From Verif Require Import Prelude Onnx_Model Onnx_Lemmas.
Local Open Scope string_scope.
Local Open Scope list_scope.
Local Open Scope Z_scope.

(** ** Specification *)
Section Spec.
Variable V : Type.
Implicit Type m : omodel V.
(** After the nodes [before], all inputs of [n] are known. *)
Definition ready m (before : list onode) (n : onode) : Prop :=
  forall i, In i (o_in n) -> In i (map fst (m_init _ m)) \/ In i (m_in _ m) \/ In i (flat_map o_out before).
Definition ordered m (l : list onode) : Prop := forall a n b, l = a ++ n :: b -> ready m a n.
(** Node names are unique and not those of graph inputs, every name has one producer, and every
    input of a node has one. *)
Record sound m : Prop := {
  sd_names : NoDup (map o_name (m_node _ m));
  sd_apart : forall i, In i (m_in _ m) -> ~ In i (map o_name (m_node _ m));
  sd_single : NoDup (m_in _ m ++ flat_map o_out (m_node _ m));
  sd_known : forall n, In n (m_node _ m) -> ready m (m_node _ m) n }.

(** ** Proof *)
Section Sort.
Variable m : omodel V.
Hypothesis W : sound m.
Notation nodes := (m_node _ m).
Notation inputs := (m_in _ m).
Let init := map_name_and_initializer V m.
Let prod := producers V m.

Lemma init_has i : has init i = true <-> In i (map fst (m_init _ m)).
Proof. unfold init, map_name_and_initializer. rewrite has_in. rewrite (fold_put_keys fst (fun kv => kv)). cbn. tauto. Qed.
Lemma node_eq a b : In a nodes -> In b nodes -> o_name a = o_name b -> a = b.
Proof.
  pose proof (sd_names _ W) as N. generalize dependent nodes. induction l as [|x l IH]; intros N Ia Ib E; [destruct Ia|]. cbn [map] in N. apply NoDup_cons_iff in N as [N1 N2].
  destruct Ia as [->|Ia], Ib as [->|Ib]; [reflexivity| | |auto]; exfalso; apply N1; apply in_map_iff; [exists b|exists a]; auto.
Qed.
Lemma out_eq a b o : In a nodes -> In b nodes -> In o (o_out a) -> In o (o_out b) -> a = b.
Proof.
  pose proof (sd_single _ W) as N. assert (N' : NoDup (flat_map o_out nodes)). { revert N. generalize inputs as l. induction l as [|x l IH]; intros N; [exact N|]. apply NoDup_cons_iff in N as [_ N]. auto. }
  clear N. generalize dependent nodes. induction l as [|x l IH]; intros N Ia Ib Oa Ob; [destruct Ia|]. cbn [flat_map] in N.
  assert (X : forall y, In y l -> In o (o_out x) -> ~ In o (o_out y)).
  { clear - N. intros y Iy Ox Oy. induction (o_out x) as [|z r IHr]; [destruct Ox|]. cbn [app] in N. apply NoDup_cons_iff in N as [N1 N2]. destruct Ox as [->|Ox]; [|auto]. apply N1. apply in_or_app. right. apply in_flat_map. eauto. }
  assert (N2 : NoDup (flat_map o_out l)). { clear - N. induction (o_out x) as [|z r IHr]; [exact N|]. cbn [app] in N. apply NoDup_cons_iff in N as [_ N]. auto. }
  destruct Ia as [->|Ia], Ib as [->|Ib]; [reflexivity|exfalso; eapply X; eauto|exfalso; eapply X; eauto|auto].
Qed.
Lemma in_not_out i : In i inputs -> ~ In i (flat_map o_out nodes).
Proof.
  pose proof (sd_single _ W) as N. generalize dependent inputs. induction l as [|x l IH]; intros N I; [destruct I|]. cbn [app] in N. apply NoDup_cons_iff in N as [N1 N2]. destruct I as [->|I]; [intros J; apply N1, in_or_app; auto|auto].
Qed.
Lemma inputs_nodup : NoDup inputs.
Proof. pose proof (sd_single _ W) as N. revert N. generalize inputs as l. induction l as [|x l IH]; intros N; [constructor|]. cbn [app] in N. apply NoDup_cons_iff in N as [N1 N2]. constructor; [intros I; apply N1, in_or_app; auto|auto]. Qed.

(** The producers. *)
Lemma outs_get : forall ns d i, (forall a b o, In a ns -> In b ns -> In o (o_out a) -> In o (o_out b) -> a = b) ->
  get (fold_left (fun d n => fold_left (fun d o => put d o (o_name n)) (o_out n) d) ns d) i = match find (fun n => mem i (o_out n)) ns with Some n => Some (o_name n) | None => get d i end.
Proof.
  induction ns as [|n ns IH]; intros d i U; [reflexivity|]. cbn [fold_left find]. rewrite IH by (intros a b o Ia Ib; apply U; right; assumption).
  rewrite (fold_put_get (fun o => o) (fun _ => o_name n)) by reflexivity.
  assert (E : match find (fun b => String.eqb b i) (o_out n) with Some _ => true | None => false end = mem i (o_out n)).
  { destruct (find (fun b => String.eqb b i) (o_out n)) as [o|] eqn:E; symmetry.
    - apply find_some in E as [I E]. apply String.eqb_eq in E. subst. apply mem_in. exact I.
    - apply mem_not. intros I. apply (find_none _ _ E) in I. rewrite String.eqb_refl in I. discriminate. }
  destruct (find (fun n0 => mem i (o_out n0)) ns) as [n'|] eqn:F.
  - apply find_some in F as [I' F]. destruct (mem i (o_out n)) eqn:M; [|reflexivity]. apply mem_in in M, F. rewrite (U n n' i (or_introl eq_refl) (or_intror I') M F). reflexivity.
  - destruct (find (fun b => String.eqb b i) (o_out n)); rewrite <- E; reflexivity.
Qed.
Lemma prod_input i : In i inputs -> get prod i = Some i.
Proof.
  intros I. unfold prod, producers. rewrite (fold_put_get (fun i => i) (fun i => i)) by (intros; assumption). destruct (find (fun b => String.eqb b i) inputs) as [b|] eqn:E.
  - apply find_some in E as [_ E]. apply String.eqb_eq in E. congruence.
  - apply (find_none _ _ E) in I. rewrite String.eqb_refl in I. discriminate.
Qed.
Lemma prod_node i n : In n nodes -> In i (o_out n) -> get prod i = Some (o_name n).
Proof.
  intros I O. unfold prod, producers. rewrite (fold_put_get (fun i => i) (fun i => i)) by (intros; assumption). destruct (find (fun b => String.eqb b i) inputs) as [b|] eqn:E.
  - apply find_some in E as [J E]. apply String.eqb_eq in E. subst b. exfalso. apply (in_not_out i J). apply in_flat_map. eauto.
  - rewrite outs_get by exact out_eq. destruct (find (fun n0 => mem i (o_out n0)) nodes) as [n'|] eqn:F.
    + apply find_some in F as [I' F]. apply mem_in in F. rewrite (out_eq n n' i I I' O F). reflexivity.
    + apply (find_none _ _ F) in I. apply mem_in in O. congruence.
Qed.
(** [deps n]: the producers of the inputs of a node that are not initializers. *)
Definition src (i : string) : list string := if has init i then [] else match get prod i with Some p => [p] | None => [] end.
Definition deps (n : onode) : list string := flat_map src (o_in n).
Lemma src_one n i : In n nodes -> In i (o_in n) -> has init i = false -> exists p, get prod i = Some p /\ src i = [p] /\ In p (inputs ++ map o_name nodes).
Proof.
  intros I J H. unfold src. rewrite H. destruct (sd_known _ W n I i J) as [K|[K|K]].
  - apply init_has in K. congruence.
  - rewrite (prod_input i K). eexists. split; [reflexivity|]. split; [reflexivity|]. apply in_or_app. auto.
  - apply in_flat_map in K as (n' & I' & O). rewrite (prod_node i n' I' O). eexists. split; [reflexivity|]. split; [reflexivity|]. apply in_or_app. right. apply in_map. exact I'.
Qed.

(** Building the graph. *)
Definition succs (ns : list onode) (p : string) : list onode := flat_map (fun n => map (fun _ => n) (filter (String.eqb p) (deps n))) ns.
Lemma build_one n (I : In n nodes) : forall ins st, incl ins (o_in n) -> (exists d, get (fst st) (o_name n) = Some d) ->
  (forall p, In p (inputs ++ map o_name nodes) -> exists l, get (snd st) p = Some l) ->
  exists st', build_inputs V init prod n ins st = Ok st' /\ map fst (fst st') = map fst (fst st) /\
    (forall nm, get (fst st') nm = match get (fst st) nm with Some d => Some (d + (if String.eqb (o_name n) nm then Z.of_nat (length (flat_map src ins)) else 0)) | None => None end) /\
    (forall p, get (snd st') p = match get (snd st) p with Some l => Some (l ++ map (fun _ => n) (filter (String.eqb p) (flat_map src ins))) | None => None end).
Proof.
  induction ins as [|i r IH]; intros [deg edges] HI [d Ed] He.
  { exists (deg, edges). cbn. split; [reflexivity|]. split; [reflexivity|]. split; [intros nm; destruct (get deg nm); [destruct (String.eqb (o_name n) nm); f_equal; lia|reflexivity]|]. intros p. destruct (get edges p); [rewrite app_nil_r|]; reflexivity. }
  cbn [build_inputs]. destruct (has init i) eqn:Hi.
  { destruct (IH (deg, edges) ltac:(intros x X; apply HI; right; exact X) (ex_intro _ d Ed) He) as (st' & A & B & C & D). exists st'. cbn [flat_map]. unfold src at 1 3. rewrite Hi. cbn [app]. auto. }
  destruct (src_one n i I (HI i (or_introl eq_refl)) Hi) as (p & Ep & Es & Ip). destruct (He p Ip) as [l El]. cbn [fst snd] in *. unfold lookup. rewrite Ed. cbn [bind]. rewrite Ep. cbn [bind]. rewrite El. cbn [bind].
  destruct (IH (put deg (o_name n) (d + 1), put edges p (l ++ [n]))) as (st' & A & B & C & D).
  - intros x X. apply HI. right. exact X.
  - cbn [fst]. rewrite get_put, String.eqb_refl. eauto.
  - cbn [snd]. intros q Iq. rewrite get_put. destruct (String.eqb p q); [eauto|auto].
  - exists st'. split; [exact A|]. cbn [fst snd flat_map] in *. rewrite Es. split; [|split].
    + rewrite B, put_fst. unfold has. rewrite Ed. reflexivity.
    + intros nm. rewrite C, get_put. destruct (String.eqb_spec (o_name n) nm) as [<-|Ne]; [rewrite Ed, app_length; cbn [length]; f_equal; lia|destruct (get deg nm); reflexivity].
    + intros q. rewrite D, get_put. cbn [app filter]. rewrite (String.eqb_sym q p). destruct (String.eqb_spec p q) as [<-|Ne]; [rewrite El; cbn [map]; rewrite <- app_assoc; reflexivity|reflexivity].
Qed.
Lemma build_all : forall ns st, incl ns nodes -> NoDup (map o_name ns) -> (forall n, In n ns -> exists d, get (fst st) (o_name n) = Some d) ->
  (forall p, In p (inputs ++ map o_name nodes) -> exists l, get (snd st) p = Some l) ->
  exists st', build_graph V init prod ns st = Ok st' /\ map fst (fst st') = map fst (fst st) /\
    (forall nm, get (fst st') nm = match get (fst st) nm with Some d => Some (d + match find (named nm) ns with Some n => Z.of_nat (length (deps n)) | None => 0 end) | None => None end) /\
    (forall p, get (snd st') p = match get (snd st) p with Some l => Some (l ++ succs ns p) | None => None end).
Proof.
  induction ns as [|n ns IH]; intros st HI N Hd He.
  { exists st. cbn. split; [reflexivity|]. split; [reflexivity|]. split; [intros nm; destruct (get (fst st) nm); [f_equal; lia|reflexivity]|]. intros p. destruct (get (snd st) p); [rewrite app_nil_r|]; reflexivity. }
  cbn [map] in N. apply NoDup_cons_iff in N as [N1 N2]. cbn [build_graph].
  destruct (build_one n (HI n (or_introl eq_refl)) (o_in n) st (incl_refl _) (Hd n (or_introl eq_refl)) He) as (st1 & A & B & C & D). rewrite A. cbn [bind].
  destruct (IH st1) as (st' & A' & B' & C' & D').
  - intros x X. apply HI. right. exact X.
  - exact N2.
  - intros n' I'. rewrite C. destruct (Hd n' (or_intror I')) as [d ->]. eauto.
  - intros p Ip. rewrite D. destruct (He p Ip) as [l ->]. eauto.
  - exists st'. split; [exact A'|]. split; [congruence|]. split.
    + intros nm. rewrite C', C. destruct (get (fst st) nm) as [d|]; [|reflexivity]. cbn [find]. change (named nm n) with (String.eqb (o_name n) nm). destruct (String.eqb_spec (o_name n) nm) as [<-|Ne]; [|f_equal; lia].
      destruct (find (named (o_name n)) ns) as [n'|] eqn:F; [|unfold deps; f_equal; lia]. apply find_some in F as [I' F]. apply String.eqb_eq in F. exfalso. apply N1. rewrite <- F. apply in_map. exact I'.
    + intros p. rewrite D', D. destruct (get (snd st) p); [|reflexivity]. unfold succs at 2. cbn [flat_map]. rewrite <- app_assoc. reflexivity.
Qed.

(** The state of the main loop: [done] are the names already popped. *)
Definition open (n : onode) (done : list string) : list string := filter (fun p => negb (mem p done)) (deps n).
Record inv (deg : list (string * Z)) (root : list string) (sorted : list onode) (done : list string) : Prop := {
  iv_nodup : NoDup (root ++ done);
  iv_deg : forall nm, get deg nm = match find (named nm) nodes with Some n => Some (Z.of_nat (length (open n done))) | None => None end;
  iv_in : forall nm, In nm (root ++ done) <-> In nm inputs \/ exists n, In n nodes /\ o_name n = nm /\ open n done = [];
  iv_sorted : forall n, In n sorted <-> In n nodes /\ In (o_name n) done;
  iv_names : NoDup (map o_name sorted);
  iv_order : ordered m sorted }.
Lemma find_name n : In n nodes -> find (named (o_name n)) nodes = Some n.
Proof.
  intros I. destruct (find (named (o_name n)) nodes) as [n'|] eqn:E.
  - apply find_some in E as [I' E]. apply String.eqb_eq in E. f_equal. apply node_eq; assumption.
  - apply (find_none _ _ E) in I. unfold named in I. rewrite String.eqb_refl in I. discriminate.
Qed.
Lemma name_get n : In n nodes -> get (name2node V m) (o_name n) = Some n.
Proof.
  intros I. unfold name2node. rewrite (fold_put_get o_name (fun n => n)) by (intros; apply node_eq; assumption). change (fun b => String.eqb (o_name b) (o_name n)) with (named (o_name n)). rewrite find_name by exact I. reflexivity.
Qed.
Lemma open_count nm done : ~ In nm done -> forall l, length (filter (fun p => negb (mem p done)) l) = (length (filter (fun p => negb (mem p (nm :: done))) l) + length (filter (String.eqb nm) l))%nat.
Proof.
  intros N. induction l as [|x l IH]; [reflexivity|]. cbn [filter]. change (mem x (nm :: done)) with (String.eqb x nm || mem x done). rewrite (String.eqb_sym x nm). destruct (String.eqb_spec nm x) as [<-|Ne].
  - apply mem_not in N. rewrite N. cbn [negb orb length]. rewrite IH. lia.
  - cbn [orb]. destruct (mem x done); cbn [negb length]; rewrite IH; lia.
Qed.
Lemma cnt_succs n p : In n nodes -> cnt (succs nodes p) (o_name n) = Z.of_nat (length (filter (String.eqb p) (deps n))).
Proof.
  intros I. unfold cnt. f_equal. pose proof (sd_names _ W) as N. revert I. unfold succs. generalize dependent nodes. induction l as [|x l IH]; intros N I; [destruct I|]. cbn [map] in N. apply NoDup_cons_iff in N as [N1 N2].
  cbn [flat_map]. rewrite filter_app, app_length.
  assert (F : forall (y : onode) (l0 : list string), filter (named (o_name n)) (map (fun _ => y) l0) = if String.eqb (o_name y) (o_name n) then map (fun _ => y) l0 else []).
  { intros y l0. induction l0 as [|z l0 IH0]; cbn [map filter]; [destruct (String.eqb _ _); reflexivity|]. unfold named at 1. rewrite IH0. destruct (String.eqb (o_name y) (o_name n)); reflexivity. }
  rewrite F. destruct I as [->|I].
  - rewrite String.eqb_refl, map_length. assert (Z0 : filter (named (o_name n)) (flat_map (fun n0 => map (fun _ => n0) (filter (String.eqb p) (deps n0))) l) = []); [|rewrite Z0; cbn [length]; lia].
    clear - N1 F. induction l as [|y l IH]; [reflexivity|]. cbn [flat_map]. rewrite filter_app, F. destruct (String.eqb_spec (o_name y) (o_name n)) as [E|E]; [exfalso; apply N1; left; exact E|]. apply IH. intros K. apply N1. right. exact K.
  - destruct (String.eqb_spec (o_name x) (o_name n)) as [E|E]; [exfalso; apply N1; rewrite E; apply in_map; exact I|]. cbn [length Nat.add]. apply IH; assumption.
Qed.
Lemma succs_in p n : In n (succs nodes p) -> In n nodes.
Proof. unfold succs. rewrite in_flat_map. intros (x & I & J). apply in_map_iff in J as (_ & <- & _). exact I. Qed.
Lemma ordered_snoc l n : ordered m l -> ready m l n -> ordered m (l ++ [n]).
Proof.
  intros O Rd a x b E. destruct b as [|y b] using rev_ind.
  - apply app_inj_tail in E as [-> ->]. exact Rd.
  - clear IHb. rewrite app_comm_cons, app_assoc in E. apply app_inj_tail in E as [E _]. exact (O a x b E).
Qed.
Section Loop.
Variable edges : list (string * list onode).
Hypothesis HE : forall p, In p (inputs ++ map o_name nodes) -> get edges p = Some (succs nodes p).
Lemma step_ok f deg nm rest sorted done : inv deg (nm :: rest) sorted done ->
  exists deg' root' sorted', sort_loop (S f) inputs (name2node V m) edges deg (nm :: rest) sorted = sort_loop f inputs (name2node V m) edges deg' root' sorted' /\ inv deg' root' sorted' (nm :: done).
Proof.
  intros X. destruct X as [X1 X2 X3 X4 X5 X6]. cbn [app] in X1. apply NoDup_cons_iff in X1 as [X0 X1]. assert (Nd : ~ In nm done) by (intros I; apply X0, in_or_app; auto).
  assert (Mono : forall n, open n done = [] -> open n (nm :: done) = []).
  { intros n E. pose proof (open_count nm done Nd (deps n)) as C. fold (open n done) in C. fold (open n (nm :: done)) in C. rewrite E in C. cbn [length] in C. destruct (open n (nm :: done)); [reflexivity|cbn [length] in C; lia]. }
  assert (S1 : exists sorted', (if mem nm inputs then Ok sorted else do n <- lookup (name2node V m) nm; Ok (sorted ++ [n])) = Ok sorted' /\
     (forall n, In n sorted' <-> In n nodes /\ In (o_name n) (nm :: done)) /\ NoDup (map o_name sorted') /\ ordered m sorted' /\ In nm (inputs ++ map o_name nodes)).
  { destruct (proj1 (X3 nm) (or_introl eq_refl)) as [I|(n & I & E & O)].
    - assert (M : mem nm inputs = true) by (apply mem_in; exact I). rewrite M. exists sorted. split; [reflexivity|]. split; [|split; [exact X5|split; [exact X6|apply in_or_app; auto]]].
      intros n. rewrite X4. cbn [In]. split; [tauto|]. intros [A [B|B]]; [|tauto]. exfalso. apply (sd_apart _ W nm I). rewrite B. apply in_map. exact A.
    - assert (M : mem nm inputs = false) by (apply mem_not; intros J; apply (sd_apart _ W nm J); rewrite <- E; apply in_map; exact I). rewrite M. subst nm. unfold lookup. rewrite name_get by exact I. cbn [bind]. exists (sorted ++ [n]). split; [reflexivity|]. split; [|split; [|split]].
      + intros n'. rewrite in_app_iff, X4. cbn [In]. split.
        * intros [[A B]|[<-|[]]]; [tauto|split; [exact I|left; reflexivity]].
        * intros [A [B|B]]; [right; left; apply node_eq; assumption|left; tauto].
      + rewrite map_app. cbn [map]. apply (Permutation_NoDup (Permutation_cons_append _ _)). constructor; [|exact X5]. intros K. apply in_map_iff in K as (n' & E' & K). apply X4 in K as [_ K]. rewrite E' in K. contradiction.
      + apply ordered_snoc; [exact X6|]. intros i Hi. destruct (has init i) eqn:Hh; [left; apply init_has; exact Hh|]. right.
        destruct (src_one n i I Hi Hh) as (p & Ep & Es & _). assert (Dp : In p done).
        { destruct (mem p done) eqn:Mp; [apply mem_in; exact Mp|]. exfalso. assert (K : In p (open n done)); [|rewrite O in K; exact K]. apply filter_In. split; [|rewrite Mp; reflexivity]. apply in_flat_map. exists i. rewrite Es. split; [exact Hi|left; reflexivity]. }
        destruct (sd_known _ W n I i Hi) as [K|[K|K]]; [apply init_has in K; fold init in K; congruence|left; exact K|]. right.
        apply in_flat_map in K as (n' & I' & O'). rewrite (prod_node i n' I' O') in Ep. injection Ep as <-. apply in_flat_map. exists n'. split; [apply X4; split; assumption|exact O'].
      + apply in_or_app. right. apply in_map. exact I. }
  destruct S1 as (sorted' & E1 & A4 & A5 & A6 & Ip). cbn [sort_loop]. rewrite E1. cbn [bind]. unfold lookup at 1. rewrite (HE nm Ip). cbn [bind].
  assert (D0 : forall n, In n nodes -> get deg (o_name n) = Some (Z.of_nat (length (open n done)))) by (intros n I; rewrite X2, find_name by exact I; reflexivity).
  assert (LE : forall n, In n nodes -> Z.of_nat (length (open n done)) = Z.of_nat (length (open n (nm :: done))) + cnt (succs nodes nm) (o_name n)).
  { intros n I. rewrite cnt_succs by exact I. unfold open. rewrite (open_count nm done Nd (deps n)). lia. }
  destruct (relax_ok (succs nodes nm) deg rest) as (deg' & pushed & Er & G & Np & Ipu).
  - intros n I. apply succs_in in I. rewrite D0 by exact I. eauto.
  - intros x d. rewrite X2. destruct (find (named x) nodes) as [n|] eqn:F; [|discriminate]. apply find_some in F as [I F]. apply String.eqb_eq in F. subst x. intros H. apply some_inj in H. subst d. rewrite LE by exact I. lia.
  - rewrite Er. cbn [bind fst snd]. exists deg', (pushed ++ rest), sorted'. split; [reflexivity|].
    assert (PU : forall x, In x pushed <-> exists n, In n nodes /\ o_name n = x /\ open n (nm :: done) = [] /\ open n done <> []).
    { intros x. rewrite Ipu. split.
      - intros [C1 C2]. rewrite X2 in C2. destruct (find (named x) nodes) as [n|] eqn:F; [|discriminate]. apply find_some in F as [I F]. apply String.eqb_eq in F. subst x. apply some_inj in C2. pose proof (LE n I) as L. exists n. split; [exact I|]. split; [reflexivity|].
        split; [destruct (open n (nm :: done)); [reflexivity|cbn [length] in L; lia]|intros E; rewrite E in C2; cbn [length] in C2; lia].
      - intros (n & I & <- & O1 & O2). pose proof (LE n I) as L. rewrite O1 in L. cbn [length] in L. rewrite D0 by exact I. rewrite L. split; [|f_equal; lia]. destruct (open n done); [congruence|cbn [length] in L; lia]. }
    split.
    + rewrite <- app_assoc. apply (Permutation_NoDup (l := pushed ++ (nm :: rest ++ done))); [apply Permutation_app_head; apply Permutation_middle|].
      assert (Old : NoDup (nm :: rest ++ done)) by (constructor; assumption).
      assert (Dj : forall x, In x pushed -> ~ In x (nm :: rest ++ done)).
      { intros x Ix J. apply PU in Ix as (n & I & <- & O1 & O2). change (nm :: rest ++ done) with ((nm :: rest) ++ done) in J. apply X3 in J as [J|(n' & I' & E' & O')]; [exact (sd_apart _ W _ J (in_map o_name _ _ I))|]. apply O2. rewrite <- (node_eq n' n I' I E'). exact O'. }
      clear - Np Old Dj. induction pushed as [|x pushed IH]; [exact Old|]. apply NoDup_cons_iff in Np as [N1 N2]. cbn [app]. constructor; [|apply IH; [exact N2|intros y Y; apply Dj; right; exact Y]]. rewrite in_app_iff. intros [J|J]; [contradiction|]. exact (Dj x (or_introl eq_refl) J).
    + intros x. rewrite G, X2. destruct (find (named x) nodes) as [n|] eqn:F; [|reflexivity]. apply find_some in F as [I F]. apply String.eqb_eq in F. subst x. rewrite (LE n I). f_equal. lia.
    + intros x. rewrite !in_app_iff. cbn [In]. rewrite PU. assert (OLD : x = nm \/ In x rest \/ In x done <-> In x inputs \/ exists n, In n nodes /\ o_name n = x /\ open n done = []).
      { rewrite <- X3, in_app_iff. cbn [In]. intuition congruence. }
      split.
      * intros [[(n & I & E & O1 & _)|J]|[J|J]]; [right; exists n; auto| | |].
        -- destruct (proj1 OLD (or_intror (or_introl J))) as [K|(n & I & E & O)]; [auto|]. right. exists n. auto.
        -- destruct (proj1 OLD (or_introl (eq_sym J))) as [K|(n & I & E & O)]; [auto|]. right. exists n. auto.
        -- destruct (proj1 OLD (or_intror (or_intror J))) as [K|(n & I & E & O)]; [auto|]. right. exists n. auto.
      * intros J. assert (K : (exists n, In n nodes /\ o_name n = x /\ open n (nm :: done) = [] /\ open n done <> []) \/ (x = nm \/ In x rest \/ In x done)).
        { destruct J as [J|(n & I & E & O)]; [right; apply OLD; auto|]. destruct (open n done) eqn:Od; [right; apply OLD; right; exists n; auto|]. left. exists n. rewrite Od. split; [exact I|]. split; [exact E|]. split; [exact O|discriminate]. }
        intuition.
    + exact A4.
    + exact A5.
    + exact A6.
Qed.
Lemma loop_ok : forall fuel deg root sorted done, inv deg root sorted done -> (length inputs + length nodes < length done + fuel)%nat ->
  exists deg' sorted' done', sort_loop fuel inputs (name2node V m) edges deg root sorted = Ok sorted' /\ inv deg' [] sorted' done'.
Proof.
  assert (SM : forall deg root sorted done, inv deg root sorted done -> (length (root ++ done) <= length inputs + length nodes)%nat).
  { intros deg root sorted done X. rewrite <- (map_length o_name nodes), <- app_length. apply NoDup_incl_length; [exact (iv_nodup _ _ _ _ X)|]. intros x Ix. apply (iv_in _ _ _ _ X) in Ix as [I|(n & I & <- & _)]; apply in_or_app; [auto|right; apply in_map; exact I]. }
  induction fuel as [|f IH]; intros deg root sorted done X Hf; (destruct root as [|nm rest]; [exists deg, sorted, done; split; [destruct deg; reflexivity|exact X]|]).
  - exfalso. pose proof (SM _ _ _ _ X) as L. rewrite app_length in L. cbn [length] in L. lia.
  - destruct (step_ok f deg nm rest sorted done X) as (deg' & root' & sorted' & E & X'). rewrite E. apply (IH deg' root' sorted' (nm :: done) X'). cbn [length]. lia.
Qed.
End Loop.
Lemma sorted_result : exists sorted done deg, inv deg [] sorted done /\ topo_sort V m = if Nat.eqb (length sorted) (length nodes) then Ok (with_nodes V m sorted) else Raise RuntimeError.
Proof.
  unfold topo_sort. fold init prod.
  assert (D0 : forall nm, get (degrees0 V m) nm = match find (named nm) nodes with Some n => Some 0 | None => None end).
  { intros nm. unfold degrees0. rewrite (fold_put_get o_name (fun _ => 0)) by reflexivity. change (fun b => String.eqb (o_name b) nm) with (named nm). destruct (find (named nm) nodes); reflexivity. }
  assert (E0 : forall p, In p (inputs ++ map o_name nodes) -> get (edges0 V m) p = Some []).
  { intros p Ip. unfold edges0. rewrite (fold_put_get (fun i => i) (fun _ => [])) by reflexivity. destruct (find (fun b => String.eqb b p) inputs) as [b|] eqn:F; [reflexivity|]. rewrite (fold_put_get o_name (fun _ => [])) by reflexivity.
    destruct (find (fun b => String.eqb (o_name b) p) nodes) as [b|] eqn:F2; [reflexivity|]. exfalso. apply in_app_or in Ip as [I|I]; [apply (find_none _ _ F) in I; rewrite String.eqb_refl in I; discriminate|]. apply in_map_iff in I as (n & E & I). apply (find_none _ _ F2) in I. rewrite E, String.eqb_refl in I. discriminate. }
  assert (K0 : map fst (degrees0 V m) = map o_name nodes).
  { unfold degrees0. rewrite (fold_put_fst o_name (fun _ => 0)); [reflexivity|exact (sd_names _ W)]. }
  destruct (build_all nodes (degrees0 V m, edges0 V m)) as (st & A & B & C & D).
  - apply incl_refl.
  - exact (sd_names _ W).
  - intros n I. cbn [fst]. rewrite D0, find_name by exact I. eauto.
  - intros p Ip. cbn [snd]. rewrite E0 by exact Ip. eauto.
  - rewrite A. cbn [bind]. destruct st as [deg edges]. cbn [fst snd] in *.
    assert (G : forall nm, get deg nm = match find (named nm) nodes with Some n => Some (Z.of_nat (length (deps n))) | None => None end).
    { intros nm. rewrite C, D0. destruct (find (named nm) nodes); [f_equal; lia|reflexivity]. }
    assert (O0 : forall n, open n [] = deps n) by (intros n; unfold open; induction (deps n) as [|x l IH]; [reflexivity|cbn [filter mem existsb negb]; f_equal; exact IH]).
    assert (Z0 : forall nm, In nm (map fst (filter (fun kv => snd kv =? 0) deg)) <-> exists n, In n nodes /\ o_name n = nm /\ open n [] = []).
    { assert (Nk : NoDup (map fst deg)) by (rewrite B, K0; exact (sd_names _ W)). intros nm. split.
      - intros I. apply in_map_iff in I as ([k v] & E & I). apply filter_In in I as [I Zv]. cbn [fst snd] in *. subst k. apply (get_nodup _ _ _ Nk) in I. rewrite G in I. destruct (find (named nm) nodes) as [n|] eqn:F; [|discriminate]. apply find_some in F as [In' F]. apply String.eqb_eq in F. exists n. split; [exact In'|]. split; [exact F|]. rewrite O0. apply some_inj in I. destruct (deps n); [reflexivity|cbn [length] in I; lia].
      - intros (n & I & <- & O). rewrite O0 in O. apply in_map_iff. exists (o_name n, 0). split; [reflexivity|]. apply filter_In. split; [|reflexivity]. apply get_in. rewrite G, find_name, O by exact I. reflexivity. }
    assert (IV : inv deg (rev (inputs ++ map fst (filter (fun kv => snd kv =? 0) deg))) [] []).
    { split.
      - rewrite app_nil_r. apply NoDup_rev. assert (N2 : NoDup (map fst (filter (fun kv => snd kv =? 0) deg))).
        { assert (Nk : NoDup (map fst deg)) by (rewrite B, K0; exact (sd_names _ W)). clear - Nk. induction deg as [|[k v] deg IH]; [constructor|]. cbn [map fst] in Nk. apply NoDup_cons_iff in Nk as [N1 N2]. cbn [filter snd]. destruct (v =? 0); [|auto]. cbn [map fst]. constructor; [|auto]. intros I. apply N1. apply in_map_iff in I as (x & E & I). apply filter_In in I as [I _]. rewrite <- E. apply in_map. exact I. }
        pose proof inputs_nodup as N1. assert (Dj : forall x, In x inputs -> ~ In x (map fst (filter (fun kv => snd kv =? 0) deg))). { intros x Ix J. apply Z0 in J as (n & I & <- & _). exact (sd_apart _ W _ Ix (in_map o_name _ _ I)). }
        clear - N1 N2 Dj. induction inputs as [|x l IH]; [exact N2|]. apply NoDup_cons_iff in N1 as [M1 M2]. cbn [app]. constructor; [|apply IH; [exact M2|intros y Y; apply Dj; right; exact Y]]. rewrite in_app_iff. intros [J|J]; [contradiction|]. exact (Dj x (or_introl eq_refl) J).
      - intros nm. rewrite G. destruct (find (named nm) nodes); [rewrite O0|]; reflexivity.
      - intros nm. rewrite app_nil_r, <- in_rev, in_app_iff, Z0. reflexivity.
      - intros n. cbn. tauto.
      - constructor.
      - intros a n b E. destruct a; discriminate. }
    assert (HE : forall p, In p (inputs ++ map o_name nodes) -> get edges p = Some (succs nodes p)) by (intros p Ip; rewrite D, E0 by exact Ip; reflexivity).
    destruct (loop_ok edges HE (S (length inputs + length nodes)) _ _ _ _ IV) as (deg' & sorted & done & E & IV').
    + cbn [length]. lia.
    + exists sorted, done, deg'. split; [exact IV'|]. rewrite E. reflexivity.
Qed.
End Sort.

(** The result has the same nodes, each after the producers of its inputs. *)
Theorem C118_sorted_partial m m' : sound m -> topo_sort V m = Ok m' ->
  Permutation (m_node _ m') (m_node _ m) /\ ordered m' (m_node _ m') /\
  m_init _ m' = m_init _ m /\ m_in _ m' = m_in _ m /\ m_out _ m' = m_out _ m.
Proof.
  intros W E. destruct (sorted_result m W) as (sorted & done & deg & X & T). rewrite T in E. destruct (Nat.eqb_spec (length sorted) (length (m_node _ m))) as [L|L]; [|discriminate]. apply Ok_inj in E. subst m'. cbn [with_nodes m_node m_init m_in m_out].
  split; [|split; [exact (iv_order _ _ _ _ _ X)|auto]].
  apply NoDup_Permutation_bis; [apply (NoDup_map_inv o_name); exact (iv_names _ _ _ _ _ X)|lia|]. intros n I. apply (iv_sorted _ _ _ _ _ X) in I. exact (proj1 I).
Qed.
(** It fails only when there is no such order. *)
Theorem C118_order_partial m : sound m ->
  ((exists m', topo_sort V m = Ok m') <-> exists l, Permutation l (m_node _ m) /\ ordered m l) /\
  (forall e, topo_sort V m = Raise e -> e = RuntimeError).
Proof.
  intros W. split; [split|].
  - intros [m' E]. destruct (C118_sorted_partial m m' W E) as (P & O & A & B & _). exists (m_node _ m'). split; [exact P|]. intros a n b H. pose proof (O a n b H) as Rd. unfold ready in *. rewrite A, B in Rd. exact Rd.
  - intros (l & P & O). destruct (sorted_result m W) as (sorted & done & deg & X & T). rewrite T.
    assert (Dn : forall b a, l = a ++ b -> forall n, In n a -> In (o_name n) done).
    { intros b a. revert b. induction a as [|x a IH] using rev_ind; intros b E n I; [destruct I|]. apply in_app_or in I as [I|[<-|[]]]; [apply (IH ([x] ++ b)); [rewrite E, <- app_assoc; reflexivity|exact I]|].
      rewrite <- app_assoc in E. cbn [app] in E. assert (Ix : In x (m_node _ m)) by (apply (Permutation_in _ P); rewrite E; apply in_or_app; right; left; reflexivity).
      pose proof (O a x b E) as Rd. assert (Op : open m x done = []).
      { unfold open, deps. destruct (filter _ _) as [|p r] eqn:F; [reflexivity|]. exfalso. assert (J : In p (p :: r)) by (left; reflexivity). rewrite <- F in J. apply filter_In in J as [J Np]. apply negb_true_iff, mem_not in Np. apply Np. clear F Np. apply in_flat_map in J as (i & Hi & Hs).
        unfold src in Hs. destruct (has (map_name_and_initializer V m) i) eqn:Hh; [destruct Hs|]. destruct (Rd i Hi) as [K|[K|K]].
        - apply (init_has m) in K. congruence.
        - rewrite (prod_input m i K) in Hs. destruct Hs as [<-|[]]. assert (Z : In i ([] ++ done)) by (apply (iv_in _ _ _ _ _ X); auto). exact Z.
        - apply in_flat_map in K as (n' & I' & O'). assert (In' : In n' (m_node _ m)) by (apply (Permutation_in _ P); rewrite E; apply in_or_app; auto). rewrite (prod_node m W i n' In' O') in Hs. destruct Hs as [<-|[]]. apply (IH (x :: b) E n' I'). }
      assert (Z : In (o_name x) ([] ++ done)) by (apply (iv_in _ _ _ _ _ X); right; exists x; auto). exact Z. }
    assert (L : length sorted = length (m_node _ m)).
    { apply Permutation_length. apply NoDup_Permutation; [apply (NoDup_map_inv o_name); exact (iv_names _ _ _ _ _ X)|apply (NoDup_map_inv o_name); exact (sd_names _ W)|]. intros n. rewrite (iv_sorted _ _ _ _ _ X). split; [tauto|]. intros I. split; [exact I|]. apply (Dn [] l); [symmetry; apply app_nil_r|]. apply (Permutation_in _ (Permutation_sym P)). exact I. }
    rewrite L, Nat.eqb_refl. eauto.
  - intros e E. destruct (sorted_result m W) as (sorted & done & deg & X & T). rewrite T in E. destruct (Nat.eqb _ _); congruence.
Qed.
End Spec.

(** ONNX leaves out an optional input by giving it the empty name, and node names are optional;
    neither is understood.  The full claims: *)
Definition valid_order (V : Type) (m : omodel V) (l : list onode) : Prop :=
  forall a n b, l = a ++ n :: b -> forall i, In i (o_in n) -> i = "" \/ In i (map fst (m_init _ m)) \/ In i (m_in _ m) \/ In i (flat_map o_out a).
Definition C118_optional_claim : Prop :=
  forall (V : Type) (m : omodel V), NoDup (map o_name (m_node _ m)) -> (forall i, In i (m_in _ m) -> ~ In i (map o_name (m_node _ m))) ->
    NoDup (m_in _ m ++ flat_map o_out (m_node _ m)) -> valid_order V m (m_node _ m) -> exists m', topo_sort V m = Ok m'.
Definition C118_unnamed_claim : Prop :=
  forall (V : Type) (m : omodel V), (forall i, In i (m_in _ m) -> ~ In i (map o_name (m_node _ m))) ->
    NoDup (m_in _ m ++ flat_map o_out (m_node _ m)) -> ordered V m (m_node _ m) -> exists m', topo_sort V m = Ok m'.
Definition nd (nm op : string) (i o : list string) : onode := {| o_name := nm; o_op := op; o_attr := 0; o_in := i; o_out := o |}.
Definition ex_clip : omodel nat := {| m_node := [nd "clip" "Clip" ["x"; ""; "max"] ["y"]]; m_init := [("max", 6%nat)]; m_in := ["x"]; m_out := ["y"] |}.
Theorem C118_optional_refuted : ~ C118_optional_claim.
Proof.
  intros H. destruct (H nat ex_clip) as [m' E].
  - repeat constructor. intros [].
  - intros i [<-|[]] [K|[]]. discriminate.
  - repeat constructor; cbn; intuition discriminate.
  - intros a n b E i Hi. destruct a as [|x [|y a]]; [|discriminate|discriminate]. injection E as <- _. cbn in Hi |- *. destruct Hi as [<-|[<-|[<-|[]]]]; auto 10.
  - vm_compute in E. discriminate E.
Qed.
Definition ex_unnamed : omodel nat := {| m_node := [nd "" "Relu" ["x"] ["y"]; nd "" "Relu" ["y"] ["z"]]; m_init := []; m_in := ["x"]; m_out := ["z"] |}.
Theorem C118_unnamed_refuted : ~ C118_unnamed_claim.
Proof.
  intros H. destruct (H nat ex_unnamed) as [m' E].
  - intros i [<-|[]] [K|[K|[]]]; discriminate.
  - repeat constructor; cbn; intuition discriminate.
  - intros a n b E i Hi. destruct a as [|x [|y [|z a]]]; try discriminate E; injection E; intros; subst; cbn in *; tauto.
  - vm_compute in E. discriminate E.
Qed.
(** A graph out of order, with a node fed twice by the same tensor and one fed by weights only. *)
Definition ex_graph : omodel nat :=
  {| m_node := [nd "add" "Add" ["c"; "c"] ["out"]; nd "conv" "Conv" ["x"; "wq"] ["c"]; nd "quant" "FakeQuantize" ["w"; "lo"; "hi"] ["wq"]];
     m_init := [("w", 1%nat); ("lo", 2%nat); ("hi", 3%nat)]; m_in := ["x"]; m_out := ["out"] |}.
Example C118_case : sound nat ex_graph /\
  (match topo_sort nat ex_graph with Ok m' => map o_name (m_node _ m') = ["quant"; "conv"; "add"] | Raise _ => False end) /\
  topo_sort nat (with_nodes nat ex_graph [nd "a" "Add" ["x"; "v"] ["u"]; nd "b" "Relu" ["u"] ["v"]]) = Raise RuntimeError.
Proof.
  split; [|split; [vm_compute; reflexivity|vm_compute; reflexivity]]. split.
  - repeat constructor; cbn; intuition discriminate.
  - intros i [<-|[]] K. cbn in K. intuition discriminate.
  - repeat constructor; cbn; intuition discriminate.
  - intros n I i Hi. cbn in I. destruct I as [<-|[<-|[<-|[]]]]; cbn in Hi |- *; tauto.
Qed.
Print Assumptions C118_sorted_partial.
Print Assumptions C118_order_partial.
Print Assumptions C118_optional_refuted.
Print Assumptions C118_unnamed_refuted.
