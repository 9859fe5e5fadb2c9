(** Lemmas on the ONNX clean-up: dictionaries and Kahn's algorithm. *)
From Coq Require Import String Permutation.
From Verif Require Import Prelude Onnx_Model.
Local Open Scope string_scope.
Local Open Scope list_scope.
Local Open Scope Z_scope.

(** ** Dictionaries *)
Lemma get_put {A} (d : list (string * A)) k v k' : get (put d k v) k' = if String.eqb k k' then Some v else get d k'.
Proof.
  induction d as [|[k0 v0] d IH]; cbn [put get]; [reflexivity|]. destruct (String.eqb_spec k0 k) as [->|N]; cbn [get].
  - destruct (String.eqb k k'); reflexivity.
  - rewrite IH. destruct (String.eqb_spec k0 k') as [->|N']; [|reflexivity]. destruct (String.eqb_spec k k') as [->|_]; [congruence|reflexivity].
Qed.
Lemma put_fst {A} (d : list (string * A)) k v : map fst (put d k v) = if has d k then map fst d else map fst d ++ [k].
Proof.
  unfold has. induction d as [|[k0 v0] d IH]; cbn [put get map fst]; [reflexivity|]. destruct (String.eqb_spec k0 k) as [->|N]; cbn [map fst]; [reflexivity|].
  rewrite IH. destruct (get d k); reflexivity.
Qed.
Lemma get_in {A} (d : list (string * A)) k v : get d k = Some v -> In (k, v) d.
Proof. induction d as [|[k0 v0] d IH]; cbn [get]; [discriminate|]. destruct (String.eqb_spec k0 k) as [->|N]; [intros [= ->]; left; reflexivity|right; auto]. Qed.
Lemma get_some {A} (d : list (string * A)) k : (exists v, get d k = Some v) <-> In k (map fst d).
Proof.
  split.
  - intros [v H]. apply get_in in H. apply in_map_iff. exists (k, v). auto.
  - induction d as [|[k0 v0] d IH]; cbn; [tauto|]. destruct (String.eqb_spec k0 k) as [->|N]; [eauto|]. intros [H|H]; [congruence|auto].
Qed.
Lemma get_none {A} (d : list (string * A)) k : get d k = None <-> ~ In k (map fst d).
Proof.
  rewrite <- get_some. destruct (get d k) as [v|]; [|split; [intros _ [v H]; discriminate|reflexivity]].
  split; [discriminate|]. intros H. exfalso. apply H. eauto.
Qed.
Lemma get_nodup {A} (d : list (string * A)) k v : NoDup (map fst d) -> In (k, v) d -> get d k = Some v.
Proof.
  induction d as [|[k0 v0] d IH]; intros N I; [destruct I|]. cbn [map fst] in N. apply NoDup_cons_iff in N as [N1 N2]. cbn [get]. destruct I as [I|I].
  - inversion I; subst. rewrite String.eqb_refl. reflexivity.
  - destruct (String.eqb_spec k0 k) as [->|_]; [|auto]. exfalso. apply N1. apply in_map_iff. exists (k, v). auto.
Qed.
Lemma has_in {A} (d : list (string * A)) k : has d k = true <-> In k (map fst d).
Proof. rewrite <- get_some. unfold has. destruct (get d k); split; try discriminate; eauto. intros [v H]. discriminate. Qed.
Lemma has_not {A} (d : list (string * A)) k : has d k = false <-> ~ In k (map fst d).
Proof. rewrite <- has_in. destruct (has d k); split; congruence. Qed.
Lemma mem_in k l : mem k l = true <-> In k l.
Proof. unfold mem. rewrite existsb_exists. split; [intros (x & I & E); apply String.eqb_eq in E; subst; exact I|intros I; exists k; split; [exact I|apply String.eqb_refl]]. Qed.
Lemma mem_not k l : mem k l = false <-> ~ In k l.
Proof. rewrite <- mem_in. destruct (mem k l); split; congruence. Qed.
Lemma fold_put_get {A B} (key : B -> string) (val : B -> A) : forall l d k,
  (forall b b', In b l -> In b' l -> key b = key b' -> val b = val b') ->
  get (fold_left (fun d b => put d (key b) (val b)) l d) k = match find (fun b => String.eqb (key b) k) l with Some b => Some (val b) | None => get d k end.
Proof.
  induction l as [|b l IH]; intros d k U; [reflexivity|]. cbn [fold_left find]. rewrite IH by (intros; apply U; auto; right; assumption). rewrite get_put.
  destruct (find (fun b => String.eqb (key b) k) l) as [b'|] eqn:E.
  - apply find_some in E as [I E]. apply String.eqb_eq in E. destruct (String.eqb_spec (key b) k) as [E'|E']; [|reflexivity]. f_equal. apply U; [right; exact I|left; reflexivity|congruence].
  - destruct (String.eqb (key b) k); reflexivity.
Qed.
Lemma fold_put_keys {A B} (key : B -> string) (val : B -> A) : forall l d k,
  In k (map fst (fold_left (fun d b => put d (key b) (val b)) l d)) <-> In k (map fst d) \/ In k (map key l).
Proof.
  induction l as [|b l IH]; intros d k; cbn [fold_left map]; [cbn; tauto|]. rewrite IH, put_fst. destruct (has d (key b)) eqn:E; [apply has_in in E|rewrite in_app_iff; cbn; tauto].
  cbn. split; [tauto|]. intros [H|[H|H]]; [tauto|subst; tauto|tauto].
Qed.
Lemma fold_put_fst {A B} (key : B -> string) (val : B -> A) : forall l d,
  NoDup (map fst d ++ map key l) -> map fst (fold_left (fun d b => put d (key b) (val b)) l d) = map fst d ++ map key l.
Proof.
  induction l as [|b l IH]; intros d N; cbn [fold_left map]; [rewrite app_nil_r; reflexivity|]. cbn [map] in N.
  assert (E : has d (key b) = false). { apply has_not. intros I. apply NoDup_remove_2 in N. apply N. apply in_or_app. auto. }
  rewrite IH; rewrite put_fst, E; rewrite <- app_assoc; [reflexivity|exact N].
Qed.

Lemma some_inj {A} (x y : A) : Some x = Some y -> x = y.
Proof. congruence. Qed.
(** ** Counting *)
Definition named (nm : string) (n : onode) : bool := String.eqb (o_name n) nm.
Definition cnt (l : list onode) (nm : string) : Z := Z.of_nat (length (filter (named nm) l)).
Lemma cnt_cons n l nm : cnt (n :: l) nm = (if String.eqb (o_name n) nm then 1 else 0) + cnt l nm.
Proof. unfold cnt. cbn [filter]. unfold named at 1. destruct (String.eqb (o_name n) nm); cbn [length]; lia. Qed.
Lemma cnt_app a b nm : cnt (a ++ b) nm = cnt a nm + cnt b nm.
Proof. unfold cnt. rewrite filter_app, app_length. lia. Qed.
Lemma cnt_nonneg l nm : 0 <= cnt l nm.
Proof. unfold cnt. lia. Qed.
Lemma cnt_pos l nm : 0 < cnt l nm -> exists n, In n l /\ o_name n = nm.
Proof.
  unfold cnt. destruct (filter (named nm) l) as [|n r] eqn:E; [cbn; lia|]. intros _. assert (I : In n (filter (named nm) l)) by (rewrite E; left; reflexivity). apply filter_In in I as [I X]. apply String.eqb_eq in X. eauto.
Qed.

(** ** The successors of one name *)
Lemma relax_ok : forall succ deg root,
  (forall n, In n succ -> exists d, get deg (o_name n) = Some d) ->
  (forall nm d, get deg nm = Some d -> cnt succ nm <= d) ->
  exists deg' pushed, relax succ deg root = Ok (deg', pushed ++ root) /\
    (forall nm, get deg' nm = match get deg nm with Some d => Some (d - cnt succ nm) | None => None end) /\
    NoDup pushed /\ (forall nm, In nm pushed <-> 0 < cnt succ nm /\ get deg nm = Some (cnt succ nm)).
Proof.
  induction succ as [|n r IH]; intros deg root Hd Hc.
  { exists deg, []. split; [reflexivity|]. split; [intros nm; cbn; destruct (get deg nm) as [d|]; [f_equal; cbn; lia|reflexivity]|]. split; [constructor|]. intros nm. cbn. lia. }
  destruct (Hd n (or_introl eq_refl)) as [d Ed]. cbn [relax]. unfold lookup. rewrite Ed. cbn [bind].
  pose proof (Hc _ _ Ed) as Hn. rewrite cnt_cons, String.eqb_refl in Hn. pose proof (cnt_nonneg r (o_name n)) as P0.
  destruct (IH (put deg (o_name n) (d - 1)) (if d - 1 =? 0 then o_name n :: root else root)) as (deg' & pushed & E & G & N & I).
  - intros n' In'. rewrite get_put. destruct (String.eqb (o_name n) (o_name n')); [eauto|]. apply Hd. right. exact In'.
  - intros nm d'. rewrite get_put. destruct (String.eqb_spec (o_name n) nm) as [<-|Ne].
    + intros [= <-]. lia.
    + intros Eg. specialize (Hc _ _ Eg). rewrite cnt_cons in Hc. destruct (String.eqb_spec (o_name n) nm); [congruence|]. lia.
  - assert (G' : forall nm, get deg' nm = match get deg nm with Some d0 => Some (d0 - cnt (n :: r) nm) | None => None end).
    { intros nm. rewrite G, get_put, cnt_cons. destruct (String.eqb_spec (o_name n) nm) as [<-|Ne]; [rewrite Ed; f_equal; lia|]. destruct (get deg nm); [f_equal; lia|reflexivity]. }
    destruct (Z.eqb_spec (d - 1) 0) as [Z0|NZ].
    + exists deg', (pushed ++ [o_name n]). rewrite <- app_assoc. split; [exact E|]. split; [exact G'|]. split.
      * apply (Permutation_NoDup (Permutation_cons_append pushed (o_name n))). constructor; [|exact N].
        rewrite I, get_put, String.eqb_refl. intros [A B]. apply some_inj in B. lia.
      * intros nm. rewrite in_app_iff, I, get_put, cnt_cons. cbn [In]. destruct (String.eqb_spec (o_name n) nm) as [<-|Ne].
        -- rewrite Ed. split; [intros _; split; [lia|f_equal; lia]|]. intros _. right. left. reflexivity.
        -- rewrite Z.add_0_l. split; [intros [H|[H|[]]]; [exact H|congruence]|intros H; left; exact H].
    + exists deg', pushed. split; [exact E|]. split; [exact G'|]. split; [exact N|]. intros nm. rewrite I, get_put, cnt_cons. destruct (String.eqb_spec (o_name n) nm) as [<-|Ne].
      * rewrite Ed. split; intros [A B]; apply some_inj in B; (split; [lia|f_equal; lia]).
      * rewrite Z.add_0_l. reflexivity.
Qed.
