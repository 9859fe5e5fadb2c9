(** Parents of nodes (Tracer_Model.v, path.py). *)
From Verif Require Import Prelude Tracer_Model Tracer_Props Tracer2_Props.
Local Open Scope list_scope.

(** ** Specification *)

(** [x] occurs with [r] behind it, in the path or in one inside a concatenation. *)
Inductive occurs (x : pnode) (r : path) : path -> Prop :=
| oc_here : forall l, occurs x r (l ++ x :: r)
| oc_cat : forall l id subs r' s q, In s subs -> In q s -> occurs x r q -> occurs x r (l ++ PConcat id subs :: r').
Definition is_concat (x : pnode) : bool := match x with PConcat _ _ => true | _ => false end.
(** [b] is the nearest node behind a target named [n], skipping nodes that may be passed. *)
Definition behind (target : kind -> bool) (non_pass : option (kind -> bool)) (n : string) (b : pnode) (p : path) : Prop :=
  exists x r skipped rest, occurs x r p /\ is_concat x = false /\ target (pkind x) = true /\ pname x = n /\
    r = skipped ++ b :: rest /\ stops non_pass b = true /\ Forall (fun y => stops non_pass y = false) skipped.
Definition is_target (target : kind -> bool) (n : string) (p : path) : Prop :=
  exists x r, occurs x r p /\ is_concat x = false /\ target (pkind x) = true /\ pname x = n.

(** What a result says: [k] is listed for [n]; [n] has an entry. *)
Definition listed (m : parents_of) (n : string) (k : key) : Prop := exists l y, In (n, l) m /\ In y l /\ pkey y = k.
Definition has_entry (m : parents_of) (n : string) : Prop := In n (map fst m).

(** ** Merging *)
Lemma kind_eqb_eq : forall a b, kind_eqb a b = true <-> a = b.
Proof. intros [] []; cbn; split; congruence. Qed.
Lemma pnode_eqb_eq : forall a b, pnode_eqb a b = true <-> pkey a = pkey b.
Proof.
  intros a b. unfold pnode_eqb, pkey. rewrite andb_true_iff, kind_eqb_eq, String.eqb_eq. split.
  - intros [-> ->]; reflexivity.
  - intro E; injection E; auto.
Qed.
Definition has (l : list pnode) (k : key) : Prop := exists y, In y l /\ pkey y = k.
Lemma has_app : forall a b k, has (a ++ b) k <-> has a k \/ has b k.
Proof.
  intros a b k. split.
  - intros (y & Hy & E). apply in_app_iff in Hy as [Hy|Hy]; [left|right]; exists y; split; assumption.
  - intros [(y & Hy & E)|(y & Hy & E)]; exists y; (split; [|exact E]); apply in_app_iff; [left|right]; exact Hy.
Qed.
Lemma has_set : forall l acc k, has (fold_left set_add l acc) k <-> has acc k \/ has l k.
Proof.
  induction l as [|x l IH]; intros acc k; cbn [fold_left].
  - split; [left; assumption|]. intros [H|(y & [] & _)]; exact H.
  - rewrite IH. unfold set_add. destruct (existsb (pnode_eqb x) acc) eqn:E.
    + split; [intros [H|(y & Hy & K)]; [left; exact H|right; exists y; split; [right; exact Hy|exact K]]|].
      intros [H|(y & [<-|Hy] & K)]; [left; exact H| |right; exists y; split; assumption].
      left. apply existsb_exists in E as (z & Hz & Ez). apply pnode_eqb_eq in Ez. exists z. split; [exact Hz|congruence].
    + rewrite has_app. split.
      * intros [[H|(y & [<-|[]] & K)]|(y & Hy & K)]; [left; exact H| |];
          right; eexists; (split; [|exact K]); [left; reflexivity|right; exact Hy].
      * intros [H|(y & [<-|Hy] & K)]; [left; left; exact H|left; right|right].
        -- eexists; split; [left; reflexivity|exact K].
        -- exists y; split; assumption.
Qed.
Lemma listed_cons : forall n' l m n k, listed ((n', l) :: m) n k <-> (n' = n /\ has l k) \/ listed m n k.
Proof.
  intros n' l m n k. split.
  - intros (l' & y & [E|Hi] & Hy & K).
    + injection E as <- <-. left. split; [reflexivity|exists y; split; assumption].
    + right. exists l', y. repeat split; assumption.
  - intros [[<- (y & Hy & K)]|(l' & y & Hi & Hy & K)].
    + exists l, y. repeat split; try assumption. left; reflexivity.
    + exists l', y. repeat split; try assumption. right; exact Hi.
Qed.
Lemma listed_nil : forall n k, ~ listed [] n k.
Proof. intros n k (l & y & [] & _). Qed.
Lemma merge1_listed : forall m n0 ps n k,
  listed (merge1 m n0 ps) n k <-> listed m n k \/ (n0 = n /\ has ps k).
Proof.
  induction m as [|[n' l] m IH]; intros n0 ps n k; cbn [merge1].
  - rewrite listed_cons. split; intros [H|H]; tauto.
  - destruct (String.eqb_spec n' n0) as [->|D].
    + rewrite !listed_cons, has_set, has_app.
      assert (E : has [] k <-> False) by (split; [intros (y & [] & _)|tauto]). rewrite E. tauto.
    + rewrite !listed_cons, IH. tauto.
Qed.
Lemma merge_listed : forall m' m n k, listed (merge m m') n k <-> listed m n k \/ listed m' n k.
Proof.
  unfold merge. induction m' as [|[n0 l] m' IH]; intros m n k; cbn [fold_left fst snd].
  - split; [left; assumption|]. intros [H|H]; [exact H|destruct (listed_nil _ _ H)].
  - rewrite IH, merge1_listed, listed_cons. tauto.
Qed.
Lemma merge1_entry : forall m n0 ps n, has_entry (merge1 m n0 ps) n <-> has_entry m n \/ n0 = n.
Proof.
  unfold has_entry. induction m as [|[n' l] m IH]; intros n0 ps n; cbn [merge1 map fst In].
  - tauto.
  - destruct (String.eqb_spec n' n0) as [->|D]; cbn [map fst In]; [tauto|]. rewrite IH. tauto.
Qed.
Lemma merge_entry : forall m' m n, has_entry (merge m m') n <-> has_entry m n \/ has_entry m' n.
Proof.
  unfold merge. induction m' as [|[n0 l] m' IH]; intros m n; cbn [fold_left fst snd].
  - unfold has_entry; cbn. tauto.
  - rewrite IH, merge1_entry. unfold has_entry; cbn. tauto.
Qed.
Lemma merge1_nodup : forall m n0 ps, NoDup (map fst m) -> NoDup (map fst (merge1 m n0 ps)).
Proof.
  induction m as [|[n' l] m IH]; intros n0 ps N; cbn [merge1 map fst].
  - constructor; [intros []|constructor].
  - cbn [map fst] in N. inversion N as [|? ? N1 N2]; subst.
    destruct (String.eqb_spec n' n0) as [->|D]; cbn [map fst]; [constructor; assumption|].
    constructor; [|apply IH; exact N2]. intro H. apply merge1_entry in H as [H|H]; [exact (N1 H)|congruence].
Qed.
Lemma merge_nodup : forall m' m, NoDup (map fst m) -> NoDup (map fst (merge m m')).
Proof.
  unfold merge. induction m' as [|e m' IH]; intros m N; [exact N|]. cbn [fold_left]. apply IH, merge1_nodup, N.
Qed.
Lemma fold_listed : forall {A} (f : A -> parents_of) l m n k,
  listed (fold_left (fun m x => merge m (f x)) l m) n k <-> listed m n k \/ exists x, In x l /\ listed (f x) n k.
Proof.
  intros A f. induction l as [|x l IH]; intros m n k; cbn [fold_left].
  - split; [left; assumption|]. intros [H|(x & [] & _)]; exact H.
  - rewrite IH, merge_listed. split.
    + intros [[H|H]|(y & Hy & H)]; [left; exact H|right; exists x; split; [left; reflexivity|exact H]|].
      right; exists y; split; [right; exact Hy|exact H].
    + intros [H|(y & [<-|Hy] & H)]; [left; left; exact H|left; right; exact H|right; exists y; split; assumption].
Qed.
Lemma fold_entry : forall {A} (f : A -> parents_of) l m n,
  has_entry (fold_left (fun m x => merge m (f x)) l m) n <-> has_entry m n \/ exists x, In x l /\ has_entry (f x) n.
Proof.
  intros A f. induction l as [|x l IH]; intros m n; cbn [fold_left].
  - split; [left; assumption|]. intros [H|(x & [] & _)]; exact H.
  - rewrite IH, merge_entry. split.
    + intros [[H|H]|(y & Hy & H)]; [left; exact H|right; exists x; split; [left; reflexivity|exact H]|].
      right; exists y; split; [right; exact Hy|exact H].
    + intros [H|(y & [<-|Hy] & H)]; [left; left; exact H|left; right; exact H|right; exists y; split; assumption].
Qed.
Lemma fold_nodup : forall {A} (f : A -> parents_of) l m, NoDup (map fst m) ->
  NoDup (map fst (fold_left (fun m x => merge m (f x)) l m)).
Proof. intros A f. induction l as [|x l IH]; intros m N; [exact N|]. cbn [fold_left]. apply IH, merge_nodup, N. Qed.

(** ** Paths *)
Section PInd.
Context (Q : pnode -> Prop).
Hypothesis H1 : forall x, is_concat x = false -> Q x.
Hypothesis H2 : forall id pls, (forall s, In s pls -> forall q, In q s -> forall y, In y q -> Q y) -> Q (PConcat id pls).
Fixpoint pnode_ind' (x : pnode) : Q x.
Proof.
  destruct x as [n|n|n|n|id pls]; try (apply H1; reflexivity).
  apply H2. induction pls as [|s pls IHp]; [intros s []|].
  intros s' [<-|Hs]; [|exact (IHp s' Hs)].
  induction s as [|q s IHs]; [intros q []|].
  intros q' [<-|Hq]; [|exact (IHs q' Hq)].
  induction q as [|y q IHq]; [intros y []|].
  intros y' [<-|Hy]; [apply pnode_ind'|exact (IHq y' Hy)].
Defined.
End PInd.

Section P.
Context (target : kind -> bool) (non_pass : option (kind -> bool)).

Lemma node_parents_cat : forall id pls, node_parents target non_pass (PConcat id pls) =
  fold_left (fun m pl => merge m (list_parents target non_pass pl)) pls [].
Proof. reflexivity. Qed.

Lemma first_behind_spec : forall r b, In b (first_behind non_pass r) <->
  exists skipped rest, r = skipped ++ b :: rest /\ stops non_pass b = true /\
    Forall (fun y => stops non_pass y = false) skipped.
Proof.
  intros r b. unfold first_behind. induction r as [|x r IH]; cbn [find].
  - split; [intros []|]. intros ([|? ?] & rest & E & _); discriminate.
  - destruct (stops non_pass x) eqn:Sx.
    + split.
      * intros [<-|[]]. exists [], r. repeat split; [exact Sx|constructor].
      * intros ([|z sk] & rest & E & Hb & Hf); cbn [app] in E; injection E as -> ->; [left; reflexivity|].
        apply Forall_inv in Hf. congruence.
    + rewrite IH. split.
      * intros (sk & rest & -> & Hb & Hf). exists (x :: sk), rest. repeat split; [exact Hb|constructor; assumption].
      * intros ([|z sk] & rest & E & Hb & Hf); cbn [app] in E; injection E as -> ->; [congruence|].
        exists sk, rest. inversion Hf; subst. repeat split; assumption.
Qed.

Lemma occurs_cons : forall x r y p, occurs x r (y :: p) <->
  (x = y /\ r = p) \/ occurs x r p \/ (exists id subs s q, y = PConcat id subs /\ In s subs /\ In q s /\ occurs x r q).
Proof.
  intros x r y p. split.
  - intro H. inversion H as [l E|l id ss r' s q Hs Hq Ho E].
    + destruct l as [|z l]; cbn [app] in E; injection E as <- <-; [left; split; reflexivity|].
      right; left. constructor.
    + destruct l as [|z l]; cbn [app] in E; injection E as <- <-.
      * right; right. exists id, ss, s, q. repeat split; assumption.
      * right; left. econstructor; eassumption.
  - intros [[-> ->]|[H|(id & ss & s & q & -> & Hs & Hq & Ho)]].
    + apply (oc_here y p []).
    + inversion H as [l E|l id ss r' s q Hs Hq Ho E]; subst.
      * apply (oc_here x r (y :: l)).
      * apply (oc_cat x r (y :: l) id ss r' s q); assumption.
    + apply (oc_cat x r [] id ss p s q); assumption.
Qed.
Lemma occurs_nil : forall x r, ~ occurs x r [].
Proof. intros x r H. inversion H as [l E|l ? ? ? ? ? ? ? ? E]; destruct l; discriminate E. Qed.

Definition listed_by (p : path) (n : string) (k : key) : Prop :=
  exists b, pkey b = k /\ behind target non_pass n b p.

(** Splitting the specification at the first node. *)
Lemma behind_cons : forall n b y p, behind target non_pass n b (y :: p) <->
  (is_concat y = false /\ target (pkind y) = true /\ pname y = n /\ In b (first_behind non_pass p)) \/
  behind target non_pass n b p \/
  (exists id subs s q, y = PConcat id subs /\ In s subs /\ In q s /\ behind target non_pass n b q).
Proof.
  intros n b y p. rewrite first_behind_spec. split.
  - intros (x & r & sk & rest & Ho & H). apply occurs_cons in Ho as [[-> ->]|[Ho|(id & ss & s & q & E & Hs & Hq & Ho)]].
    + left. destruct H as (? & ? & ? & ? & ? & ?). repeat split; try assumption. exists sk, rest. repeat split; assumption.
    + right; left. exists x, r, sk, rest. split; [exact Ho|exact H].
    + right; right. exists id, ss, s, q. repeat split; try assumption. exists x, r, sk, rest. split; [exact Ho|exact H].
  - intros [(? & ? & ? & sk & rest & E & ? & ?)|[(x & r & sk & rest & Ho & H)|(id & ss & s & q & E & Hs & Hq & x & r & sk & rest & Ho & H)]].
    + exists y, p, sk, rest. split; [apply (oc_here y p [])|]. repeat split; assumption.
    + exists x, r, sk, rest. split; [|exact H]. apply occurs_cons. right; left; exact Ho.
    + exists x, r, sk, rest. split; [|exact H]. apply occurs_cons. right; right. exists id, ss, s, q. repeat split; assumption.
Qed.
Lemma target_cons : forall n y p, is_target target n (y :: p) <->
  (is_concat y = false /\ target (pkind y) = true /\ pname y = n) \/ is_target target n p \/
  (exists id subs s q, y = PConcat id subs /\ In s subs /\ In q s /\ is_target target n q).
Proof.
  intros n y p. split.
  - intros (x & r & Ho & H). apply occurs_cons in Ho as [[-> ->]|[Ho|(id & ss & s & q & E & Hs & Hq & Ho)]].
    + left. exact H.
    + right; left. exists x, r. split; assumption.
    + right; right. exists id, ss, s, q. repeat split; try assumption. exists x, r. split; assumption.
  - intros [H|[(x & r & Ho & H)|(id & ss & s & q & E & Hs & Hq & x & r & Ho & H)]].
    + exists y, p. split; [apply (oc_here y p [])|exact H].
    + exists x, r. split; [|exact H]. apply occurs_cons. right; left; exact Ho.
    + exists x, r. split; [|exact H]. apply occurs_cons. right; right. exists id, ss, s, q. repeat split; assumption.
Qed.

Lemma path_parents_spec : forall p m n k,
  (forall y, In y p -> forall n k, listed (node_parents target non_pass y) n k <->
     exists id subs s q, y = PConcat id subs /\ In s subs /\ In q s /\ listed_by q n k) ->
  (listed (path_parents target non_pass p m) n k <-> listed m n k \/ listed_by p n k).
Proof.
  induction p as [|y p IH]; intros m n k Hn; cbn [path_parents].
  - split; [left; assumption|]. intros [H|(b & _ & x & r & sk & rest & Ho & _)]; [exact H|].
    destruct (occurs_nil _ _ Ho).
  - rewrite IH by (intros z Hz; apply Hn; right; exact Hz).
    assert (E : listed (node_step target non_pass m y p) n k <-> listed m n k \/
       (exists b, pkey b = k /\ is_concat y = false /\ target (pkind y) = true /\ pname y = n /\ In b (first_behind non_pass p)) \/
       (exists id subs s q, y = PConcat id subs /\ In s subs /\ In q s /\ listed_by q n k)).
    { assert (NC : is_concat y = false -> listed (if target (pkind y) then merge m [(pname y, first_behind non_pass p)] else m) n k <->
         listed m n k \/ (exists b, pkey b = k /\ is_concat y = false /\ target (pkind y) = true /\ pname y = n /\ In b (first_behind non_pass p)) \/
       (exists id subs s q, y = PConcat id subs /\ In s subs /\ In q s /\ listed_by q n k)).
      { intro Hc. destruct (target (pkind y)) eqn:Et.
        - rewrite merge_listed, listed_cons. split.
          + intros [H|[[<- (b & Hb & K)]|H]]; [left; exact H| |destruct (listed_nil _ _ H)].
            right; left. exists b. repeat split; assumption.
          + intros [H|[(b & K & _ & _ & <- & Hb)|(id & ss & s & q & -> & _)]]; [left; exact H| |discriminate].
            right; left. split; [reflexivity|exists b; split; assumption].
        - split; [left; assumption|]. intros [H|[(b & _ & _ & H & _)|(id & ss & s & q & -> & _)]]; [exact H|discriminate|discriminate]. }
      destruct y as [nm|nm|nm|nm|id pls]; try (apply NC; reflexivity).
      cbn [node_step]. rewrite merge_listed, Hn by (left; reflexivity). split.
      - intros [H|H]; [left; exact H|right; right; exact H].
      - intros [H|[(b & _ & H & _)|H]]; [left; exact H|discriminate|right; exact H]. }
    rewrite E. unfold listed_by at 3. split.
    + intros [[H|[(b & K & H)|(id & ss & s & q & Ey & Hs & Hq & b & K & Hb)]]|(b & K & H)].
      * left; exact H.
      * right. exists b. split; [exact K|]. apply behind_cons. left; exact H.
      * right. exists b. split; [exact K|]. apply behind_cons. right; right. exists id, ss, s, q. repeat split; assumption.
      * right. exists b. split; [exact K|]. apply behind_cons. right; left; exact H.
    + intros [H|(b & K & H)]; [left; left; exact H|].
      apply behind_cons in H as [H|[H|(id & ss & s & q & Ey & Hs & Hq & Hb)]].
      * left; right; left. exists b. split; [exact K|exact H].
      * right. exists b. split; assumption.
      * left; right; right. exists id, ss, s, q. repeat split; try assumption. exists b. split; assumption.
Qed.
Lemma path_parents_entry : forall p m n,
  (forall y, In y p -> forall n, has_entry (node_parents target non_pass y) n <->
     exists id subs s q, y = PConcat id subs /\ In s subs /\ In q s /\ is_target target n q) ->
  (has_entry (path_parents target non_pass p m) n <-> has_entry m n \/ is_target target n p).
Proof.
  induction p as [|y p IH]; intros m n Hn; cbn [path_parents].
  - split; [left; assumption|]. intros [H|(x & r & Ho & _)]; [exact H|]. destruct (occurs_nil _ _ Ho).
  - rewrite IH by (intros z Hz; apply Hn; right; exact Hz).
    assert (E : has_entry (node_step target non_pass m y p) n <-> has_entry m n \/
       (is_concat y = false /\ target (pkind y) = true /\ pname y = n) \/
       (exists id subs s q, y = PConcat id subs /\ In s subs /\ In q s /\ is_target target n q)).
    { assert (NC : is_concat y = false -> has_entry (if target (pkind y) then merge m [(pname y, first_behind non_pass p)] else m) n <->
         has_entry m n \/ (is_concat y = false /\ target (pkind y) = true /\ pname y = n) \/
       (exists id subs s q, y = PConcat id subs /\ In s subs /\ In q s /\ is_target target n q)).
      { intro Hc. destruct (target (pkind y)) eqn:Et.
        - rewrite merge_entry. unfold has_entry at 2. cbn [map fst In]. split.
          + intros [H|[H|[]]]; [left; exact H|]. right; left. repeat split; assumption.
          + intros [H|[(_ & _ & H)|(id & ss & s & q & -> & _)]]; [left; exact H| |discriminate].
            right; left; exact H.
        - split; [left; assumption|]. intros [H|[(_ & H & _)|(id & ss & s & q & -> & _)]]; [exact H|discriminate|discriminate]. }
      destruct y as [nm|nm|nm|nm|id pls]; try (apply NC; reflexivity).
      cbn [node_step]. rewrite merge_entry, Hn by (left; reflexivity). split.
      - intros [H|H]; [left; exact H|right; right; exact H].
      - intros [H|[(H & _)|H]]; [left; exact H|discriminate|right; exact H]. }
    rewrite E, (target_cons n y p). tauto.
Qed.

Lemma node_parents_spec : forall y n k, listed (node_parents target non_pass y) n k <->
  exists id subs s q, y = PConcat id subs /\ In s subs /\ In q s /\ listed_by q n k.
Proof.
  induction y as [y Hy|id pls IH] using pnode_ind'; intros n k.
  - split; [|intros (id & ss & s & q & -> & _); discriminate].
    destruct y; try discriminate; cbn [node_parents]; intro H; destruct (listed_nil _ _ H).
  - rewrite node_parents_cat, fold_listed. split.
    + intros [H|(s & Hs & H)]; [destruct (listed_nil _ _ H)|].
      unfold list_parents in H. apply fold_listed in H as [H|(q & Hq & H)]; [destruct (listed_nil _ _ H)|].
      apply path_parents_spec in H as [H|H]; [destruct (listed_nil _ _ H)| |intros y Hy; exact (IH s Hs q Hq y Hy)].
      exists id, pls, s, q. repeat split; assumption.
    + intros (id' & ss & s & q & E & Hs & Hq & H). injection E as <- <-. right. exists s. split; [exact Hs|].
      unfold list_parents. apply fold_listed. right. exists q. split; [exact Hq|].
      apply path_parents_spec; [intros y Hy; exact (IH s Hs q Hq y Hy)|right; exact H].
Qed.
Lemma node_parents_entry : forall y n, has_entry (node_parents target non_pass y) n <->
  exists id subs s q, y = PConcat id subs /\ In s subs /\ In q s /\ is_target target n q.
Proof.
  induction y as [y Hy|id pls IH] using pnode_ind'; intros n.
  - split; [|intros (id & ss & s & q & -> & _); discriminate].
    destruct y; try discriminate; cbn [node_parents]; intro H; destruct H.
  - rewrite node_parents_cat, fold_entry. split.
    + intros [[]|(s & Hs & H)].
      unfold list_parents in H. apply fold_entry in H as [[]|(q & Hq & H)].
      apply path_parents_entry in H as [[]|H]; [|intros y Hy; exact (IH s Hs q Hq y Hy)].
      exists id, pls, s, q. repeat split; assumption.
    + intros (id' & ss & s & q & E & Hs & Hq & H). injection E as <- <-. right. exists s. split; [exact Hs|].
      unfold list_parents. apply fold_entry. right. exists q. split; [exact Hq|].
      apply path_parents_entry; [intros y Hy; exact (IH s Hs q Hq y Hy)|right; exact H].
Qed.

(** Each target layer has one entry; it lists exactly the nearest nodes behind its occurrences
    (a node is identified by its kind and name). *)
Theorem C83_parents : forall pl,
  NoDup (map fst (list_parents target non_pass pl)) /\
  (forall n, has_entry (list_parents target non_pass pl) n <-> exists p, In p pl /\ is_target target n p) /\
  (forall n k, listed (list_parents target non_pass pl) n k <->
     exists p b, In p pl /\ pkey b = k /\ behind target non_pass n b p).
Proof.
  intro pl. split; [|split].
  - unfold list_parents. apply fold_nodup. constructor.
  - intro n. unfold list_parents. rewrite fold_entry. split.
    + intros [[]|(p & Hp & H)]. apply path_parents_entry in H as [[]|H]; [|intros y Hy; apply node_parents_entry].
      exists p. split; assumption.
    + intros (p & Hp & H). right. exists p. split; [exact Hp|].
      apply path_parents_entry; [intros y Hy; apply node_parents_entry|right; exact H].
  - intros n k. unfold list_parents. rewrite fold_listed. split.
    + intros [H|(p & Hp & H)]; [destruct (listed_nil _ _ H)|].
      apply path_parents_spec in H as [H|(b & K & H)]; [destruct (listed_nil _ _ H)| |intros y Hy; apply node_parents_spec].
      exists p, b. repeat split; assumption.
    + intros (p & b & Hp & K & H). right. exists p. split; [exact Hp|].
      apply path_parents_spec; [intros y Hy; apply node_parents_spec|right; exists b; split; assumption].
Qed.
End P.
(** Convolutions and their parents, passing over norms; the second path is cut at the stem. *)
Example C83_parents_ex :
  list_parents (fun k => kind_eqb k KConv) (Some (fun k => negb (kind_eqb k KNorm)))
    [[PConv "body"; PNorm "bn"; PConv "stem"; PConv "pre"];
     [PConv "body"; PConcat "cat" [[[PConv "x"; PLinear "fc"]]; [[PConv "stem"]]]]]
  = [("body"%string, [PConv "stem"; PConcat "cat" [[[PConv "x"; PLinear "fc"]]; [[PConv "stem"]]]]);
     ("stem"%string, [PConv "pre"]); ("pre"%string, []); ("x"%string, [PLinear "fc"])].
Proof. reflexivity. Qed.

Print Assumptions C83_parents.
(** Without nodes to stop at, what is listed is just the node that comes next. *)
Theorem C83_next : forall target pl n k, listed (list_parents target None pl) n k <->
  exists p x b rest, In p pl /\ occurs x (b :: rest) p /\ is_concat x = false /\ target (pkind x) = true /\ pname x = n /\ pkey b = k.
Proof.
  intros target pl n k. rewrite (proj2 (proj2 (C83_parents target None pl)) n k). split.
  - intros (p & b & Hp & K & x & r & sk & rest & O & C & T & N & E & _ & F). destruct sk as [| z sk]; [| apply Forall_inv in F; discriminate F].
    cbn [app] in E. subst r. exists p, x, b, rest. auto 8.
  - intros (p & x & b & rest & Hp & O & C & T & N & K). exists p, b. split; [exact Hp |]. split; [exact K |].
    exists x, (b :: rest), [], rest. repeat split; auto.
Qed.
Example C83_next_ex : list_parents (fun k => kind_eqb k KConv) None [[PConv "body"; PNorm "bn"; PConv "stem"]] = [("body"%string, [PNorm "bn"]); ("stem"%string, [])].
Proof. reflexivity. Qed.
Print Assumptions C83_next.
