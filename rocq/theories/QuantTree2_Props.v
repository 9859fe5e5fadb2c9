(** C130: [convert_batchnorm2d] and [swap_ff_with_fxff] replace the modules they should and no others.
    C131: [reset_observer_and_fakequant_statistics]. *)
From Coq Require Import String Ascii Permutation.
From Verif Require Import Prelude Onnx_Model Onnx_Lemmas QuantTree_Model QuantTree_Props.
Local Open Scope string_scope.
Local Open Scope list_scope.
Local Open Scope nat_scope.

(** ** Specification *)
Section Spec.
Context {V B : Type}.
Local Notation tree := (mtree V B).
Definition norm_of (x : tree) (b : B) : Prop := m_kind V B x = SyncBN b \/ m_kind V B x = BatchNormXd b.
(** The path leads strictly below a module, other than the root, that satisfies [P]. *)
Definition strictly_below (P : tree -> Prop) (t : tree) (p : list string) : Prop :=
  exists q r x, p = q ++ r /\ q <> [] /\ r <> [] /\ node_at t q = Some x /\ P x.
(** No module is registered under two names by one parent. *)
Definition siblings (cs : list (string * option tree)) : list nat := flat_map (fun c => match snd c with Some y => [m_id V B y] | None => [] end) cs.
Definition unshared (t : tree) : Prop := forall p x, node_at t p = Some x -> NoDup (siblings (m_children V B x)) /\ NoDup (map fst (m_children V B x)).
(** All modules of the tree. *)
Fixpoint all_ids (t : tree) : list nat := match t with Mod _ _ i _ _ _ cs => i :: flat_map (fun c => match snd c with Some x => all_ids x | None => [] end) cs end.
(** The same module with the same tensors. *)
Definition same_module (x y : tree) : Prop :=
  m_id V B x = m_id V B y /\ m_kind V B x = m_kind V B y /\ m_params V B x = m_params V B y /\ m_buffers V B x = m_buffers V B y.
End Spec.

(** ** Proofs *)
Lemma NoDup_app_inv {A} : forall (a b : list A), NoDup (a ++ b) -> NoDup a /\ NoDup b /\ forall x, In x a -> ~ In x b.
Proof.
  induction a as [|x a IH]; cbn; intros b H; [repeat split; auto; constructor|]. inversion H as [|? ? Hn Hd]; subst. destruct (IH b Hd) as (H1 & H2 & H3).
  split; [constructor; [intros Hi; apply Hn, in_app_iff; auto|exact H1]|]. split; [exact H2|]. intros y [<-|Hy] Hb; [apply Hn, in_app_iff; auto|exact (H3 y Hy Hb)].
Qed.
Lemma NoDup_app_intro {A} : forall (a b : list A), NoDup a -> NoDup b -> (forall x, In x a -> ~ In x b) -> NoDup (a ++ b).
Proof.
  induction a as [|x a IH]; cbn; intros b Ha Hb H; [exact Hb|]. inversion Ha; subst. constructor; [|apply IH; auto]. rewrite in_app_iff. intros [Hi|Hi]; [auto|exact (H x (or_introl eq_refl) Hi)].
Qed.
Section Proofs.
Context {V B : Type}.
Variables (bn_params : B -> list (string * V)) (bn_buffers : B -> list (string * (bool * V))).
Local Notation tree := (mtree V B).
Local Notation conv := (convert_batchnorm2d V B bn_params bn_buffers).
Lemma norm_iff (x : tree) : match to_convert B (m_kind V B x) with Some b => norm_of x b | None => forall b, ~ norm_of x b end.
Proof. unfold norm_of. destruct (m_kind V B x); cbn; auto; intros b' [H|H]; discriminate. Qed.
Lemma norm_uniq (x : tree) b b' : norm_of x b -> norm_of x b' -> b = b'.
Proof. unfold norm_of. intros [H|H] [H'|H']; congruence. Qed.
Fixpoint conv_go (next : nat) (seen : list nat) (cs : list (string * option tree)) : nat * list (string * option tree) :=
  match cs with
  | [] => (next, [])
  | (n, None) :: r => let '(next', r') := conv_go next seen r in (next', (n, None) :: r')
  | (n, Some c) :: r =>
      if existsb (Nat.eqb (m_id V B c)) seen then let '(next', r') := conv_go next seen r in (next', (n, Some c) :: r')
      else match to_convert B (m_kind V B c) with
           | Some b => let '(next', r') := conv_go (S next) (m_id V B c :: seen) r in (next', (n, Some (new_bn V B bn_params bn_buffers next b)) :: r')
           | None => let '(next1, c') := conv next c in let '(next', r') := conv_go next1 (m_id V B c :: seen) r in (next', (n, Some c') :: r')
           end
  end.
Lemma conv_eq next i k ps bs cs : conv next (Mod V B i k ps bs cs) = let '(next', cs') := conv_go next [] cs in (next', Mod V B i k ps bs cs').
Proof. reflexivity. Qed.
Lemma existsb_not i seen : ~ In i seen -> existsb (Nat.eqb i) seen = false.
Proof. intros H. destruct (existsb (Nat.eqb i) seen) eqn:E; [|reflexivity]. apply existsb_exists in E as (j & Hj & Ej). apply Nat.eqb_eq in Ej as <-. easy. Qed.
Lemma conv_go_spec : forall cs next seen next' cs', conv_go next seen cs = (next', cs') -> NoDup (siblings cs) -> (forall i, In i (siblings cs) -> ~ In i seen) ->
  map fst cs = map fst cs' /\
  forall n, match get cs n with
            | Some (Some x) => match to_convert B (m_kind V B x) with Some b => exists i, get cs' n = Some (Some (new_bn V B bn_params bn_buffers i b))
                               | None => exists a b x', conv a x = (b, x') /\ get cs' n = Some (Some x') end
            | o => get cs' n = o
            end.
Proof.
  induction cs as [|[n [c|]] r IH]; intros next seen next' cs' H Hnd Hs; cbn [conv_go] in H.
  - injection H as <- <-. split; reflexivity.
  - cbn in Hnd. inversion Hnd as [|? ? Hni Hnd']; subst. rewrite existsb_not in H by (apply Hs; left; reflexivity).
    assert (Hs' : forall i, In i (siblings r) -> ~ In i (m_id V B c :: seen)).
    { intros i Hi [<-|Hin]; [exact (Hni Hi)|exact (Hs i (or_intror Hi) Hin)]. }
    destruct (to_convert B (m_kind V B c)) as [b|] eqn:Eb.
    + destruct (conv_go (S next) (m_id V B c :: seen) r) as [n2 r'] eqn:E. injection H as <- <-. destruct (IH _ _ _ _ E Hnd' Hs') as [IH1 IH2]. split; [cbn; now rewrite IH1|].
      intros m. cbn [get fst snd]. destruct (String.eqb n m); [|apply IH2]. rewrite Eb. eauto.
    + destruct (conv next c) as [n1 c'] eqn:Ec. destruct (conv_go n1 (m_id V B c :: seen) r) as [n2 r'] eqn:E. injection H as <- <-. destruct (IH _ _ _ _ E Hnd' Hs') as [IH1 IH2]. split; [cbn; now rewrite IH1|].
      intros m. cbn [get fst snd]. destruct (String.eqb n m); [|apply IH2]. rewrite Eb. eauto.
  - destruct (conv_go next seen r) as [n2 r'] eqn:E. injection H as <- <-. destruct (IH _ _ _ _ E Hnd Hs) as [IH1 IH2]. split; [cbn; now rewrite IH1|].
    intros m. cbn [get fst snd]. destruct (String.eqb n m); [reflexivity|apply IH2].
Qed.
Lemma unshared_child (t c : tree) n : unshared t -> get (m_children V B t) n = Some (Some c) -> unshared c.
Proof. intros Hp Hg q x Hx. apply (Hp (n :: q) x). cbn. rewrite Hg. exact Hx. Qed.
Lemma below_child (P : tree -> Prop) t c n p : get (m_children V B t) n = Some (Some c) -> strictly_below P c p -> strictly_below P t (n :: p).
Proof. intros Hg (q & r & x & -> & Hq & Hr & Hx & HP). exists (n :: q), r, x. cbn. rewrite Hg. repeat split; auto; discriminate. Qed.

(** Where a norm is, there is a new BatchNorm2d with its arguments; everything else stays. *)
Theorem C130_batch_norms_partial next (t : tree) : unshared t ->
  let t' := snd (conv next t) in
  forall p, ~ strictly_below (fun x => exists b, norm_of x b) t p ->
    match node_at t p, node_at t' p with
    | Some x, Some y => (forall b, p <> [] -> norm_of x b -> m_kind V B y = BatchNorm2d b /\ m_params V B y = bn_params b /\ m_buffers V B y = bn_buffers b /\ m_children V B y = []) /\
                        (p = [] \/ (forall b, ~ norm_of x b) -> same_module x y /\ map fst (m_children V B x) = map fst (m_children V B y))
    | None, None => True
    | _, _ => False
    end.
Proof.
  intros Hu t' p. subst t'. revert next t Hu. induction p as [|m r IH]; intros next [i k ps bs cs] Hu Hb.
  - rewrite conv_eq. destruct (Hu [] _ eq_refl) as [Hn _]. cbn in Hn. destruct (conv_go next [] cs) as [next' cs'] eqn:E. destruct (conv_go_spec cs _ _ _ _ E Hn) as [Hf _]; [easy|].
    cbn. split; [easy|]. intros _. unfold same_module. cbn. auto.
  - rewrite conv_eq. destruct (Hu [] _ eq_refl) as [Hn _]. cbn in Hn. destruct (conv_go next [] cs) as [next' cs'] eqn:E. destruct (conv_go_spec cs _ _ _ _ E Hn) as [_ Hg]; [easy|].
    cbn [snd node_at m_children]. specialize (Hg m). destruct (get cs m) as [[x|]|] eqn:Ex; [|now rewrite Hg|now rewrite Hg].
    assert (Hx := norm_iff x). destruct (to_convert B (m_kind V B x)) as [b|].
    + destruct Hg as (j & ->). destruct r as [|m' r'].
      * cbn. split; [|intros [H|H]; [discriminate|exfalso; exact (H b Hx)]]. intros b' _ Hb'. rewrite (norm_uniq x b' b Hb' Hx). auto.
      * exfalso. apply Hb. exists [m], (m' :: r'), x. cbn. rewrite Ex. repeat split; try discriminate. eauto.
    + destruct Hg as (a & b & x' & Hc & ->). assert (G := IH a x). rewrite Hc in G. cbn [snd] in G.
      specialize (G (unshared_child (Mod V B i k ps bs cs) x m Hu Ex)). specialize (G (fun H => Hb (below_child _ (Mod V B i k ps bs cs) x m r Ex H))).
      destruct (node_at x r) as [y|] eqn:Ey, (node_at x' r) as [y'|]; try exact G. destruct G as [G1 G2]. split.
      * intros b' _ Hb'. destruct r as [|m' r']; [|apply G1; auto; discriminate]. cbn in Ey. apply some_inj in Ey as <-. exfalso. exact (Hx b' Hb').
      * intros [H|H]; [discriminate|]. apply G2. right. exact H.
Qed.
(** No norm of the two kinds is left below the root. *)
Lemma conv_none : forall p next (t : tree), unshared t -> p <> [] -> forall y b, node_at (snd (conv next t)) p = Some y -> ~ norm_of y b.
Proof.
  induction p as [|m r IH]; [easy|]. intros next [i k ps bs cs] Hu _ y b Hy. rewrite conv_eq in Hy. destruct (Hu [] _ eq_refl) as [Hn _]. cbn in Hn. destruct (conv_go next [] cs) as [next' cs'] eqn:E.
  destruct (conv_go_spec cs _ _ _ _ E Hn) as [_ Hg]; [easy|]. cbn [snd node_at m_children] in Hy. specialize (Hg m). destruct (get cs m) as [[x|]|] eqn:Ex; [|rewrite Hg in Hy; discriminate|rewrite Hg in Hy; discriminate].
  assert (Hx := norm_iff x). destruct (to_convert B (m_kind V B x)) as [c|].
  - destruct Hg as (j & Hg). rewrite Hg in Hy. destruct r; cbn in Hy; [|discriminate]. apply some_inj in Hy as <-. intros [H|H]; discriminate.
  - destruct Hg as (a & d & x' & Hc & Hg). rewrite Hg in Hy. destruct r as [|m' r'].
    + cbn in Hy. apply some_inj in Hy as <-. destruct x as [i2 k2 ps2 bs2 cs2]. rewrite conv_eq in Hc. destruct (conv_go a [] cs2) as [n3 cs3]. injection Hc as <- <-. exact (Hx b).
    + assert (G := IH a x (unshared_child (Mod V B i k ps bs cs) x m Hu Ex)). rewrite Hc in G. apply (G ltac:(discriminate) y b Hy).
Qed.
Theorem C130_none_left_partial next (t : tree) : unshared t -> forall p y b, p <> [] -> node_at (snd (conv next t)) p = Some y -> ~ norm_of y b.
Proof. intros Hu p y b Hp. exact (conv_none p next t Hu Hp y b). Qed.
(** Every new module is another one: no module occurs twice afterwards. *)
Lemma conv_ids : forall (t : tree) next next' t', conv next t = (next', t') -> NoDup (all_ids t) -> (forall i, In i (all_ids t) -> i < next) ->
  next <= next' /\ NoDup (all_ids t') /\ forall i, In i (all_ids t') -> In i (all_ids t) \/ next <= i < next'.
Proof.
  intros t. induction t as [i k ps bs cs IH] using tree_ind. intros next next' t' H Hnd Hlt. rewrite conv_eq in H.
  cbn [all_ids] in Hnd, Hlt. inversion Hnd as [|? ? Hi Hnd']; subst.
  assert (G : forall cs next seen next' cs', (forall n c, In (n, Some c) cs -> forall next next' t', conv next c = (next', t') -> NoDup (all_ids c) -> (forall i, In i (all_ids c) -> i < next) ->
       next <= next' /\ NoDup (all_ids t') /\ forall i, In i (all_ids t') -> In i (all_ids c) \/ next <= i < next') ->
       conv_go next seen cs = (next', cs') -> NoDup (flat_map (fun c => match snd c with Some x => all_ids x | None => [] end) cs) ->
       (forall i, In i (flat_map (fun c => match snd c with Some x => all_ids x | None => [] end) cs) -> i < next) ->
       next <= next' /\ NoDup (flat_map (fun c => match snd c with Some x => all_ids x | None => [] end) cs') /\
       forall i, In i (flat_map (fun c => match snd c with Some x => all_ids x | None => [] end) cs') -> In i (flat_map (fun c => match snd c with Some x => all_ids x | None => [] end) cs) \/ next <= i < next').
  { clear. induction cs as [|[n [c|]] r IHr]; intros next seen next' cs' IH H Hnd Hlt; cbn [conv_go] in H.
    - injection H as <- <-. cbn. split; [lia|]. split; [constructor|auto].
    - cbn [flat_map snd] in Hnd, Hlt. apply NoDup_app_inv in Hnd as (Hn1 & Hn2 & Hdis).
      assert (IHr' := fun next seen next' cs' => IHr next seen next' cs' (fun n c H => IH n c (or_intror H))). clear IHr.
      destruct (existsb (Nat.eqb (m_id V B c)) seen); [|destruct (to_convert B (m_kind V B c)) as [b|]].
      + destruct (conv_go next seen r) as [n2 r'] eqn:E. injection H as <- <-. destruct (IHr' _ _ _ _ E Hn2) as (L & N & I); [intros i Hin; apply Hlt, in_app_iff; auto|].
        split; [exact L|]. cbn [flat_map snd]. split.
        * apply NoDup_app_intro; auto. intros i Hi Hin. destruct (I i Hin) as [Hin'|Hin']; [exact (Hdis i Hi Hin')|]. assert (i < next) by (apply Hlt, in_app_iff; auto). lia.
        * intros i. rewrite !in_app_iff. intros [Hin|Hin]; [auto|]. destruct (I i Hin); auto.
      + destruct (conv_go (S next) (m_id V B c :: seen) r) as [n2 r'] eqn:E. injection H as <- <-. destruct (IHr' _ _ _ _ E Hn2) as (L & N & I); [intros i Hin; assert (i < next) by (apply Hlt, in_app_iff; auto); lia|].
        split; [lia|]. cbn [flat_map snd all_ids new_bn app]. split.
        * constructor; [|exact N]. intros Hin. destruct (I next Hin) as [Hin'|Hin']; [|lia]. assert (next < next) by (apply Hlt, in_app_iff; auto). lia.
        * intros i [<-|Hin]; [right; lia|]. rewrite in_app_iff. destruct (I i Hin); [auto|right; lia].
      + destruct (conv next c) as [n1 c'] eqn:Ec. destruct (conv_go n1 (m_id V B c :: seen) r) as [n2 r'] eqn:E. injection H as <- <-.
        destruct (IH n c (or_introl eq_refl) _ _ _ Ec Hn1) as (L1 & N1 & I1); [intros i Hin; apply Hlt, in_app_iff; auto|].
        destruct (IHr' _ _ _ _ E Hn2) as (L & N & I); [intros i Hin; assert (i < next) by (apply Hlt, in_app_iff; auto); lia|].
        split; [lia|]. cbn [flat_map snd]. split.
        * apply NoDup_app_intro; auto. intros i Hi Hin. destruct (I i Hin) as [Hin'|Hin'], (I1 i Hi) as [Hi'|Hi'].
          -- exact (Hdis i Hi' Hin').
          -- assert (i < next) by (apply Hlt, in_app_iff; auto). lia.
          -- assert (i < next) by (apply Hlt, in_app_iff; auto). lia.
          -- lia.
        * intros i. rewrite !in_app_iff. intros [Hin|Hin]; [destruct (I1 i Hin); [auto|right; lia]|destruct (I i Hin); [auto|right; lia]].
    - cbn [flat_map snd app] in Hnd, Hlt. destruct (conv_go next seen r) as [n2 r'] eqn:E. injection H as <- <-. cbn [flat_map snd app]. apply (IHr next seen n2 r' (fun n c H => IH n c (or_intror H)) E Hnd Hlt). }
  destruct (conv_go next [] cs) as [n2 cs'] eqn:E. injection H as <- <-. destruct (G cs next [] n2 cs' IH E Hnd') as (L & N & I); [intros j Hj; apply Hlt; right; exact Hj|].
  split; [exact L|]. cbn [all_ids]. split.
  - constructor; [|exact N]. intros Hin. destruct (I i Hin) as [Hin'|Hin']; [exact (Hi Hin')|]. assert (i < next) by (apply Hlt; left; reflexivity). lia.
  - intros j [<-|Hj]; [left; left; reflexivity|]. destruct (I j Hj); [left; right; auto|auto].
Qed.
Theorem C130_new_modules next (t : tree) : NoDup (all_ids t) -> (forall i, In i (all_ids t) -> i < next) -> NoDup (all_ids (snd (conv next t))).
Proof. intros H1 H2. destruct (conv next t) as [n' t'] eqn:E. apply (conv_ids t next n' t' E H1 H2). Qed.
End Proofs.

(** ** [swap_ff_with_fxff] *)
Section Swap.
Context {V B : Type}.
Variable fxff : nat -> mtree V B.
Local Notation tree := (mtree V B).
Local Notation swap := (swap_ff_with_fxff V B fxff).
Definition float_functional (x : tree) : Prop := m_kind V B x = FloatFunctional.
Lemma ff_iff (x : tree) : is_ff V B x = true <-> float_functional x.
Proof. unfold is_ff, float_functional. destruct (m_kind V B x); split; congruence. Qed.
Fixpoint swap_go (next : nat) (seen : list nat) (cs : list (string * option tree)) : nat * list string * list (string * option tree) :=
  match cs with
  | [] => (next, [], [])
  | (n, None) :: r => let '(next', ns, r') := swap_go next seen r in (next', ns, (n, None) :: r')
  | (n, Some c) :: r =>
      if existsb (Nat.eqb (m_id V B c)) seen then let '(next', ns, r') := swap_go next seen r in (next', ns, (n, Some c) :: r')
      else if is_ff V B c then let '(next', ns, r') := swap_go next (m_id V B c :: seen) r in (next', n :: ns, (n, Some c) :: r')
      else let '(next0, c') := swap next c in let '(next', ns, r') := swap_go next0 (m_id V B c :: seen) r in (next', ns, (n, Some c') :: r')
  end.
Lemma swap_eq next i k ps bs cs : swap next (Mod V B i k ps bs cs) =
  let '(n1, names, cs1) := swap_go next [] cs in let '(n2, cs2) := swap_names V B fxff n1 names cs1 in (n2, Mod V B i k ps bs cs2).
Proof. reflexivity. Qed.
(** The names of the children that are float functionals. *)
Definition ff_names (cs : list (string * option tree)) : list string := map fst (filter (fun c => match snd c with Some x => is_ff V B x | None => false end) cs).
Lemma swap_go_spec : forall cs next seen next' ns cs', swap_go next seen cs = (next', ns, cs') -> NoDup (siblings cs) -> (forall i, In i (siblings cs) -> ~ In i seen) ->
  ns = ff_names cs /\ map fst cs = map fst cs' /\
  forall n, match get cs n with
            | Some (Some x) => if is_ff V B x then get cs' n = Some (Some x) else exists a b x', swap a x = (b, x') /\ get cs' n = Some (Some x')
            | o => get cs' n = o
            end.
Proof.
  induction cs as [|[n [c|]] r IH]; intros next seen next' ns cs' H Hnd Hs; cbn [swap_go] in H.
  - injection H as <- <- <-. repeat split.
  - cbn in Hnd. inversion Hnd as [|? ? Hni Hnd']; subst. rewrite existsb_not in H by (apply Hs; left; reflexivity).
    assert (Hs' : forall i, In i (siblings r) -> ~ In i (m_id V B c :: seen)).
    { intros i Hi [<-|Hin]; [exact (Hni Hi)|exact (Hs i (or_intror Hi) Hin)]. }
    unfold ff_names. cbn [filter snd]. destruct (is_ff V B c) eqn:Eb.
    + destruct (swap_go next (m_id V B c :: seen) r) as [[n2 ns2] r'] eqn:E. injection H as <- <- <-. destruct (IH _ _ _ _ _ E Hnd' Hs') as (-> & IH1 & IH2). split; [reflexivity|]. split; [cbn; now rewrite IH1|].
      intros m. cbn [get fst snd]. destruct (String.eqb n m); [|apply IH2]. rewrite Eb. reflexivity.
    + destruct (swap next c) as [n1 c'] eqn:Ec. destruct (swap_go n1 (m_id V B c :: seen) r) as [[n2 ns2] r'] eqn:E. injection H as <- <- <-. destruct (IH _ _ _ _ _ E Hnd' Hs') as (-> & IH1 & IH2). split; [reflexivity|]. split; [cbn; now rewrite IH1|].
      intros m. cbn [get fst snd]. destruct (String.eqb n m); [|apply IH2]. rewrite Eb. eauto.
  - destruct (swap_go next seen r) as [[n2 ns2] r'] eqn:E. injection H as <- <- <-. destruct (IH _ _ _ _ _ E Hnd Hs) as (-> & IH1 & IH2). split; [reflexivity|]. split; [cbn; now rewrite IH1|].
    intros m. cbn [get fst snd]. destruct (String.eqb n m); [reflexivity|apply IH2].
Qed.
Lemma get_drop {A} (d : list (string * A)) k n : get (drop k d) n = if String.eqb k n then None else get d n.
Proof.
  unfold drop. induction d as [|[x v] r IH]; cbn [filter get fst]; [destruct (String.eqb k n); reflexivity|]. destruct (String.eqb x k) eqn:E; cbn [negb get fst].
  - apply String.eqb_eq in E as ->. rewrite IH. destruct (String.eqb k n); reflexivity.
  - rewrite IH. destruct (String.eqb x n) eqn:E2; [|reflexivity]. apply String.eqb_eq in E2 as ->. rewrite String.eqb_sym, E. reflexivity.
Qed.
Lemma swap_names_spec : forall names next cs next' cs', swap_names V B fxff next names cs = (next', cs') -> NoDup names -> NoDup (map fst cs) -> (forall n, In n names -> In n (map fst cs)) ->
  (forall n, In n names -> exists i, get cs' n = Some (Some (fxff i))) /\ (forall n, ~ In n names -> get cs' n = get cs n) /\
  map fst cs' = filter (fun n => negb (mem n names)) (map fst cs) ++ names.
Proof.
  induction names as [|a r IH]; intros next cs next' cs' H Hnd Hc Hin; cbn [swap_names] in H.
  - injection H as <- <-. split; [easy|]. split; [auto|]. rewrite app_nil_r. clear. induction (map fst cs) as [|x l IHl]; [reflexivity|]. unfold mem in *. cbn [filter existsb negb] in *. congruence.
  - inversion Hnd as [|? ? Ha Hr]; subst.
    assert (E1 : map fst (drop a cs ++ [(a, Some (fxff next))]) = filter (fun n => negb (String.eqb n a)) (map fst cs) ++ [a]).
    { rewrite map_app. f_equal. unfold drop. clear. induction cs as [|[x v] l IHl]; [reflexivity|]. cbn [filter map fst]. destruct (String.eqb x a); cbn; congruence. }
    destruct (IH _ _ _ _ H Hr) as (G1 & G2 & G3).
    + rewrite E1. apply NoDup_app_intro; [apply NoDup_filter, Hc|constructor; [easy|constructor]|]. intros x Hx [<-|[]]. apply filter_In in Hx as [_ Hx]. rewrite String.eqb_refl in Hx. discriminate.
    + intros n Hn. rewrite E1. apply in_app_iff. left. apply filter_In. split; [apply Hin; right; exact Hn|]. destruct (String.eqb n a) eqn:E; [|reflexivity]. apply String.eqb_eq in E as ->. easy.
    + split; [|split].
      * intros n [<-|Hn]; [|auto]. exists next. rewrite G2 by exact Ha. rewrite get_app', get_drop. cbn. rewrite String.eqb_refl. reflexivity.
      * intros n Hn. rewrite G2 by (intros H'; apply Hn; right; exact H'). rewrite get_app', get_drop. cbn. destruct (String.eqb a n) eqn:E; [apply String.eqb_eq in E as ->; exfalso; apply Hn; left; reflexivity|].
        destruct (get cs n); reflexivity.
      * rewrite G3, E1, filter_app. cbn [filter]. assert (Em : mem a r = false) by now apply mem_not. rewrite Em. cbn [negb]. rewrite <- app_assoc. cbn [app]. f_equal.
        clear. induction (map fst cs) as [|x l IHl]; [reflexivity|]. cbn [filter]. change (mem x (a :: r)) with (String.eqb x a || mem x r)%bool. destruct (String.eqb x a); cbn [negb orb filter]; [exact IHl|].
        destruct (mem x r); cbn [negb]; [exact IHl|f_equal; exact IHl].
Qed.
Lemma ff_names_get cs n : NoDup (map fst cs) -> In n (ff_names cs) <-> exists x, get cs n = Some (Some x) /\ is_ff V B x = true.
Proof.
  intros Hnd. unfold ff_names. rewrite in_map_iff. split.
  - intros ([k o] & <- & Hin). apply filter_In in Hin as [Hin Hf]. cbn in *. destruct o as [x|]; [|discriminate]. exists x. split; [apply get_nodup; assumption|exact Hf].
  - intros (x & Hg & Hf). exists (n, Some x). split; [reflexivity|]. apply filter_In. split; [apply get_in, Hg|exact Hf].
Qed.
Lemma ff_nodup cs : NoDup (map fst cs) -> NoDup (ff_names cs).
Proof.
  unfold ff_names. induction cs as [|c r IH]; cbn [filter map]; intros H; [constructor|]. inversion H as [|? ? Hn Hr]; subst. destruct (match snd c with Some x => is_ff V B x | None => false end); [|auto].
  cbn. constructor; [|auto]. intros Hin. apply Hn. apply in_map_iff in Hin as (d & <- & Hd). apply filter_In in Hd as [Hd _]. now apply in_map.
Qed.
(** Every FloatFunctional below the root becomes a new FXFloatFunctional; all other modules stay. The
    children of a module are afterwards listed with the replaced ones at the end. *)
Theorem C130_float_functionals_partial next (t : tree) : unshared t ->
  let t' := snd (swap next t) in
  forall p, ~ strictly_below float_functional t p ->
    match node_at t p, node_at t' p with
    | Some x, Some y => (p <> [] -> float_functional x -> exists i, y = fxff i) /\
                        (p = [] \/ ~ float_functional x -> same_module x y /\
                          map fst (m_children V B y) = filter (fun n => negb (mem n (ff_names (m_children V B x)))) (map fst (m_children V B x)) ++ ff_names (m_children V B x))
    | None, None => True
    | _, _ => False
    end.
Proof.
  intros Hu t' p. subst t'. revert next t Hu. induction p as [|m r IH]; intros next [i k ps bs cs] Hu Hb.
  all: rewrite swap_eq; destruct (Hu [] _ eq_refl) as [Hn Hnd]; cbn in Hn, Hnd; destruct (swap_go next [] cs) as [[n1 names] cs1] eqn:E.
  all: destruct (swap_go_spec cs _ _ _ _ _ E Hn) as (-> & Hf & Hg); [easy|]; destruct (swap_names V B fxff n1 (ff_names cs) cs1) as [n2 cs2] eqn:E2.
  all: destruct (swap_names_spec _ _ _ _ _ E2 (ff_nodup cs Hnd)) as (G1 & G2 & G3); [rewrite <- Hf; exact Hnd|intros n Hin; rewrite <- Hf; unfold ff_names in Hin; apply in_map_iff in Hin as (d & <- & Hd); apply filter_In in Hd as [Hd _]; now apply in_map|].
  - cbn. split; [easy|]. intros _. unfold same_module. cbn. rewrite Hf. auto.
  - cbn [snd node_at m_children]. specialize (Hg m). destruct (get cs m) as [[x|]|] eqn:Ex.
    + destruct (is_ff V B x) eqn:Ef.
      * destruct (G1 m) as (j & ->); [apply ff_names_get; eauto|]. destruct r as [|m' r'].
        -- cbn. split; [eauto|]. intros [H|H]; [discriminate|]. exfalso. apply H. now apply ff_iff.
        -- exfalso. apply Hb. exists [m], (m' :: r'), x. cbn. rewrite Ex. repeat split; try discriminate. now apply ff_iff.
      * destruct Hg as (a & b & x' & Hc & Hg). rewrite G2 by (rewrite ff_names_get by exact Hnd; intros (z & Hz & Hz2); rewrite Ex in Hz; apply some_inj, some_inj in Hz; subst; congruence).
        rewrite Hg. assert (G := IH a x). rewrite Hc in G. cbn [snd] in G.
        specialize (G (unshared_child (Mod V B i k ps bs cs) x m Hu Ex)). specialize (G (fun H => Hb (below_child _ (Mod V B i k ps bs cs) x m r Ex H))).
        destruct (node_at x r) as [y|] eqn:Ey, (node_at x' r) as [y'|]; try exact G. destruct G as [Ga Gb]. split.
        -- intros _ Hy. destruct r as [|m' r']; [|apply Ga; auto; discriminate]. cbn in Ey. apply some_inj in Ey as <-. apply ff_iff in Hy. congruence.
        -- intros [H|H]; [discriminate|]. apply Gb. right. exact H.
    + rewrite G2 by (rewrite ff_names_get by exact Hnd; intros (z & Hz & _); congruence). now rewrite Hg.
    + rewrite G2 by (rewrite ff_names_get by exact Hnd; intros (z & Hz & _); congruence). now rewrite Hg.
Qed.
End Swap.

(** ** What one would expect of both, and why it fails *)
Definition bnp (b : Z) : list (string * Z) := [("weight", 1%Z); ("bias", 0%Z)].
Definition bnb (b : Z) : list (string * (bool * Z)) := [("running_mean", (true, 0%Z))].
Definition convert := convert_batchnorm2d Z Z bnp bnb.
Definition sync_bn (id : nat) : mtree Z Z := Mod Z Z id (SyncBN 64%Z) [("weight", 5%Z); ("bias", 6%Z)] [("running_mean", (true, 7%Z))] [].
Definition ex_net : mtree Z Z := Mod Z Z 0 (Plain 0) [] [] [("conv", Some (Mod Z Z 1 (Plain 1) [("weight", 9%Z)] [] [])); ("block", Some (Mod Z Z 2 (Plain 2) [] [] [("bn", Some (sync_bn 3)); ("relu", None)]))].
Ltac at_path p Hx tac := let m := fresh "m" in let r := fresh "p" in
  destruct p as [|m r]; cbn [node_at get m_children fst snd] in Hx; [injection Hx as <-; tac|];
  repeat match type of Hx with context [String.eqb ?a m] => destruct (String.eqb a m) end; try discriminate; try (at_path r Hx tac).
Example ex_net_unshared : unshared ex_net.
Proof. intros p x Hx. unfold ex_net, sync_bn in Hx. at_path p Hx ltac:(split; nodup_s). Qed.
Example C130_ex : snd (convert 10 ex_net) = Mod Z Z 0 (Plain 0) [] [] [("conv", Some (Mod Z Z 1 (Plain 1) [("weight", 9%Z)] [] [])); ("block", Some (Mod Z Z 2 (Plain 2) [] [] [("bn", Some (Mod Z Z 10 (BatchNorm2d 64%Z) (bnp 64) (bnb 64) [])); ("relu", None)]))] /\
  NoDup (all_ids ex_net) /\ (forall i, In i (all_ids ex_net) -> i < 10).
Proof. split; [reflexivity|]. split; [repeat constructor; cbn; intuition discriminate|]. cbn. intuition lia. Qed.
(** All norms below the root are converted and keep their tensors. *)
Definition C130_claim : Prop := forall (t : mtree Z Z) next p x b, p <> [] -> node_at t p = Some x -> norm_of x b ->
  exists y, node_at (snd (convert next t)) p = Some y /\ m_kind Z Z y = BatchNorm2d b /\ m_params Z Z y = m_params Z Z x /\ m_buffers Z Z y = m_buffers Z Z x.
Theorem C130_tensors_refuted : ~ C130_claim.
Proof.
  intros H. destruct (H ex_net 10 ["block"; "bn"] (sync_bn 3) 64%Z) as (y & Hy & _ & Hp & _); [discriminate|reflexivity|left; reflexivity|].
  cbn in Hy. injection Hy as <-. discriminate.
Qed.
(** The kinds alone are not right either: a norm that one module registers twice stays. *)
Theorem C130_shared_refuted : ~ (forall (t : mtree Z Z) next p y b, p <> [] -> NoDup (map fst (m_children Z Z t)) -> node_at (snd (convert next t)) p = Some y -> ~ norm_of y b).
Proof.
  intros H. apply (H (Mod Z Z 0 (Plain 0) [] [] [("norm1", Some (sync_bn 1)); ("norm", Some (sync_bn 1))]) 10 ["norm"] (sync_bn 1) 64%Z); [discriminate|nodup_s|reflexivity|left; reflexivity].
Qed.
Definition ff (id : nat) : mtree Z Z := Mod Z Z id FloatFunctional [] [] [("activation_post_process", Some (Mod Z Z (100 + id) (Plain 7) [] [] []))].
Definition fx (id : nat) : mtree Z Z := Mod Z Z id FXFloatFunctional [] [] [].
Definition ex_ff : mtree Z Z := Mod Z Z 0 (Plain 0) [] [] [("add", Some (ff 1)); ("conv", Some (Mod Z Z 2 (Plain 1) [] [] [])); ("mul", Some (ff 3))].
Example ex_ff_unshared : unshared ex_ff /\ ~ strictly_below float_functional ex_ff ["add"].
Proof.
  split.
  - intros p x Hx. unfold ex_ff, ff in Hx. at_path p Hx ltac:(split; nodup_s).
  - intros (q & r & x & E & Hq & Hr & _). destruct q as [|a [|]]; [easy| |discriminate]. injection E as _ E. congruence.
Qed.
Example C130_ff_ex : snd (swap_ff_with_fxff Z Z fx 10 ex_ff) = Mod Z Z 0 (Plain 0) [] [] [("conv", Some (Mod Z Z 2 (Plain 1) [] [] [])); ("add", Some (fx 10)); ("mul", Some (fx 11))].
Proof. reflexivity. Qed.
(** The children do not keep their order. *)
Theorem C130_order_refuted : ~ (forall (t : mtree Z Z) next, unshared t -> map fst (m_children Z Z (snd (swap_ff_with_fxff Z Z fx next t))) = map fst (m_children Z Z t)).
Proof. intros H. specialize (H ex_ff 10 (proj1 ex_ff_unshared)). discriminate. Qed.

(** ** C131: resetting the statistics *)
Section Reset.
Context {V B : Type}.
Variables (init_min init_max empty : V) (ones_like zeros_like : V -> V).
Local Notation tree := (mtree V B).
Local Notation reset := (reset_statistics V B init_min init_max empty ones_like zeros_like).
Lemma reset_node : forall p (t : tree), node_at (reset t) p = match node_at t p with Some x => Some (reset x) | None => None end.
Proof.
  induction p as [|m r IH]; intros [i k ps bs cs]; [reflexivity|]. cbn [reset_statistics node_at m_children].
  assert (E : get (map (fun c : string * option tree => (fst c, match snd c with Some x => Some (reset x) | None => None end)) cs) m = match get cs m with Some (Some x) => Some (Some (reset x)) | o => o end).
  { induction cs as [|[n [x|]] l IHl]; cbn; [reflexivity| |]; destruct (String.eqb n m); auto. }
  rewrite E. destruct (get cs m) as [[x|]|]; [apply IH|reflexivity|reflexivity].
Qed.
Lemma get_where {A} (f : string -> option (A -> A)) l n : get (set_where f l) n = match get l n with Some v => Some (match f n with Some g => g v | None => v end) | None => None end.
Proof. unfold set_where. induction l as [|[k v] r IH]; cbn; [reflexivity|]. destruct (String.eqb k n) eqn:E; [apply String.eqb_eq in E as ->; reflexivity|exact IH]. Qed.
Lemma reset_tensor (t : tree) p n : tensor_at (reset t) p n = match node_at t p, tensor_at t p n with
  | Some x, Some (b, v) => Some (b, match reset_value V B init_min init_max empty ones_like zeros_like (m_kind V B x) n with Some g => g v | None => v end) | _, _ => None end.
Proof.
  unfold tensor_at. rewrite reset_node. destruct (node_at t p) as [[i k ps bs cs]|]; [|reflexivity]. cbn [reset_statistics m_params m_buffers m_kind]. rewrite !get_where.
  destruct (get ps n); [reflexivity|]. destruct (get bs n) as [[b v]|]; [|reflexivity]. destruct (reset_value _ _ _ _ _ _ _ k n); reflexivity.
Qed.
(** Everywhere in the tree, root included: quantizers get scale one and zero point zero, observers of
    ranges the bounds of a new observer; nothing else changes. *)
Theorem C131_reset_partial (t : tree) p x n b v : node_at t p = Some x -> tensor_at t p n = Some (b, v) ->
  exists w, tensor_at (reset t) p n = Some (b, w) /\
    (m_kind V B x = FakeQuant -> n = "scale" -> w = ones_like v) /\ (m_kind V B x = FakeQuant -> n = "zero_point" -> w = zeros_like v) /\
    (m_kind V B x = MinMaxObs -> n = "min_val" -> w = init_min) /\ (m_kind V B x = MinMaxObs -> n = "max_val" -> w = init_max) /\
    (m_kind V B x = PerChannelObs -> n = "min_val" \/ n = "max_val" -> w = empty) /\
    (~ (m_kind V B x = FakeQuant /\ (n = "scale" \/ n = "zero_point")) -> ~ ((m_kind V B x = MinMaxObs \/ m_kind V B x = PerChannelObs) /\ (n = "min_val" \/ n = "max_val")) -> w = v).
Proof.
  intros Hx Hn. eexists. split; [rewrite reset_tensor, Hx, Hn; reflexivity|]. destruct (m_kind V B x); cbn [reset_value]; repeat split; try discriminate; try (intros _ ->; reflexivity).
  - intros H _. destruct (String.eqb n "scale") eqn:E1; [apply String.eqb_eq in E1; exfalso; apply H; auto|]. destruct (String.eqb n "zero_point") eqn:E2; [apply String.eqb_eq in E2; exfalso; apply H; auto|reflexivity].
  - intros _ H. destruct (String.eqb n "min_val") eqn:E1; [apply String.eqb_eq in E1; exfalso; apply H; auto|]. destruct (String.eqb n "max_val") eqn:E2; [apply String.eqb_eq in E2; exfalso; apply H; auto|reflexivity].
  - intros _ [->| ->]; reflexivity.
  - intros _ H. destruct (String.eqb n "min_val") eqn:E1; [apply String.eqb_eq in E1; exfalso; apply H; auto|]. destruct (String.eqb n "max_val") eqn:E2; [apply String.eqb_eq in E2; exfalso; apply H; auto|reflexivity].
Qed.
Theorem C131_structure (t : tree) : alike t (reset t).
Proof.
  intros p. rewrite reset_node. destruct (node_at t p) as [[i k ps bs cs]|]; [|exact I]. cbn [reset_statistics m_id m_kind m_params m_buffers m_children]. unfold set_where. rewrite !map_map. repeat split.
  - apply map_ext. intros [n [b v]]. cbn. destruct (reset_value _ _ _ _ _ _ _ k n); reflexivity.
Qed.
End Reset.
(** Afterwards no observer is supposed to remember the random input of [_build_qmodels]. *)
Definition observer (k : mkind unit) : Prop := k = MinMaxObs \/ k = PerChannelObs \/ k = OtherObs.
Definition reset_z : mtree Z unit -> mtree Z unit := reset_statistics Z unit 1000%Z (-1000)%Z 0%Z (fun _ => 1%Z) (fun _ => 0%Z).
Definition C131_claim : Prop := forall (t u : mtree Z unit), alike t u -> (forall p n x, node_at t p = Some x -> ~ observer (m_kind Z unit x) -> tensor_at t p n = tensor_at u p n) ->
  forall p n x, node_at t p = Some x -> observer (m_kind Z unit x) -> n = "min_val" \/ n = "max_val" ->
    tensor_at (reset_z t) p n = tensor_at (reset_z u) p n.
Definition histogram (lo hi : Z) : mtree Z unit := Mod Z unit 0%nat (Plain 0) [] [] [("observer", Some (Mod Z unit 1%nat OtherObs [] [("min_val", (true, lo)); ("max_val", (true, hi))] []))].
Definition min_max (lo hi : Z) : mtree Z unit := Mod Z unit 0%nat FakeQuant [("scale", 5%Z); ("zero_point", 6%Z)] [] [("observer", Some (Mod Z unit 1%nat MinMaxObs [] [("min_val", (true, lo)); ("max_val", (true, hi))] []))].
Example C131_ex : reset_z (min_max 2 3) =
  Mod Z unit 0%nat FakeQuant [("scale", 1%Z); ("zero_point", 0%Z)] [] [("observer", Some (Mod Z unit 1%nat MinMaxObs [] [("min_val", (true, 1000%Z)); ("max_val", (true, (-1000)%Z))] []))].
Proof. reflexivity. Qed.
Theorem C131_observers_refuted : ~ C131_claim.
Proof.
  intros H. specialize (H (histogram 1 2) (histogram 3 4)). assert (E : tensor_at (reset_z (histogram 1 2)) ["observer"] "min_val" = Some (true, 3%Z)).
  - rewrite (H) with (x := Mod Z unit 1%nat OtherObs [] [("min_val", (true, 1%Z)); ("max_val", (true, 2%Z))] []); [reflexivity| | |reflexivity|right; right; reflexivity|left; reflexivity].
    + intros p. unfold histogram. destruct p as [|m p]; [cbn; repeat split|]. cbn [node_at get m_children fst snd]. destruct (String.eqb "observer" m); [|exact I]. destruct p as [|m' p]; cbn; [repeat split|exact I].
    + intros p n x Hx Ho. unfold histogram in *. destruct p as [|m p]; [reflexivity|]. cbn [node_at get m_children fst snd] in Hx. unfold tensor_at. cbn [node_at get m_children fst snd].
      destruct (String.eqb "observer" m); [|reflexivity]. destruct p as [|m' p]; [|reflexivity]. cbn in Hx. injection Hx as <-. exfalso. apply Ho. right; right; reflexivity.
  - discriminate.
Qed.
Print Assumptions C130_batch_norms_partial.
Print Assumptions C130_none_left_partial.
Print Assumptions C130_new_modules.
Print Assumptions C130_float_functionals_partial.
Print Assumptions C130_tensors_refuted.
Print Assumptions C130_shared_refuted.
Print Assumptions C130_order_refuted.
Print Assumptions C131_reset_partial.
Print Assumptions C131_structure.
Print Assumptions C131_observers_refuted.
