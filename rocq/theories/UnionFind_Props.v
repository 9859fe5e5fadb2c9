(** C14 (channel groups) and C61 (splitting a tensor into units). *)
From Verif Require Import Prelude UnionFind_Model IndexDict_Model IndexDict_Lemmas.
From Coq Require Import Relations.

(** * Specification: the equivalence generated by the requested unions *)
Definition requested (cs : list uf_call) (a b : nat) : Prop := In (Union a b) cs.
Definition same_group (cs : list uf_call) : nat -> nat -> Prop :=
  clos_refl_sym_trans nat (requested cs).
(** Calls only mention elements that exist when the call is made. *)
Fixpoint valid_calls (n : nat) (cs : list uf_call) : Prop :=
  match cs with
  | [] => True
  | NewTensor k :: r => valid_calls (n + k) r
  | Union a b :: r => (a < n)%nat /\ (b < n)%nat /\ valid_calls n r
  | ReadRoot a :: r | ReadSet a :: r => (a < n)%nat /\ valid_calls n r
  end.

(** * Invariant of the parent forest *)
Inductive rtd (p : nat -> option nat) : nat -> nat -> nat -> Prop :=
| rtd0 x : p x = None -> rtd p x x 0
| rtdS x y r d : p x = Some y -> rtd p y r d -> rtd p x r (S d).

Definition rt p x r : Prop := exists d, rtd p x r d.

Lemma rtd_fun p x r d : rtd p x r d -> forall r' d', rtd p x r' d' -> r = r' /\ d = d'.
Proof.
  induction 1 as [x H|x y r d H H1 IH]; intros r' d' H'; inversion H'; subst; try congruence; auto.
  assert (y0 = y) by congruence. subst. destruct (IH _ _ H2). subst. auto.
Qed.
Lemma rt_fun p x r r' : rt p x r -> rt p x r' -> r = r'.
Proof. intros [d H] [d' H']. exact (proj1 (rtd_fun _ _ _ _ H _ _ H')). Qed.
Lemma rt_root p x r : rt p x r -> p r = None.
Proof. intros [d H]. induction H; auto. Qed.
Lemma rt_self p x : p x = None -> rt p x x.
Proof. intros H. exists 0%nat. constructor. exact H. Qed.
Lemma rt_step p x y r : p x = Some y -> rt p y r -> rt p x r.
Proof. intros H [d Hd]. exists (S d). econstructor; eauto. Qed.

(** Everybody has a root; parents and children are elements; [_subs] mirrors [_parent]. *)
Record Inv (s : uf) : Prop := {
  inv_total : forall x, exists r, rt (uf_parent s) x r;
  inv_range : forall x y, uf_parent s x = Some y -> (x < uf_n s)%nat /\ (y < uf_n s)%nat;
  inv_subs : forall x y, In x (uf_subs s y) <-> uf_parent s x = Some y;
  inv_subs_nodup : forall y, NoDup (uf_subs s y)
}.

Lemma depth_bound s x r d : Inv s -> (x < uf_n s)%nat -> rtd (uf_parent s) x r d -> (d < uf_n s)%nat.
Proof.
  intros HI Hx H.
  assert (HL : exists l, length l = S d /\ NoDup l /\ forall z, In z l -> (z < uf_n s)%nat /\ exists e, (e <= d)%nat /\ rtd (uf_parent s) z r e).
  { revert Hx. induction H as [x H|x y r d H H1 IH]; intros Hx.
    - exists [x]. split; [reflexivity|]. split; [repeat constructor; intros []|].
      intros z [<-|[]]. split; [exact Hx|]. exists 0%nat. split; [lia|]. constructor. exact H.
    - destruct IH as (l & L1 & L2 & L3); [exact (proj2 (inv_range s HI _ _ H))|].
      exists (x :: l). split; [cbn; congruence|]. split.
      + constructor; [|exact L2]. intros Hin. apply L3 in Hin as (_ & e & He & Hre).
        assert (Hx' : rtd (uf_parent s) x r (S d)) by (econstructor; eauto).
        destruct (rtd_fun _ _ _ _ Hx' _ _ Hre). lia.
      + intros z [<-|Hz].
        * split; [exact Hx|]. exists (S d). split; [lia|]. econstructor; eauto.
        * apply L3 in Hz as (Hz & e & He & Hre). split; [exact Hz|]. exists e. split; [lia|exact Hre]. }
  destruct HL as (l & L1 & L2 & L3).
  assert (Hl : (length l <= length (seq 0 (uf_n s)))%nat).
  { apply NoDup_incl_length; [exact L2|]. intros z Hz. apply in_seq. apply L3 in Hz. lia. }
  rewrite seq_length in Hl. lia.
Qed.

(** Redirecting a non-root to its own root changes no root. *)
Lemma rt_compress p x r : rt p x r -> x <> r -> (forall z, exists q, rt p z q) ->
  forall z q, rt (fupd p x (Some r)) z q <-> rt p z q.
Proof.
  intros Hx Hne Htot.
  assert (Hr : fupd p x (Some r) r = None).
  { unfold fupd. destruct (Nat.eqb_spec r x); [congruence|]. exact (rt_root _ _ _ Hx). }
  assert (F : forall z q, rt p z q -> rt (fupd p x (Some r)) z q).
  { intros z q [d H]. induction H as [z H|z y q d H H1 IH].
    - destruct (Nat.eq_dec z x) as [->|Hz].
      + exfalso. apply Hne. apply (rt_fun p x); [apply rt_self; exact H|exact Hx].
      + apply rt_self. unfold fupd. destruct (Nat.eqb_spec z x); [congruence|exact H].
    - destruct (Nat.eq_dec z x) as [->|Hz].
      + assert (Hq : q = r) by (apply (rt_fun p x); [eapply rt_step; [exact H|exists d; exact H1]|exact Hx]).
        subst q. apply rt_step with r; [unfold fupd; rewrite Nat.eqb_refl; reflexivity|]. apply rt_self. exact Hr.
      + apply rt_step with y; [|exact IH]. unfold fupd. destruct (Nat.eqb_spec z x); [congruence|exact H]. }
  intros z q. split; [|apply F]. intros H. destruct (Htot z) as [q' Hq'].
  rewrite (rt_fun _ _ _ _ H (F _ _ Hq')). exact Hq'.
Qed.
(** Attaching root [b] below root [a]. *)
Lemma rt_attach p a b : p a = None -> p b = None -> a <> b ->
  forall z q, rt p z q -> rt (fupd p b (Some a)) z (if Nat.eqb q b then a else q).
Proof.
  intros Ha Hb Hne.
  assert (Ha' : fupd p b (Some a) a = None) by (unfold fupd; destruct (Nat.eqb_spec a b); congruence).
  intros z q [d H]. induction H as [z H|z y q d H H1 IH].
  - destruct (Nat.eqb_spec z b) as [->|Hz].
    + apply rt_step with a; [unfold fupd; rewrite Nat.eqb_refl; reflexivity|]. apply rt_self. exact Ha'.
    + apply rt_self. unfold fupd. destruct (Nat.eqb_spec z b); [congruence|exact H].
  - apply rt_step with y; [|exact IH]. unfold fupd. destruct (Nat.eqb_spec z b); [congruence|exact H].
Qed.

Lemma existsb_In x l : existsb (Nat.eqb x) l = true <-> In x l.
Proof.
  rewrite existsb_exists. split.
  - intros (y & Hy & He). apply Nat.eqb_eq in He. subst. exact Hy.
  - intros H. exists x. split; [exact H|apply Nat.eqb_refl].
Qed.
Lemma filter_neq_In x y l : In y (filter (fun z => negb (Nat.eqb z x)) l) <-> In y l /\ y <> x.
Proof.
  rewrite filter_In. destruct (Nat.eqb_spec y x); cbn; intuition; discriminate.
Qed.
Lemma filter_nodup {A} (f : A -> bool) l : NoDup l -> NoDup (filter f l).
Proof. apply NoDup_filter. Qed.

(** Attaching [x] (a root) to [y] (not below [x]) keeps the invariant, given totality. *)
Lemma inv_attach s x y (t : forall z, exists r, rt (fupd (uf_parent s) x (Some y)) z r) :
  (forall a b, uf_parent s a = Some b -> (a < uf_n s)%nat /\ (b < uf_n s)%nat) ->
  (forall a b, In a (uf_subs s b) <-> uf_parent s a = Some b) ->
  (forall b, NoDup (uf_subs s b)) ->
  uf_parent s x = None -> (x < uf_n s)%nat -> (y < uf_n s)%nat ->
  Inv {| uf_n := uf_n s; uf_parent := fupd (uf_parent s) x (Some y);
         uf_subs := fupd (uf_subs s) y
           (if existsb (Nat.eqb x) (uf_subs s y) then uf_subs s y else x :: uf_subs s y) |}.
Proof.
  intros H1 H2 H3 Hx Hxn Hyn.
  assert (Hno : forall b, ~ In x (uf_subs s b)) by (intros b Hb; apply H2 in Hb; congruence).
  assert (He : existsb (Nat.eqb x) (uf_subs s y) = false).
  { destruct (existsb _ _) eqn:E; [|reflexivity]. apply existsb_In in E. destruct (Hno _ E). }
  rewrite He. split; cbn.
  - exact t.
  - intros a b. unfold fupd. destruct (Nat.eqb_spec a x) as [->|]; [|apply H1].
    intros Hb. inversion Hb; subst. auto.
  - intros a b. unfold fupd. destruct (Nat.eqb_spec b y) as [->|Hb]; destruct (Nat.eqb_spec a x) as [->|Ha]; cbn.
    + split; auto.
    + rewrite H2. intuition congruence.
    + split; [intros Hc; destruct (Hno _ Hc)|]. congruence.
    + apply H2.
  - intros b. unfold fupd. destruct (Nat.eqb_spec b y); [|apply H3]. constructor; [apply Hno|apply H3].
Qed.

Lemma unset_ok s x y : Inv s -> uf_parent s x = Some y ->
  exists s', unset_parent s x = Ok s' /\ uf_n s' = uf_n s /\
    (forall z, uf_parent s' z = fupd (uf_parent s) x None z) /\
    (forall a b, In a (uf_subs s' b) <-> uf_parent s' a = Some b) /\
    (forall b, NoDup (uf_subs s' b)).
Proof.
  intros HI Hp. unfold unset_parent. rewrite Hp.
  assert (He : existsb (Nat.eqb x) (uf_subs s y) = true) by (apply existsb_In; apply inv_subs; assumption).
  rewrite He. eexists. split; [reflexivity|]. cbn. split; [reflexivity|]. split; [reflexivity|]. split.
  - intros a b. unfold fupd. destruct (Nat.eqb_spec b y) as [->|Hb]; destruct (Nat.eqb_spec a x) as [->|Ha].
    + rewrite filter_neq_In. intuition congruence.
    + rewrite filter_neq_In, (inv_subs s HI). intuition.
    + split; [|discriminate]. intros Hc. apply (inv_subs s HI) in Hc. congruence.
    + apply (inv_subs s HI).
  - intros b. unfold fupd. destruct (Nat.eqb_spec b y); [apply filter_nodup|]; apply (inv_subs_nodup s HI).
Qed.

Lemma root_of_root fuel s x : uf_parent s x = None -> root fuel s x = Ok (s, x).
Proof. intros H. destruct fuel; cbn; rewrite H; reflexivity. Qed.

Lemma rt_ext p q z r : (forall x, p x = q x) -> rt p z r -> rt q z r.
Proof.
  intros He [d H]. exists d. induction H; [constructor; rewrite <- He; assumption|].
  econstructor; [rewrite <- He; eassumption|assumption].
Qed.

Lemma root_spec : forall fuel s x r d, Inv s -> (x < uf_n s)%nat ->
  rtd (uf_parent s) x r d -> (d <= fuel)%nat ->
  exists s', root fuel s x = Ok (s', r) /\ Inv s' /\ uf_n s' = uf_n s /\
    forall z q, rt (uf_parent s') z q <-> rt (uf_parent s) z q.
Proof.
  induction fuel as [|fuel IH]; intros s x r d HI Hx Hd Hle.
  - destruct d; [|lia]. inversion Hd; subst. exists s. split; [apply root_of_root; assumption|].
    split; [exact HI|]. split; [reflexivity|tauto].
  - inversion Hd as [x' H|x' y r' d' H H1]; subst.
    { exists s. split; [apply root_of_root; assumption|]. split; [exact HI|]. split; [reflexivity|tauto]. }
    cbn [root]. rewrite H.
    destruct (inv_range s HI _ _ H) as [_ Hy].
    destruct (IH s y r d' HI Hy H1 ltac:(lia)) as (s1 & E1 & I1 & N1 & R1). rewrite E1. cbn [bind].
    assert (Rx : rt (uf_parent s) x r) by (eapply rt_step; [exact H|exists d'; exact H1]).
    assert (Rx1 : rt (uf_parent s1) x r) by (apply R1; exact Rx).
    assert (Hne : x <> r) by (intros ->; apply rt_root in Rx; congruence).
    assert (Hp1 : exists y1, uf_parent s1 x = Some y1).
    { destruct (uf_parent s1 x) as [y1|] eqn:E; [eauto|]. exfalso. apply Hne.
      apply (rt_fun (uf_parent s1) x); [apply rt_self; exact E|exact Rx1]. }
    destruct Hp1 as [y1 Hy1].
    destruct (unset_ok s1 x y1 I1 Hy1) as (s2 & E2 & N2 & P2 & S2 & D2). rewrite E2. cbn [bind].
    rewrite P2. unfold fupd at 1. rewrite Nat.eqb_refl. cbn [assert_ bind].
    assert (Hr2 : uf_parent s2 r = None).
    { rewrite P2. unfold fupd. destruct (Nat.eqb_spec r x); [reflexivity|]. exact (rt_root _ _ _ Rx1). }
    rewrite (root_of_root fuel s2 r Hr2). cbn [bind].
    destruct (Nat.eqb_spec r x) as [Heq|_]; [congruence|]. cbn [negb assert_ bind].
    assert (PP : forall z, fupd (uf_parent s2) x (Some r) z = fupd (uf_parent s1) x (Some r) z).
    { intros z. unfold fupd. destruct (Nat.eqb_spec z x); [reflexivity|]. rewrite P2. unfold fupd.
      destruct (Nat.eqb_spec z x); [congruence|reflexivity]. }
    pose proof (rt_compress (uf_parent s1) x r Rx1 Hne (inv_total s1 I1)) as RC.
    eexists. split; [reflexivity|]. split; [|split; [cbn; congruence|]].
    + apply inv_attach; auto.
      * intros z. destruct (inv_total s1 I1 z) as [q Hq]. exists q.
        apply rt_ext with (fupd (uf_parent s1) x (Some r)); [intros; symmetry; apply PP|]. apply RC. exact Hq.
      * intros a b Hab. rewrite P2 in Hab. unfold fupd in Hab. destruct (Nat.eqb a x); [discriminate|].
        rewrite N2. exact (inv_range s1 I1 _ _ Hab).
      * rewrite P2. unfold fupd. rewrite Nat.eqb_refl. reflexivity.
      * rewrite N2, N1. exact Hx.
      * rewrite N2, N1. clear - HI Hy H1.
        induction H1 as [y H|y w r d H H1 IH]; [exact Hy|]. apply IH. exact (proj2 (inv_range s HI _ _ H)).
    + intros z q. cbn. rewrite <- R1, <- RC. split; apply rt_ext; intros; [|symmetry]; apply PP.
Qed.

Lemma root_ok s x : Inv s -> (x < uf_n s)%nat ->
  exists s' r, root (uf_n s) s x = Ok (s', r) /\ Inv s' /\ uf_n s' = uf_n s /\ rt (uf_parent s) x r /\
    (r < uf_n s)%nat /\ forall z q, rt (uf_parent s') z q <-> rt (uf_parent s) z q.
Proof.
  intros HI Hx. destruct (inv_total s HI x) as (r & d & Hd).
  pose proof (depth_bound s x r d HI Hx Hd) as Hb.
  destruct (root_spec (uf_n s) s x r d HI Hx Hd ltac:(lia)) as (s' & E & I' & N' & R').
  exists s', r. split; [exact E|]. split; [exact I'|]. split; [exact N'|]. split; [exists d; exact Hd|].
  split; [|exact R']. clear - HI Hx Hd.
  induction Hd as [y H|y w r d H H1 IH]; [exact Hx|]. apply IH. exact (proj2 (inv_range s HI _ _ H)).
Qed.

Lemma union_ok s a b : Inv s -> (a < uf_n s)%nat -> (b < uf_n s)%nat ->
  exists s' ra rb, union_two s a b = Ok s' /\ Inv s' /\ uf_n s' = uf_n s /\
    rt (uf_parent s) a ra /\ rt (uf_parent s) b rb /\
    forall z q, rt (uf_parent s) z q -> rt (uf_parent s') z (if Nat.eqb q rb then ra else q).
Proof.
  intros HI Ha Hb. unfold union_two.
  destruct (root_ok s a HI Ha) as (s1 & ra & E1 & I1 & N1 & Ra & La & R1). rewrite E1. cbn [bind].
  destruct (root_ok s1 b I1 ltac:(lia)) as (s2 & rb & E2 & I2 & N2 & Rb & Lb & R2).
  rewrite N1 in E2. rewrite E2. cbn [bind].
  apply R1 in Rb.
  assert (R12 : forall z q, rt (uf_parent s2) z q <-> rt (uf_parent s) z q) by (intros; rewrite R2; apply R1).
  destruct (Nat.eqb_spec ra rb) as [->|Hne].
  - exists s2, rb, rb. split; [reflexivity|]. split; [exact I2|]. split; [congruence|].
    split; [exact Ra|]. split; [exact Rb|]. intros z q Hq. apply R12.
    destruct (Nat.eqb_spec q rb); subst; exact Hq.
  - assert (Pa : uf_parent s2 ra = None) by (apply (rt_root _ a); apply R12; exact Ra).
    assert (Pb : uf_parent s2 rb = None) by (apply (rt_root _ b); apply R12; exact Rb).
    unfold set_parent. rewrite Pb. cbn [assert_ bind]. rewrite (root_of_root _ s2 ra Pa). cbn [bind].
    destruct (Nat.eqb_spec ra rb); [congruence|]. cbn [negb assert_ bind].
    pose proof (rt_attach (uf_parent s2) ra rb Pa Pb Hne) as RA.
    eexists. exists ra, rb. split; [reflexivity|]. split; [|split; [cbn; congruence|]].
    + apply inv_attach; auto.
      * intros z. destruct (inv_total s2 I2 z) as [q Hq]. eexists. apply RA. exact Hq.
      * apply (inv_range s2 I2).
      * apply (inv_subs s2 I2).
      * apply (inv_subs_nodup s2 I2).
      * lia.
      * lia.
    + split; [exact Ra|]. split; [exact Rb|]. intros z q Hq. cbn. apply RA. apply R12. exact Hq.
Qed.

(** [subs]: all elements below [x]. *)
Inductive below (p : nat -> option nat) (x : nat) : nat -> Prop :=
| below0 : below p x x
| belowS y z : p z = Some y -> below p x y -> below p x z.
Lemma below_kid p x k z : p k = Some x -> below p k z -> below p x z.
Proof. intros Hk H. induction H; [apply belowS with x; [exact Hk|constructor]|eapply belowS; eauto]. Qed.
Lemma below_cases p x z : below p x z -> z = x \/ exists k, p k = Some x /\ below p k z.
Proof.
  induction 1 as [|y z H H1 [->|(k & Hk & Hb)]]; [auto| |].
  - right. exists z. split; [exact H|constructor].
  - right. exists k. split; [exact Hk|]. eapply belowS; eauto.
Qed.
Lemma below_rt p x z : p x = None -> below p x z <-> rt p z x.
Proof.
  intros Hx. split.
  - induction 1 as [|y z H H1 IH]; [apply rt_self; exact Hx|eapply rt_step; eauto].
  - intros [d H]. induction H as [z H|z y r d H H1 IH]; [constructor|]. eapply belowS; eauto.
Qed.

Lemma mapM_all {A B} (f : A -> outcome B) l (P : A -> B -> Prop) :
  (forall x, In x l -> exists y, f x = Ok y /\ P x y) ->
  exists ys, mapM f l = Ok ys /\ Forall2 P l ys.
Proof.
  induction l as [|x l IH]; intros H; [exists []; split; [reflexivity|constructor]|].
  destruct (H x (or_introl eq_refl)) as (y & E & HP).
  destruct IH as (ys & E2 & F2); [intros z Hz; apply H; right; exact Hz|].
  exists (y :: ys). cbn. rewrite E. cbn. rewrite E2. split; [reflexivity|constructor; assumption].
Qed.

Lemma subs_spec s : Inv s -> forall fuel x r e, (x < uf_n s)%nat ->
  rtd (uf_parent s) x r e -> (uf_n s <= e + fuel)%nat ->
  exists l, subs fuel s x = Ok l /\ forall z, In z l <-> below (uf_parent s) x z.
Proof.
  intros HI. induction fuel as [|fuel IH]; intros x r e Hx He Hf.
  - pose proof (depth_bound s x r e HI Hx He). lia.
  - cbn [subs]. destruct (uf_subs s x) as [|k0 kids0] eqn:Ek.
    + exists [x]. split; [reflexivity|]. intros z. split; [intros [<-|[]]; constructor|].
      intros Hb. apply below_cases in Hb as [->|(k & Hk & _)]; [left; reflexivity|].
      apply (inv_subs s HI) in Hk. rewrite Ek in Hk. destruct Hk.
    + rewrite <- Ek. clear k0 kids0 Ek.
      destruct (mapM_all (subs fuel s) (uf_subs s x) (fun k l => forall z, In z l <-> below (uf_parent s) k z))
        as (ls & E & F).
      { intros k Hk. apply (inv_subs s HI) in Hk. apply (IH k r (S e)).
        - exact (proj1 (inv_range s HI _ _ Hk)).
        - econstructor; eauto.
        - lia. }
      rewrite E. cbn [bind]. eexists. split; [reflexivity|].
      assert (Hc : forall z, In z (concat ls) <-> exists k, In k (uf_subs s x) /\ below (uf_parent s) k z).
      { intros z. clear E. revert F. generalize (uf_subs s x). intros kids F. induction F as [|k l kids ls H F IHF]; cbn.
        - split; [intros []|intros (k & [] & _)].
        - rewrite in_app_iff, H, IHF. split.
          + intros [Hb|(k' & Hk' & Hb)]; eauto.
          + intros (k' & [->|Hk'] & Hb); eauto. }
      intros z. rewrite in_app_iff. cbn. rewrite Hc. split.
      * intros [Hk|[<-|(k & Hk & Hb)]].
        -- apply (inv_subs s HI) in Hk. eapply belowS; [exact Hk|constructor].
        -- constructor.
        -- apply (inv_subs s HI) in Hk. eapply below_kid; eauto.
      * intros Hb. apply below_cases in Hb as [->|(k & Hk & Hb)]; [auto|].
        apply (inv_subs s HI) in Hk. eauto.
Qed.

Lemma set_ok s x : Inv s -> (x < uf_n s)%nat ->
  exists s' l, owing_elem_set s x = Ok (s', l) /\ Inv s' /\ uf_n s' = uf_n s /\
    (forall z q, rt (uf_parent s') z q <-> rt (uf_parent s) z q) /\
    forall z, In z l <-> exists r, rt (uf_parent s) x r /\ rt (uf_parent s) z r.
Proof.
  intros HI Hx. unfold owing_elem_set.
  destruct (root_ok s x HI Hx) as (s1 & r & E1 & I1 & N1 & Rr & Lr & R1). rewrite E1. cbn [bind].
  assert (Pr : uf_parent s1 r = None) by (apply (rt_root _ x); apply R1; exact Rr).
  destruct (subs_spec s1 I1 (uf_n s) r r 0) as (l & E2 & H2).
  - lia.
  - constructor. exact Pr.
  - lia.
  - rewrite E2. cbn [bind]. exists s1, l. split; [reflexivity|]. split; [exact I1|]. split; [exact N1|].
    split; [exact R1|]. intros z. rewrite H2, (below_rt _ _ _ Pr), R1. split; [eauto|].
    intros (r' & H3 & H4). rewrite (rt_fun _ _ _ _ Rr H3). exact H4.
Qed.

Lemma inv_new s k : Inv s -> Inv (fst (new_tensor s k)).
Proof.
  intros HI. split; cbn.
  - apply (inv_total s HI).
  - intros x y H. apply (inv_range s HI) in H. lia.
  - apply (inv_subs s HI).
  - apply (inv_subs_nodup s HI).
Qed.
Lemma inv_empty : Inv uf_empty.
Proof.
  split; cbn; try discriminate.
  - intros x. exists x. apply rt_self. reflexivity.
  - intros x y. split; [intros []|discriminate].
  - intros y. constructor.
Qed.

(** The relation represented by a state. *)
Definition eqv (s : uf) (a b : nat) : Prop := exists r, rt (uf_parent s) a r /\ rt (uf_parent s) b r.
Lemma eqv_equiv s : Inv s -> (forall a, eqv s a a) /\ (forall a b, eqv s a b -> eqv s b a) /\
  (forall a b c, eqv s a b -> eqv s b c -> eqv s a c).
Proof.
  intros HI. split; [|split].
  - intros a. destruct (inv_total s HI a) as [r Hr]. exists r. auto.
  - intros a b (r & H1 & H2). exists r. auto.
  - intros a b c (r & H1 & H2) (r' & H3 & H4). exists r. split; [exact H1|].
    rewrite (rt_fun _ _ _ _ H2 H3). exact H4.
Qed.
Lemma union_eqv s a b s' : Inv s -> (a < uf_n s)%nat -> (b < uf_n s)%nat -> union_two s a b = Ok s' ->
  forall x y, eqv s' x y <-> clos_refl_sym_trans nat (fun u v => eqv s u v \/ (u = a /\ v = b)) x y.
Proof.
  intros HI Ha Hb E x y. destruct (union_ok s a b HI Ha Hb) as (s1 & ra & rb & E1 & I1 & N1 & Ra & Rb & R).
  rewrite E in E1. apply Ok_inj in E1. subst s1. split.
  - intros (r & Hx & Hy). destruct (inv_total s HI x) as [qx Qx]. destruct (inv_total s HI y) as [qy Qy].
    pose proof (rt_fun _ _ _ _ (R _ _ Qx) Hx) as Ex. pose proof (rt_fun _ _ _ _ (R _ _ Qy) Hy) as Ey.
    assert (Hab : clos_refl_sym_trans nat (fun u v => eqv s u v \/ (u = a /\ v = b)) a b).
    { apply rst_step. right. auto. }
    assert (Hin : forall u v q, rt (uf_parent s) u q -> rt (uf_parent s) v q ->
       clos_refl_sym_trans nat (fun u v => eqv s u v \/ (u = a /\ v = b)) u v).
    { intros u v q Hu Hv. apply rst_step. left. exists q. auto. }
    destruct (Nat.eqb_spec qx rb) as [->|Hqx]; destruct (Nat.eqb_spec qy rb) as [->|Hqy].
    + exact (Hin _ _ _ Qx Qy).
    + subst qy. apply rst_trans with b; [exact (Hin _ _ _ Qx Rb)|]. apply rst_trans with a.
      * apply rst_sym. exact Hab.
      * rewrite <- Ex in Qy. exact (Hin _ _ _ Ra Qy).
    + subst qx. apply rst_trans with a; [rewrite <- Ey in Qx; exact (Hin _ _ _ Qx Ra)|].
      apply rst_trans with b; [exact Hab|]. exact (Hin _ _ _ Rb Qy).
    + subst. exact (Hin _ _ _ Qx Qy).
  - destruct (eqv_equiv s' I1) as (Hr & Hs & Ht). intros H. induction H as [x y [H|[-> ->]]|x|x y H IH|x y z H1 IH1 H2 IH2]; eauto.
    + destruct H as (q & Q1 & Q2). eexists. split; apply R; eassumption.
    + exists ra. split.
      * pose proof (R _ _ Ra) as H. destruct (Nat.eqb ra rb); exact H.
      * pose proof (R _ _ Rb) as H. rewrite Nat.eqb_refl in H. exact H.
Qed.

Lemma rst_ext {A} (R S : A -> A -> Prop) : (forall x y, R x y -> clos_refl_sym_trans A S x y) ->
  forall x y, clos_refl_sym_trans A R x y -> clos_refl_sym_trans A S x y.
Proof.
  intros H x y Hxy. induction Hxy; [auto|apply rst_refl|apply rst_sym; assumption|eapply rst_trans; eauto].
Qed.

Lemma run_eqv : forall cs s, Inv s -> valid_calls (uf_n s) cs ->
  exists s', uf_run s cs = Ok s' /\ Inv s' /\ (uf_n s <= uf_n s')%nat /\
    forall x y, eqv s' x y <-> clos_refl_sym_trans nat (fun u v => eqv s u v \/ requested cs u v) x y.
Proof.
  induction cs as [|c cs IH]; intros s HI HV.
  - exists s. split; [reflexivity|]. split; [exact HI|]. split; [lia|]. intros x y.
    destruct (eqv_equiv s HI) as (Hr & Hs & Ht). split.
    + intros H. apply rst_step. left. exact H.
    + intros H. induction H as [x y [H|[]]|x|x y H IH|x y z H1 IH1 H2 IH2]; eauto.
  - assert (Step : exists s1, uf_exec s c = Ok s1 /\ Inv s1 /\ valid_calls (uf_n s1) cs /\ (uf_n s <= uf_n s1)%nat /\
      forall x y, eqv s1 x y <-> clos_refl_sym_trans nat (fun u v => eqv s u v \/ c = Union u v) x y).
    { assert (Triv : forall s1, (forall z q, rt (uf_parent s1) z q <-> rt (uf_parent s) z q) ->
         (forall a b, c <> Union a b) ->
         forall x y, eqv s1 x y <-> clos_refl_sym_trans nat (fun u v => eqv s u v \/ c = Union u v) x y).
      { intros s1 HR Hc x y. destruct (eqv_equiv s HI) as (Hr & Hs & Ht). split.
        - intros (q & Q1 & Q2). apply rst_step. left. exists q. rewrite <- !HR. auto.
        - intros H. assert (He : eqv s x y).
          { induction H as [x y [H|H]|x|x y H IHx|x y z H1 IH1 H2 IH2]; eauto. destruct (Hc _ _ H). }
          destruct He as (q & Q1 & Q2). exists q. rewrite !HR. auto. }
      destruct c as [k|a b|a|a]; cbn [uf_exec valid_calls] in *.
      - eexists. split; [reflexivity|]. split; [apply inv_new; exact HI|]. split; [exact HV|]. split; [cbn; lia|].
        apply Triv; [tauto|discriminate].
      - destruct HV as (Ha & Hb & HV). destruct (union_ok s a b HI Ha Hb) as (s1 & ra & rb & E & I1 & N1 & _).
        exists s1. split; [exact E|]. split; [exact I1|]. split; [rewrite N1; exact HV|]. split; [lia|].
        intros x y. rewrite (union_eqv s a b s1 HI Ha Hb E). split; apply rst_ext; intros u v [H|H].
        + apply rst_step. auto.
        + destruct H as [-> ->]. apply rst_step. auto.
        + apply rst_step. auto.
        + inversion H; subst. apply rst_step. auto.
      - destruct HV as (Ha & HV). destruct (root_ok s a HI Ha) as (s1 & r & E & I1 & N1 & _ & _ & R).
        exists s1. rewrite E. split; [reflexivity|]. split; [exact I1|]. split; [rewrite N1; exact HV|].
        split; [lia|]. apply Triv; [exact R|discriminate].
      - destruct HV as (Ha & HV). destruct (set_ok s a HI Ha) as (s1 & l & E & I1 & N1 & R & _).
        exists s1. rewrite E. split; [reflexivity|]. split; [exact I1|]. split; [rewrite N1; exact HV|].
        split; [lia|]. apply Triv; [exact R|discriminate]. }
    destruct Step as (s1 & E1 & I1 & V1 & N1 & Q1).
    destruct (IH s1 I1 V1) as (s2 & E2 & I2 & N2 & Q2).
    exists s2. cbn [uf_run]. rewrite E1. split; [exact E2|]. split; [exact I2|]. split; [lia|].
    intros x y. rewrite Q2. split; apply rst_ext; intros u v [H|H].
    + apply Q1 in H. revert H. apply rst_ext. intros a b [H|H]; apply rst_step; [auto|]. right. left. exact H.
    + apply rst_step. right. right. exact H.
    + apply rst_step. left. apply Q1. apply rst_step. auto.
    + destruct H as [H|H]; apply rst_step; [left; apply Q1; apply rst_step; auto|right; exact H].
Qed.

(** * C14 *)

(** Any valid history succeeds; afterwards [root] answers exactly the generated
    equivalence, and reading a group returns exactly the elements related to [a]. *)
Theorem C14_groups :
  forall cs, valid_calls 0 cs ->
  exists s, uf_run uf_empty cs = Ok s /\
    (forall a b, (a < uf_n s)%nat -> (b < uf_n s)%nat ->
       exists sa ra sb rb, root (uf_n s) s a = Ok (sa, ra) /\ root (uf_n sa) sa b = Ok (sb, rb) /\
         (ra = rb <-> same_group cs a b)) /\
    (forall a, (a < uf_n s)%nat ->
       exists s' l, owing_elem_set s a = Ok (s', l) /\ forall z, In z l <-> same_group cs a z).
Proof.
  intros cs HV. destruct (run_eqv cs uf_empty inv_empty HV) as (s & E & HI & _ & HQ).
  assert (HE : forall x y, eqv s x y <-> same_group cs x y).
  { intros x y. rewrite HQ. split; apply rst_ext; intros u v H.
    - destruct H as [(r & H1 & H2)|H]; [|apply rst_step; exact H].
      assert (F : forall w, rt (uf_parent uf_empty) w w) by (intros; apply rt_self; reflexivity).
      rewrite <- (rt_fun _ _ _ _ (F u) H1) in H2. rewrite <- (rt_fun _ _ _ _ (F v) H2). apply rst_refl.
    - apply rst_step. right. exact H. }
  exists s. split; [exact E|]. split.
  - intros a b Ha Hb. destruct (root_ok s a HI Ha) as (sa & ra & E1 & I1 & N1 & Ra & _ & R1).
    destruct (root_ok sa b I1 ltac:(lia)) as (sb & rb & E2 & _ & _ & Rb & _ & _).
    exists sa, ra, sb, rb. split; [exact E1|]. split; [exact E2|]. apply R1 in Rb.
    rewrite <- HE. split.
    + intros ->. exists rb. auto.
    + intros (r & H1 & H2). rewrite (rt_fun _ _ _ _ Ra H1), (rt_fun _ _ _ _ Rb H2). reflexivity.
  - intros a Ha. destruct (set_ok s a HI Ha) as (s' & l & E1 & _ & _ & _ & Hl).
    exists s', l. split; [exact E1|]. intros z. rewrite Hl, <- HE. reflexivity.
Qed.
Print Assumptions C14_groups.

(** Tensor-level operations only merge corresponding channels. *)
Definition reach (s : uf) : Prop := exists cs, valid_calls 0 cs /\ uf_run uf_empty cs = Ok s.
Lemma reach_inv s : reach s -> Inv s.
Proof.
  intros (cs & HV & E). destruct (run_eqv cs uf_empty inv_empty HV) as (s' & E' & HI & _).
  rewrite E in E'. apply Ok_inj in E'. subst. exact HI.
Qed.
(** [a] and [b] are reported as one group. *)
Definition grouped (s : uf) (a b : nat) : Prop :=
  exists s' l, owing_elem_set s a = Ok (s', l) /\ In b l.
Lemma grouped_eqv s a b : Inv s -> (a < uf_n s)%nat -> grouped s a b <-> eqv s a b.
Proof.
  intros HI Ha. destruct (set_ok s a HI Ha) as (s' & l & E & _ & _ & _ & Hl). split.
  - intros (s1 & l1 & E1 & Hb). rewrite E in E1. inversion E1; subst. apply Hl. exact Hb.
  - intros H. exists s', l. split; [exact E|]. apply Hl. exact H.
Qed.
Lemma pairs_run s l : union_pairs s l = uf_run s (map (fun ab => Union (fst ab) (snd ab)) l).
Proof.
  revert s. induction l as [|[a b] l IH]; intros s; cbn; [reflexivity|].
  destruct (union_two s a b); cbn; [apply IH|reflexivity].
Qed.
Lemma valid_pairs n l : (forall a b, In (a, b) l -> (a < n)%nat /\ (b < n)%nat) ->
  valid_calls n (map (fun ab => Union (fst ab) (snd ab)) l).
Proof.
  induction l as [|[a b] l IH]; intros H; cbn; [exact I|].
  destruct (H a b (or_introl eq_refl)). split; [assumption|]. split; [assumption|].
  apply IH. intros; apply H; right; assumption.
Qed.
Lemma requested_pairs l a b : requested (map (fun ab => Union (fst ab) (snd ab)) l) a b <-> In (a, b) l.
Proof.
  unfold requested. rewrite in_map_iff. split.
  - intros ([u v] & H & Hin). inversion H; subst. exact Hin.
  - intros H. exists (a, b). auto.
Qed.
Lemma uf_run_app s cs1 cs2 : uf_run s (cs1 ++ cs2) = bind (uf_run s cs1) (fun s' => uf_run s' cs2).
Proof.
  revert s. induction cs1 as [|c cs1 IH]; intros s; cbn; [reflexivity|].
  destruct (uf_exec s c); cbn; [apply IH|reflexivity].
Qed.
Lemma run_n : forall cs s s', uf_run s cs = Ok s' -> Inv s -> valid_calls (uf_n s) cs ->
  forall cs2, valid_calls (uf_n s') cs2 -> valid_calls (uf_n s) (cs ++ cs2).
Proof.
  induction cs as [|c cs IH]; intros s s' E HI HV cs2 H2; cbn in E.
  - apply Ok_inj in E. subst. exact H2.
  - assert (Ex : exists s1, uf_exec s c = Ok s1 /\ Inv s1 /\ uf_run s1 cs = Ok s' /\
        uf_n s1 = match c with NewTensor k => (uf_n s + k)%nat | _ => uf_n s end).
    { destruct c as [k|a b|a|a]; cbn [uf_exec valid_calls] in *.
      - eexists. split; [reflexivity|]. split; [apply inv_new; exact HI|]. split; [exact E|reflexivity].
      - destruct HV as (Ha & Hb & _). destruct (union_ok s a b HI Ha Hb) as (s1 & ra & rb & E1 & I1 & N1 & _).
        rewrite E1 in E. exists s1. auto.
      - destruct HV as (Ha & _). destruct (root_ok s a HI Ha) as (s1 & r & E1 & I1 & N1 & _).
        rewrite E1 in E |- *. exists s1. auto.
      - destruct HV as (Ha & _). destruct (set_ok s a HI Ha) as (s1 & l & E1 & I1 & N1 & _).
        rewrite E1 in E |- *. exists s1. auto. }
    destruct Ex as (s1 & E1 & I1 & Er & N1). cbn [app].
    destruct c as [k|a b|a|a]; cbn [valid_calls] in *.
    + rewrite <- N1 in *. eapply IH; eauto.
    + rewrite <- N1 in *. destruct HV as (Ha & Hb & HV). repeat split; auto. eapply IH; eauto.
    + rewrite <- N1 in *. destruct HV as (Ha & HV). repeat split; auto. eapply IH; eauto.
    + rewrite <- N1 in *. destruct HV as (Ha & HV). repeat split; auto. eapply IH; eauto.
Qed.
Lemma reach_run s cs s' : reach s -> valid_calls (uf_n s) cs -> uf_run s cs = Ok s' -> reach s'.
Proof.
  intros (cs0 & HV0 & E0) HV E. exists (cs0 ++ cs). split.
  - apply (run_n cs0 uf_empty s E0 inv_empty HV0 cs). exact HV.
  - rewrite uf_run_app, E0. exact E.
Qed.

Lemma combine_in_both {A B} (l : list A) (l' : list B) a b : In (a, b) (combine l l') -> In a l /\ In b l'.
Proof. intros H. split; [eapply in_combine_l; eauto|eapply in_combine_r; eauto]. Qed.

Theorem C14_tensor_union :
  forall s t1 t2, reach s ->
    (forall a, In a t1 \/ In a t2 -> (a < uf_n s)%nat) ->
    (length t1 <> length t2 -> tensor_union s t1 t2 = Raise AssertionError) /\
    (length t1 = length t2 -> exists s', tensor_union s t1 t2 = Ok s' /\ reach s' /\ uf_n s' = uf_n s /\
      forall a b, (a < uf_n s)%nat ->
        (grouped s' a b <->
         clos_refl_sym_trans nat
           (fun u v => ((u < uf_n s)%nat /\ grouped s u v) \/
                       exists i, nth_error t1 i = Some u /\ nth_error t2 i = Some v) a b)).
Proof.
  intros s t1 t2 Hr Hlt. pose proof (reach_inv s Hr) as HI. unfold tensor_union. split.
  { intros Hne. destruct (Nat.eqb_spec (length t1) (length t2)); [congruence|]. reflexivity. }
  intros Hlen. rewrite Hlen, Nat.eqb_refl. cbn [assert_ bind]. rewrite pairs_run.
  set (cs := map (fun ab => Union (fst ab) (snd ab)) (combine t1 t2)).
  assert (HV : valid_calls (uf_n s) cs).
  { apply valid_pairs. intros a b Hab. apply combine_in_both in Hab. split; apply Hlt; tauto. }
  destruct (run_eqv cs s HI HV) as (s' & E & HI' & Hn & HQ).
  assert (Hnn : uf_n s' = uf_n s).
  { clear - HI HV E. subst cs. revert s HI HV E. induction (combine t1 t2) as [|[a b] l IH]; intros s HI HV E; cbn in *.
    - apply Ok_inj in E. congruence.
    - destruct HV as (Ha & Hb & HV). destruct (union_ok s a b HI Ha Hb) as (s1 & ra & rb & E1 & I1 & N1 & _).
      rewrite E1 in E. cbn in E. rewrite <- N1 in *. apply IH; assumption. }
  exists s'. split; [exact E|]. split; [apply (reach_run s cs); assumption|]. split; [exact Hnn|].
  intros a b Ha. rewrite grouped_eqv by (auto; lia). rewrite HQ.
  assert (Hzip : forall (l1 l2 : list nat) u v, In (u, v) (combine l1 l2) <->
     exists i, nth_error l1 i = Some u /\ nth_error l2 i = Some v).
  { induction l1 as [|x l1 IH]; intros l2 u v; cbn.
    - split; [intros []|]. intros ([|i] & H & _); discriminate.
    - destruct l2 as [|y l2]; cbn.
      + split; [intros []|]. intros ([|i] & _ & H); discriminate.
      + rewrite IH. split.
        * intros [H|(i & H1 & H2)]; [exists 0%nat; inversion H; auto|exists (S i); auto].
        * intros ([|i] & H1 & H2); cbn in *; [left; congruence|right; eauto]. }
  split; apply rst_ext; intros u v [H|H].
  - destruct (le_lt_dec (uf_n s) u) as [Hu|Hu].
    + (* an element that does not exist: related only to itself *)
      assert (Huv : u = v).
      { destruct H as (q & H1 & H2).
        assert (Pu : uf_parent s u = None) by (destruct (uf_parent s u) eqn:Ep; [apply (inv_range s HI) in Ep; lia|reflexivity]).
        rewrite <- (rt_fun _ _ _ _ (rt_self _ _ Pu) H1) in H2. destruct H2 as [d Hd]. inversion Hd; subst; [reflexivity|].
        exfalso. assert (Hlast : forall w, (w < uf_n s)%nat -> ~ rt (uf_parent s) w u).
        { intros w Hw (dw & Hdw). clear - Hu Hw Hdw HI. induction Hdw as [w Hp|w w' r d Hp Hd IH]; [lia|].
          apply IH; [exact Hu|]. exact (proj2 (inv_range s HI _ _ Hp)). }
        eapply (Hlast y); [exact (proj2 (inv_range s HI _ _ H))|]. exists d0. exact H0. }
      subst. apply rst_refl.
    + apply rst_step. left. split; [exact Hu|]. apply grouped_eqv; assumption.
  - apply requested_pairs in H. apply rst_step. right. apply Hzip. exact H.
  - destruct H as [Hu H]. apply rst_step. left. apply grouped_eqv in H; assumption.
  - apply rst_step. right. apply requested_pairs. apply Hzip. exact H.
Qed.
Print Assumptions C14_tensor_union.

Example C14_example :
  let cs := [NewTensor 4; Union 0 1; ReadSet 1; Union 2 3; ReadRoot 3; Union 1 3; Union 0 2] in
  valid_calls 0 cs /\
  exists s, uf_run uf_empty cs = Ok s /\
    exists s' l, owing_elem_set s 3 = Ok (s', l) /\ incl [0; 1; 2; 3]%nat l.
Proof.
  cbv zeta. split; [cbn; lia|]. eexists. split; [vm_compute; reflexivity|].
  eexists. eexists. split; [vm_compute; reflexivity|]. intros z Hz. cbn in *. intuition.
Qed.

(** An element that does not exist yet is related only to itself. *)
Lemma eqv_new s u v : Inv s -> (uf_n s <= u)%nat -> eqv s u v -> u = v.
Proof.
  intros HI Hu (q & H1 & H2).
  assert (Pu : uf_parent s u = None) by (destruct (uf_parent s u) eqn:Ep; [apply (inv_range s HI) in Ep; lia|reflexivity]).
  rewrite <- (rt_fun _ _ _ _ (rt_self _ _ Pu) H1) in H2. destruct H2 as [d Hd].
  destruct (le_lt_dec (uf_n s) v) as [Hv|Hv].
  - assert (Pv : uf_parent s v = None) by (destruct (uf_parent s v) eqn:Ep; [apply (inv_range s HI) in Ep; lia|reflexivity]).
    inversion Hd; subst; [reflexivity|congruence].
  - exfalso. clear - Hu Hv Hd HI. induction Hd as [w Hp|w w' r d Hp Hd IH]; [lia|].
    apply IH; [exact Hu|]. exact (proj2 (inv_range s HI _ _ Hp)).
Qed.
Lemma pairs_n : forall l s s', Inv s -> (forall a b, In (a, b) l -> (a < uf_n s)%nat /\ (b < uf_n s)%nat) ->
  union_pairs s l = Ok s' -> uf_n s' = uf_n s.
Proof.
  induction l as [|[a b] l IH]; intros s s' HI H E; cbn in E.
  - apply Ok_inj in E. congruence.
  - destruct (H a b (or_introl eq_refl)) as [Ha Hb].
    destruct (union_ok s a b HI Ha Hb) as (s1 & ra & rb & E1 & I1 & N1 & _). rewrite E1 in E. cbn in E.
    rewrite <- N1. apply (IH s1 s' I1); [|exact E]. intros u v Huv. rewrite N1. apply H. right. exact Huv.
Qed.

(** Expanding a tensor: every channel gets a block of [ratio] fresh elements, in order, and
    nothing else is merged. *)
Theorem C14_expand :
  forall s t ratio, reach s -> (forall a, In a t -> (a < uf_n s)%nat) ->
  exists s' new, tensor_expand s t ratio = Ok (s', new) /\ reach s' /\
    length new = (length t * ratio)%nat /\ NoDup new /\
    (forall e, In e new <-> (uf_n s <= e < uf_n s')%nat) /\
    forall a b, (a < uf_n s')%nat ->
      (grouped s' a b <->
       clos_refl_sym_trans nat
         (fun u v => ((u < uf_n s)%nat /\ grouped s u v) \/
                     exists i j, (j < ratio)%nat /\ nth_error t i = Some u /\
                                 nth_error new (i * ratio + j) = Some v) a b).
Proof.
  intros s t ratio Hr Hlt. pose proof (reach_inv s Hr) as HI. unfold tensor_expand, new_tensor.
  set (k := (ratio * length t)%nat).
  set (s1 := {| uf_n := uf_n s + k; uf_parent := uf_parent s; uf_subs := uf_subs s |}).
  set (new := seq (uf_n s) k).
  set (l := flat_map _ _).
  assert (Hl : forall u v, In (u, v) l <-> exists i j, (j < ratio)%nat /\ nth_error t i = Some u /\
                                 nth_error new (i * ratio + j) = Some v).
  { intros u v. unfold l. rewrite in_flat_map. split.
    - intros (i & Hi & H). apply in_seq in Hi. apply in_map_iff in H as (j & H & Hj). apply in_seq in Hj.
      inversion H; subst. exists i, j. split; [lia|]. split; [apply nth_error_nth'; lia|].
      apply nth_error_nth'. unfold new, k. rewrite seq_length. nia.
    - intros (i & j & Hj & Hu & Hv). exists i.
      assert (Hi : (i < length t)%nat) by (apply nth_error_Some; congruence).
      split; [apply in_seq; lia|]. apply in_map_iff. exists j. split; [|apply in_seq; lia].
      rewrite (nth_error_nth t i 0%nat Hu), (nth_error_nth new _ 0%nat Hv). reflexivity. }
  assert (Hv : forall a b, In (a, b) l -> (a < uf_n s1)%nat /\ (b < uf_n s1)%nat).
  { intros a b H. apply Hl in H as (i & j & _ & Ha & Hb). apply nth_error_In in Ha, Hb.
    apply in_seq in Hb. specialize (Hlt a Ha). cbn. lia. }
  assert (I1 : Inv s1) by (apply inv_new; exact HI).
  destruct (run_eqv _ s1 I1 (valid_pairs _ _ Hv)) as (s' & E & I' & _ & HQ).
  assert (R' : reach s').
  { apply (reach_run s (NewTensor k :: map (fun ab => Union (fst ab) (snd ab)) l)); [exact Hr| |exact E].
    cbn. apply (valid_pairs _ _ Hv). }
  rewrite <- pairs_run in E. pose proof (pairs_n l s1 s' I1 Hv E) as N'.
  exists s', new. rewrite E. split; [reflexivity|]. split; [exact R'|].
  split; [unfold new, k; rewrite seq_length; lia|]. split; [apply seq_NoDup|].
  split; [intros e; unfold new; rewrite in_seq, N'; cbn; lia|].
  intros a b Ha. rewrite grouped_eqv by assumption. rewrite HQ.
  split; apply rst_ext; intros u v [H|H].
  - change (eqv s u v) in H. destruct (le_lt_dec (uf_n s) u) as [Hu|Hu].
    + rewrite (eqv_new s u v HI Hu H). apply rst_refl.
    + apply rst_step. left. split; [exact Hu|]. apply grouped_eqv; assumption.
  - apply requested_pairs in H. apply rst_step. right. apply Hl. exact H.
  - destruct H as [Hu H]. apply rst_step. left. apply grouped_eqv in H; assumption.
  - apply rst_step. right. apply requested_pairs. apply Hl. exact H.
Qed.
Print Assumptions C14_expand.
Example C14_expand_example :
  let s := fst (new_tensor uf_empty 3) in
  reach s /\
  exists s' new s2, tensor_expand s [2; 0]%nat 2 = Ok (s', new) /\ new = [3; 4; 5; 6]%nat /\
    exists l0, owing_elem_set s' 0%nat = Ok (s2, l0) /\ incl l0 [0; 5; 6]%nat /\ incl [0; 5; 6]%nat l0.
Proof.
  split.
  - exists [NewTensor 3]. split; [exact I|reflexivity].
  - eexists. eexists. eexists. split; [vm_compute; reflexivity|]. split; [reflexivity|].
    eexists. split; [vm_compute; reflexivity|]. split; intros z Hz; cbn in *; intuition.
Qed.

(** * C61 - A tensor is split into ranges that tile it *)

(** The ranges tile [from, to): consecutive, non-empty, in order. *)
Fixpoint tiles (l : list ((Z * Z) * Z)) (from to : Z) : Prop :=
  match l with
  | [] => from = to
  | ((s, e), _) :: r => s = from /\ s < e /\ tiles r e to
  end.

Lemma split_tiles : forall l prev start e first, start < e ->
  tiles (split_loop l prev start e first) start (e + Z.of_nat (length l)).
Proof.
  induction l as [|h l IH]; intros prev start e first Hse; cbn [split_loop length].
  - cbn. lia.
  - destruct (_ || _).
    + cbn [tiles]. split; [reflexivity|]. split; [exact Hse|].
      replace (e + Z.of_nat (S (length l))) with (e + 1 + Z.of_nat (length l)) by lia. apply IH. lia.
    + replace (e + Z.of_nat (S (length l))) with (e + 1 + Z.of_nat (length l)) by lia. apply IH. lia.
Qed.

(** Every channel of a range carries the hash recorded for the range. *)
Lemma split_hash : forall l prev start e first (h : Z -> Z),
  (forall i x, nth_error l i = Some x -> h (e + Z.of_nat i) = fst x) ->
  fst prev = first -> (forall j, start <= j < e -> h j = first) ->
  forall s' e' v, In ((s', e'), v) (split_loop l prev start e first) ->
  forall j, s' <= j < e' -> h j = v.
Proof.
  induction l as [|x l IH]; intros prev start e first h Hl Hp Hj s' e' v Hin j Hjj; cbn [split_loop] in Hin.
  - destruct Hin as [H|[]]. inversion H; subst. apply Hj. exact Hjj.
  - assert (Hx : h e = fst x) by (rewrite <- (Hl 0%nat x eq_refl); f_equal; lia).
    assert (Hl' : forall i y, nth_error l i = Some y -> h (e + 1 + Z.of_nat i) = fst y).
    { intros i y Hy. rewrite <- (Hl (S i) y Hy). f_equal. lia. }
    destruct (Z.eqb_spec (fst x) (fst prev)) as [He|Hne]; cbn [negb orb] in Hin.
    + destruct (Z.ltb (snd x) (snd prev)).
      * destruct Hin as [H|Hin]; [inversion H; subst; apply Hj; exact Hjj|].
        eapply (IH x e (e + 1) (fst x) h Hl' eq_refl); [|exact Hin|exact Hjj].
        intros k Hk. replace k with e by lia. exact Hx.
      * eapply (IH x start (e + 1) first h Hl'); [congruence| |exact Hin|exact Hjj].
        intros k Hk. destruct (Z.eq_dec k e) as [->|]; [congruence|apply Hj; lia].
    + destruct Hin as [H|Hin]; [inversion H; subst; apply Hj; exact Hjj|].
      eapply (IH x e (e + 1) (fst x) h Hl' eq_refl); [|exact Hin|exact Hjj].
      intros k Hk. replace k with e by lia. exact Hx.
Qed.

(** Inserting tiling ranges in order never raises. *)
Lemma insert_tiles : forall l d from to, tiles l from to ->
  (forall s e, In (s, e) (keys d) -> s < e /\ e <= from) ->
  exists d', fold_left (fun acc kv => bind acc (fun d => setitem d (fst kv) (snd kv))) l (Ok d) = Ok d' /\
    forall k v, In (k, v) d' <-> In (k, v) d \/ In (k, v) l.
Proof.
  induction l as [|[[s e] v] l IH]; intros d from to Ht Hd; cbn [fold_left].
  - exists d. split; [reflexivity|]. cbn. tauto.
  - destruct Ht as (-> & Hse & Ht). cbn [bind fst snd].
    assert (Hc : contains d (from, e) = false).
    { destruct (contains d (from, e)) eqn:E; [|reflexivity]. exfalso.
      unfold contains in E. destruct (existsb (range_eqb (from, e)) (keys d)) eqn:Ex.
      - apply existsb_exists in Ex as ([s' e'] & Hin & Heq). apply range_eqb_spec in Heq. inversion Heq; subst.
        apply Hd in Hin. lia.
      - assert (Hf : forall ks b, (forall k, In k ks -> hits from e k = false) ->
           fold_left (fun existed k' => hits (fst (from, e)) (snd (from, e)) k' || existed) ks b = b).
        { induction ks as [|k ks IHk]; intros b Hk; cbn; [reflexivity|].
          rewrite (Hk k (or_introl eq_refl)). cbn. apply IHk. intros; apply Hk; right; assumption. }
        rewrite Hf in E; [discriminate|]. intros [s' e'] Hin. apply Hd in Hin. unfold hits. lia. }
    unfold setitem at 2. assert (Hlt : (from <? e) = true) by lia. rewrite Hlt. cbn [assert_ bind].
    rewrite Hc. cbn [negb assert_ bind].
    destruct (IH (sort_items (d ++ [((from, e), v)])) e to Ht) as (d' & E & Hd').
    + intros s' e' Hin. apply keys_in in Hin as [w Hw].
      apply (Permutation.Permutation_in _ (sort_perm _ _)) in Hw. apply in_app_iff in Hw as [Hw|[Hw|[]]].
      * assert (Hk : In (s', e') (keys d)) by (apply keys_in; eauto). apply Hd in Hk. lia.
      * inversion Hw; subst. lia.
    + exists d'. split; [exact E|]. intros k w. rewrite Hd'. cbn [In].
      assert (Hs : In (k, w) (sort_items (d ++ [((from, e), v)])) <-> In (k, w) d \/ ((from, e), v) = (k, w)).
      { split; intros H.
        - apply (Permutation.Permutation_in _ (sort_perm _ _)) in H. apply in_app_iff in H as [H|[H|[]]]; auto.
        - apply (Permutation.Permutation_in _ (Permutation.Permutation_sym (sort_perm _ _))).
          apply in_app_iff. cbn. tauto. }
      rewrite Hs. tauto.
Qed.

(** For every list of channel hashes (non-empty), the split tiles [0, n), each range has one
    hash, and storing the ranges in the dictionary never raises and loses none. *)
Theorem C61_ranges_tile :
  forall (hs : list (Z * Z)), hs <> [] ->
  exists rs d, elems_hash_ranges hs = Ok rs /\ tiles rs 0 (Z.of_nat (length hs)) /\
    (forall s e v i x, In ((s, e), v) rs -> nth_error hs i = Some x -> s <= Z.of_nat i < e -> fst x = v) /\
    fold_left (fun acc kv => bind acc (fun d => setitem d (fst kv) (snd kv))) rs (Ok []) = Ok d /\
    (forall k v, In (k, v) d <-> In (k, v) rs).
Proof.
  intros hs Hne. destruct hs as [|h hs]; [congruence|]. clear Hne. cbn [elems_hash_ranges].
  pose proof (split_tiles hs h 0 1 (fst h) ltac:(lia)) as Ht.
  destruct (insert_tiles _ [] 0 _ Ht) as (d & E & Hd); [intros s e []|].
  eexists. exists d. split; [reflexivity|]. split.
  - replace (Z.of_nat (length (h :: hs))) with (1 + Z.of_nat (length hs)) by (cbn [length]; lia). exact Ht.
  - split; [|split; [exact E|]].
    + intros s e v i x Hin Hx Hi.
      set (f := fun j : Z => match nth_error (h :: hs) (Z.to_nat j) with Some y => fst y | None => 0 end).
      assert (Hf : f (Z.of_nat i) = v).
      { apply (split_hash hs h 0 1 (fst h) f) with (s' := s) (e' := e); auto.
        - intros k y Hy. unfold f. replace (Z.to_nat (1 + Z.of_nat k)) with (S k) by lia. cbn [nth_error].
          rewrite Hy. reflexivity.
        - intros j Hj. unfold f. replace (Z.to_nat j) with 0%nat by lia. reflexivity. }
      unfold f in Hf. rewrite Nat2Z.id, Hx in Hf. exact Hf.
    + intros k v. rewrite Hd. cbn. tauto.
Qed.
Print Assumptions C61_ranges_tile.
Example C61_example :
  elems_hash_ranges [(7, 0); (7, 1); (9, 0); (9, 1); (9, 0)]
  = Ok [((0, 2), 7); ((2, 4), 9); ((4, 5), 9)].
Proof. vm_compute. reflexivity. Qed.
