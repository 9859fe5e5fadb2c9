(** C113 - the mask of a module shows the masks of the units its channels belong to. *)
From Verif Require Import Prelude IndexDict_Model IndexDict_Lemmas Container_Model Container_Lemmas Container_Props Register_Model.
From Coq Require Import Sorting.Sorted Sorting.Permutation.

(** ** Specification *)
(** Channel [c] belongs to unit [u] (named by its position), which has [n] channels. *)
Definition member (us : list runit) (u : nat) (n : Z) (c : rchan) : Prop :=
  exists x, nth_error us u = Some x /\ n = ru_n x /\ In c (ru_chans x).
Definition on (m : nat) (io : bool) (c : rchan) : Prop := rc_mod c = m /\ rc_out c = io.
Definition within (c : rchan) (x : Z) : Prop := rc_start c <= x < rc_end c.
(** Channels are not empty nor smaller than their unit, and no position of a module is claimed in
    two ways. *)
Record tidy (mods : nat -> option (Z * Z)) (us : list runit) : Prop := {
  td_size : forall u n c, member us u n c -> mods (rc_mod c) <> None -> 0 < n <= rc_end c - rc_start c;
  td_once : forall u n c u' n' c' x, member us u n c -> member us u' n' c' -> mods (rc_mod c) <> None ->
    rc_mod c = rc_mod c' -> rc_out c = rc_out c' -> within c x -> within c' x ->
    u = u' /\ rc_start c = rc_start c' /\ rc_end c = rc_end c' }.
Definition width_of (wh : Z * Z) (io : bool) : Z := if io then snd wh else fst wh.
(** The mask of a side of a module: what belongs to a unit shows the unit's mask, every entry of it
    over equally many channels; all else is kept. *)
Definition shows (us : list runit) (masks : nat -> list bool) (m : nat) (io : bool) (w : Z) (mask : list bool) : Prop :=
  Z.of_nat (length mask) = w /\
  (forall u n c x, member us u n c -> on m io c -> within c x ->
     0 <= x /\ nth_error mask (Z.to_nat x) = nth_error (masks u) (Z.to_nat ((x - rc_start c) / ((rc_end c - rc_start c) / n)))) /\
  (forall x, 0 <= x < w -> (forall u n c, member us u n c -> on m io c -> ~ within c x) -> nth_error mask (Z.to_nat x) = Some true).
Definition sized (us : list runit) (masks : nat -> list bool) : Prop :=
  forall u x, nth_error us u = Some x -> Z.of_nat (length (masks u)) = ru_n x.
(** The channels of a unit are whole multiples of it, and lie in their module. *)
Definition fitting (us : list runit) (m : nat) (io : bool) (w : Z) : Prop :=
  forall u n c, member us u n c -> on m io c -> (n | rc_end c - rc_start c) /\ 0 <= rc_start c /\ rc_end c <= w.
(** The full claim. *)
Definition C113_claim : Prop :=
  forall mods us masks m io wh,
    tidy mods us -> sized us masks -> mods m = Some wh -> 0 <= width_of wh io -> fitting us m io (width_of wh io) ->
    exists st mask, prepare_units mods us = Ok st /\ read_mask st masks m io = Ok mask /\
      shows us masks m io (width_of wh io) mask.

(** ** Proof *)
Lemma pick_ok w n : 0 < n <= w -> exists r, pick_ratio w n = Ok r /\
  (r = RSame /\ w = n \/ (exists q, r = RInt q /\ w = n * q /\ 1 < q) \/ r = RFloat /\ ~ (n | w)).
Proof.
  intros H. unfold pick_ratio. destruct (w =? n) eqn:E; [exists RSame; split; [reflexivity|left; split; [reflexivity|lia]]|].
  destruct (n <? w) eqn:E1; [|lia]. destruct (n =? 0) eqn:E2; [lia|]. destruct (w mod n =? 0) eqn:E3.
  - apply Z.eqb_eq in E3. apply Z.div_exact in E3; [|lia]. exists (RInt (w / n)). split; [reflexivity|]. right. left. exists (w / n). split; [reflexivity|]. split; [exact E3|]. nia.
  - exists RFloat. split; [reflexivity|]. right. right. split; [reflexivity|]. intros D. apply Z.mod_divide in D; lia.
Qed.
Lemma slot_at_in d k v : slot_at d k = Some v -> In (k, v) d.
Proof. induction d as [|[k' v'] d IH]; cbn [slot_at]; [discriminate|]. destruct (range_eqb k k') eqn:E; [|right; auto]. apply range_eqb_spec in E. subst. intros H. inversion H. left. reflexivity. Qed.
Lemma slot_at_none d k : slot_at d k = None -> forall v, ~ In (k, v) d.
Proof.
  induction d as [|[k' v'] d IH]; cbn [slot_at]; intros H v I; [exact I|]. destruct (range_eqb k k') eqn:E; [discriminate|]. destruct I as [I|I]; [|exact (IH H v I)].
  inversion I; subst. assert (range_eqb k k = true) by (apply range_eqb_spec; reflexivity). congruence.
Qed.

Section Reg.
Variable mods : nat -> option (Z * Z).
Variable us : list runit.
Hypothesis T : tidy mods us.

(** [done u n c]: channel [c] of unit [u] has been registered. *)
Record rinv (done : nat -> Z -> rchan -> Prop) (st : rstate) : Prop := {
  ri_cont : forall m io, exists rs, rs_cont st m io = option_map (fun wh => register_all (width_of wh io) rs) (mods m);
  ri_slot : forall m io k s e v, rs_cont st m io = Some k -> In ((s, e), v) (slots k) ->
    exists u n c id r, done u n c /\ on m io c /\ s = rc_start c /\ e = rc_end c /\ v = Reg id /\
      nth_error (rs_made st) id = Some {| md_unit := u; md_ratio := r |} /\ pick_ratio (e - s) n = Ok r;
  ri_done : forall u n c, done u n c -> forall k, rs_cont st (rc_mod c) (rc_out c) = Some k ->
    exists id, In ((rc_start c, rc_end c), Reg id) (slots k) }.

Lemma rinv_start : rinv (fun _ _ _ => False) (register_containers mods).
Proof.
  constructor; [| |intros u n c []].
  - intros m io. exists []. unfold register_containers. cbn [rs_cont]. destruct (mods m) as [[i o]|]; [|reflexivity]. destruct io; reflexivity.
  - intros m io k s e v E I. unfold register_containers in E. cbn [rs_cont] in E. destruct (mods m) as [[i o]|]; [|discriminate]. inversion E; subst. destruct I.
Qed.

Lemma rinv_channel done st u n c :
  rinv done st -> (forall u' n' c', done u' n' c' -> member us u' n' c') -> member us u n c ->
  exists st', register_channel u n st c = Ok st' /\ rinv (fun u' n' c' => done u' n' c' \/ (u' = u /\ n' = n /\ c' = c)) st'.
Proof.
  intros V Dm Mc. unfold register_channel. destruct (ri_cont _ _ V (rc_mod c) (rc_out c)) as [rs E]. destruct (mods (rc_mod c)) as [wh|] eqn:Em; cbn [option_map] in E; rewrite E.
  2:{ exists st. split; [reflexivity|]. constructor; [exact (ri_cont _ _ V)| |].
      - intros m io k s e v Ek I. destruct (ri_slot _ _ V m io k s e v Ek I) as (a1 & a2 & a3 & a4 & a5 & X & Y). exists a1, a2, a3, a4, a5. split; [left; exact X|exact Y].
      - intros u' n' c' [D|(-> & -> & ->)] k Ek; [exact (ri_done _ _ V u' n' c' D k Ek)|congruence]. }
  assert (Dn : mods (rc_mod c) <> None) by congruence. pose proof (td_size _ _ T u n c Mc Dn) as Sz.
  destruct (pick_ok (rc_end c - rc_start c) n Sz) as (r & Er & _). rewrite Er. cbn [bind]. set (k := register_all (width_of wh (rc_out c)) rs) in *.
  assert (Ne : forall s e, In (s, e) (keys (slots k)) -> s < e).
  { intros s e I. apply (keys_in slot) in I. destruct I as [v I]. exact (proj1 (register_all_regs _ _ s e v I)). }
  destruct (contains (slots k) (rc_start c, rc_end c)) eqn:Ec.
  - apply contains_true_iff in Ec; [|lia|exact Ne]. destruct Ec as (s & e & I & (x & X1 & X2) & _). apply (keys_in slot) in I. destruct I as [v I].
    destruct (ri_slot _ _ V _ _ k s e v E I) as (u' & n' & c' & id & r' & D' & [O1 O2] & -> & -> & -> & Nd & _).
    destruct (td_once _ _ T u n c u' n' c' x Mc (Dm _ _ _ D') Dn (eq_sym O1) (eq_sym O2) X1 X2) as (<- & E1 & E2).
    destruct (slot_at (slots k) (rc_start c, rc_end c)) as [v|] eqn:Es; [|exfalso; apply (slot_at_none _ _ Es (Reg id)); rewrite E1, E2; exact I].
    apply slot_at_in in Es. destruct (ri_slot _ _ V _ _ k _ _ v E Es) as (u2 & n2 & c2 & id2 & r2 & D2 & [P1 P2] & Q1 & Q2 & -> & Nd2 & _). rewrite Nd2. cbn [md_unit].
    assert (u2 = u) as ->.
    { destruct (td_once _ _ T u n c u2 n2 c2 (rc_start c) Mc (Dm _ _ _ D2) Dn (eq_sym P1) (eq_sym P2)) as [Hu _]; [split; lia|split; lia|exact (eq_sym Hu)]. }
    rewrite Nat.eqb_refl. cbn [assert_ bind]. exists st. split; [reflexivity|]. constructor; [exact (ri_cont _ _ V)| |].
    + intros m io k' s e v Ek I'. destruct (ri_slot _ _ V m io k' s e v Ek I') as (a1 & a2 & a3 & a4 & a5 & Y & Y'). exists a1, a2, a3, a4, a5. split; [left; exact Y|exact Y'].
    + intros u' n3 c3 [D|(-> & -> & ->)] k' Ek; [exact (ri_done _ _ V u' n3 c3 D k' Ek)|]. assert (k' = k) by congruence. subst k'. exists id2. exact Es.
  - assert (exists k', register k (Reg (length (rs_made st))) (rc_start c) (rc_end c) = Ok k') as [k' Ek'].
    { assert (Lt : rc_start c < rc_end c) by lia. destruct (proj2 (setitem_ok_iff slot (slots k) (rc_start c) (rc_end c) (Reg (length (rs_made st)))) (conj Lt Ec)) as [d Ed]. unfold register. rewrite Ed. eexists. reflexivity. }
    rewrite Ek'. cbn [bind]. eexists. split; [reflexivity|]. pose proof (register_perm _ _ _ _ _ Ek') as Pm. constructor; cbn [rs_cont rs_made].
    + intros m io. unfold set_cont. destruct (Nat.eqb (rc_mod c) m && Bool.eqb (rc_out c) io) eqn:Eq; [|exact (ri_cont _ _ V m io)].
      apply andb_true_iff in Eq. destruct Eq as [Q1 Q2]. apply Nat.eqb_eq in Q1. apply eqb_prop in Q2. subst m io. rewrite Em. cbn [option_map].
      exists (rs ++ [(length (rs_made st), (rc_start c, rc_end c))]). unfold register_all. rewrite fold_left_app. cbn [fold_left]. fold (register_all (width_of wh (rc_out c)) rs). fold k. unfold try_register. rewrite Ek'. reflexivity.
    + intros m io k2 s e v Ek I. unfold set_cont in Ek. destruct (Nat.eqb (rc_mod c) m && Bool.eqb (rc_out c) io) eqn:Eq.
      * apply andb_true_iff in Eq. destruct Eq as [Q1 Q2]. apply Nat.eqb_eq in Q1. apply eqb_prop in Q2. inversion Ek; subst k2. apply (Permutation_in _ Pm) in I. destruct I as [I|I].
        -- inversion I; subst s e v. exists u, n, c, (length (rs_made st)), r. split; [right; auto|]. split; [split; assumption|]. split; [reflexivity|]. split; [reflexivity|]. split; [reflexivity|]. split; [|exact Er].
           rewrite nth_error_app2, Nat.sub_diag by lia. reflexivity.
        -- subst m io. destruct (ri_slot _ _ V _ _ k s e v E I) as (a1 & a2 & a3 & a4 & a5 & Y1 & Y2 & Y3 & Y4 & Y5 & Y6 & Y7). exists a1, a2, a3, a4, a5. split; [left; exact Y1|]. split; [exact Y2|]. split; [exact Y3|]. split; [exact Y4|]. split; [exact Y5|]. split; [|exact Y7].
           rewrite nth_error_app1; [exact Y6|]. apply nth_error_Some. congruence.
      * destruct (ri_slot _ _ V m io k2 s e v Ek I) as (a1 & a2 & a3 & a4 & a5 & Y1 & Y2 & Y3 & Y4 & Y5 & Y6 & Y7). exists a1, a2, a3, a4, a5. split; [left; exact Y1|]. split; [exact Y2|]. split; [exact Y3|]. split; [exact Y4|]. split; [exact Y5|]. split; [|exact Y7].
        rewrite nth_error_app1; [exact Y6|]. apply nth_error_Some. congruence.
    + intros u' n' c' D k2 Ek. unfold set_cont in Ek. destruct (Nat.eqb (rc_mod c) (rc_mod c') && Bool.eqb (rc_out c) (rc_out c')) eqn:Eq.
      * apply andb_true_iff in Eq. destruct Eq as [Q1 Q2]. apply Nat.eqb_eq in Q1. apply eqb_prop in Q2. inversion Ek; subst k2. destruct D as [D|(-> & -> & ->)].
        -- destruct (ri_done _ _ V u' n' c' D k) as [id I]; [rewrite <- Q1, <- Q2; exact E|]. exists id. apply (Permutation_in _ (Permutation_sym Pm)). right. exact I.
        -- exists (length (rs_made st)). apply (Permutation_in _ (Permutation_sym Pm)). left. reflexivity.
      * destruct D as [D|(-> & -> & ->)]; [exact (ri_done _ _ V u' n' c' D k2 Ek)|]. rewrite Nat.eqb_refl, eqb_reflx in Eq. discriminate.
Qed.
Lemma rinv_imp (d d' : nat -> Z -> rchan -> Prop) st : (forall u n c, d u n c <-> d' u n c) -> rinv d st -> rinv d' st.
Proof.
  intros H V. constructor; [exact (ri_cont _ _ V)| |intros u n c D; apply (ri_done _ _ V u n c), H, D].
  intros m io k s e v Ek I. destruct (ri_slot _ _ V m io k s e v Ek I) as (a1 & a2 & a3 & a4 & a5 & Y & Y'). exists a1, a2, a3, a4, a5. split; [apply H, Y|exact Y'].
Qed.
Lemma rinv_channels u n cs : forall done st,
  rinv done st -> (forall u' n' c', done u' n' c' -> member us u' n' c') -> (forall c, In c cs -> member us u n c) ->
  exists st', register_channels u n st cs = Ok st' /\ rinv (fun u' n' c' => done u' n' c' \/ (u' = u /\ n' = n /\ In c' cs)) st'.
Proof.
  induction cs as [|c cs IH]; intros done st V Dm Mc; cbn [register_channels].
  - exists st. split; [reflexivity|]. revert V. apply rinv_imp. intros u' n' c'. split; [auto|intros [D|(_ & _ & [])]; exact D].
  - destruct (rinv_channel done st u n c V Dm (Mc c (or_introl eq_refl))) as (st1 & E1 & V1). rewrite E1. cbn [bind].
    destruct (IH _ st1 V1) as (st2 & E2 & V2); [intros u' n' c' [D|(-> & -> & ->)]; [exact (Dm _ _ _ D)|apply Mc; left; reflexivity]|intros c' I; apply Mc; right; exact I|].
    exists st2. split; [exact E2|]. revert V2. apply rinv_imp. intros u' n' c'. cbn [In]. intuition congruence.
Qed.
Lemma rinv_units l : forall pre st, us = pre ++ l ->
  rinv (fun u n c => member us u n c /\ (u < length pre)%nat) st ->
  exists st', register_units (length pre) st l = Ok st' /\ rinv (member us) st'.
Proof.
  induction l as [|x l IH]; intros pre st E V; cbn [register_units].
  - exists st. split; [reflexivity|]. revert V. apply rinv_imp. intros u n c. split; [tauto|]. intros M. split; [exact M|]. destruct M as (x & Hx & _). rewrite E, app_nil_r in Hx. apply nth_error_Some. congruence.
  - assert (Nx : nth_error us (length pre) = Some x) by (rewrite E, nth_error_app2, Nat.sub_diag by lia; reflexivity).
    destruct (rinv_channels (length pre) (ru_n x) (ru_chans x) _ st V) as (st1 & E1 & V1); [tauto|intros c I; exists x; auto|].
    rewrite E1. cbn [bind]. destruct (IH (pre ++ [x]) st1) as (st2 & E2 & V2).
    + rewrite E, <- app_assoc. reflexivity.
    + revert V1. apply rinv_imp. intros u n c. rewrite app_length. cbn [length]. split.
      * intros [[M L]|(-> & -> & I)]; [split; [exact M|lia]|]. split; [exists x; auto|lia].
      * intros [M L]. destruct (Nat.eq_dec u (length pre)) as [->|Ne]; [right|left; split; [exact M|lia]]. destruct M as (y & Hy & -> & I). assert (y = x) by congruence. subst y. auto.
    + rewrite app_length in E2. cbn [length] in E2. rewrite Nat.add_1_r in E2. exists st2. auto.
Qed.
Lemma rinv_all : exists st, prepare_units mods us = Ok st /\ rinv (member us) st.
Proof.
  apply (rinv_units us [] (register_containers mods) eq_refl). generalize rinv_start. apply rinv_imp. intros u n c. cbn [length]. split; [tauto|lia].
Qed.
End Reg.

(** Registering never fails on tidy units, and every container then holds exactly the ranges of its
    channels, each with the mutable of its unit. *)
Theorem C113_registered mods us : tidy mods us ->
  exists st, prepare_units mods us = Ok st /\
  forall m io wh, mods m = Some wh -> exists k, rs_cont st m io = Some k /\ num_channels k = width_of wh io /\
    (forall u n c, member us u n c -> on m io c -> exists id, In ((rc_start c, rc_end c), Reg id) (slots k)) /\
    (forall s e v, In ((s, e), v) (slots k) -> exists u n c id r, member us u n c /\ on m io c /\ s = rc_start c /\ e = rc_end c /\
       v = Reg id /\ nth_error (rs_made st) id = Some {| md_unit := u; md_ratio := r |} /\
       (r = RSame /\ e - s = n \/ (exists q, r = RInt q /\ e - s = n * q /\ 1 < q) \/ r = RFloat /\ ~ (n | e - s))).
Proof.
  intros T. destruct (rinv_all mods us T) as (st & E & V). exists st. split; [exact E|]. intros m io wh Em.
  destruct (ri_cont _ _ _ V m io) as [rs Ec]. rewrite Em in Ec. cbn [option_map] in Ec. eexists. split; [exact Ec|]. split; [apply register_all_num|]. split.
  - intros u n c M [<- <-]. exact (ri_done _ _ _ V u n c M _ Ec).
  - intros s e v I. destruct (ri_slot _ _ _ V m io _ s e v Ec I) as (u & n & c & id & r & M & O & -> & -> & -> & Nd & Pr).
    exists u, n, c, id, r. split; [exact M|]. split; [exact O|]. split; [reflexivity|]. split; [reflexivity|]. split; [reflexivity|]. split; [exact Nd|].
    destruct (pick_ok (rc_end c - rc_start c) n) as (r' & Er & X); [apply (td_size _ _ T u n c M); destruct O as [-> _]; congruence|]. rewrite Er in Pr. apply Ok_inj in Pr. subst r'. exact X.
Qed.
Print Assumptions C113_registered.

(** Sorted disjoint ranges covering [a, b) follow one another. *)
Lemma covering (d : idict slot) : forall a b,
  StronglySorted (kle slot) d -> NoDup (keys d) -> (forall s e v, In ((s, e), v) d -> a <= s /\ s < e /\ e <= b) ->
  (forall k1 k2 x, In k1 (keys d) -> In k2 (keys d) -> fst k1 <= x < snd k1 -> fst k2 <= x < snd k2 -> k1 = k2) ->
  (forall x, a <= x < b -> exists k, In k (keys d) /\ fst k <= x < snd k) -> a <= b -> contiguous_from (keys d) a = Ok b.
Proof.
  induction d as [|[[s e] v] d IH]; intros a b Srt Nd Bd Dj Cv Le; cbn [keys map fst contiguous_from].
  - destruct (Z.eq_dec a b) as [->|Ne]; [reflexivity|]. destruct (Cv a ltac:(lia)) as (k & [] & _).
  - inversion Srt as [|? ? Sd Fs]; subst. rewrite Forall_forall in Fs. inversion Nd as [|? ? Ni Nd']; subst. destruct (Bd s e v (or_introl eq_refl)) as (B1 & B2 & B3).
    assert (s = a) as ->.
    { destruct (Cv a ltac:(lia)) as ([s' e'] & I & X). cbn [fst snd] in X. destruct I as [I|I]; [inversion I; lia|]. apply (keys_in slot) in I. destruct I as [v' I]. specialize (Fs _ I). unfold kle, range_leb in Fs. cbn [fst snd] in Fs.
      destruct (Bd s' e' v' (or_intror I)) as (C1 & _). lia. }
    rewrite Z.eqb_refl. cbn [assert_ bind]. apply IH.
    + exact Sd.
    + exact Nd'.
    + intros s' e' v' I. destruct (Bd s' e' v' (or_intror I)) as (C1 & C2 & C3). split; [|lia].
      destruct (Z_lt_le_dec s' e) as [Hlt|]; [exfalso|lia]. assert ((a, e) = (s', e')) as Eq.
      { apply (Dj (a, e) (s', e') s'); [left; reflexivity|right; apply (keys_in slot); eauto|cbn [fst snd]; lia|cbn [fst snd]; lia]. }
      apply Ni. rewrite Eq. apply (keys_in slot). eauto.
    + intros k1 k2 x I1 I2. apply Dj; right; assumption.
    + intros x Hx. destruct (Cv x ltac:(lia)) as (k & [<-|I] & Y); [cbn [fst snd] in Y; lia|]. exists k. auto.
    + exact B3.
Qed.
Lemma contig_prefix ks b : contiguous_from ks 0 = Ok b -> tiles_prefix ks b.
Proof.
  assert (G : forall ks a, contiguous_from ks a = Ok b -> (forall s e, nth_error ks 0 = Some (s, e) -> s = a) /\
    (forall j s1 e1 s2 e2, nth_error ks j = Some (s1, e1) -> nth_error ks (S j) = Some (s2, e2) -> s2 = e1) /\
    (forall j s e, nth_error ks j = Some (s, e) -> S j = length ks -> e = b) /\ (ks = [] -> a = b)).
  { clear ks. induction ks as [|[s e] r IH]; intros a H; cbn [contiguous_from] in H.
    - apply Ok_inj in H. split; [intros s e X; discriminate|]. split; [intros j s1 e1 s2 e2 X; destruct j; discriminate|]. split; [intros j s e X; destruct j; discriminate|]. auto.
    - destruct (s =? a) eqn:E; cbn [assert_ bind] in H; [|discriminate]. apply Z.eqb_eq in E. subst s. destruct (IH e H) as (I1 & I2 & I3 & I4).
      split; [intros s e' X; inversion X; reflexivity|]. split.
      + intros [|j] s1 e1 s2 e2 X Y; [inversion X; subst; exact (I1 s2 e2 Y)|exact (I2 j s1 e1 s2 e2 X Y)].
      + split; [|discriminate]. intros [|j] s1 e1 X Y; [inversion X; subst; apply I4; destruct r; [reflexivity|discriminate]|]. apply (I3 j s1 e1 X). cbn in Y. lia. }
  intros H. destruct (G ks 0 H) as (I1 & I2 & I3 & I4). destruct ks as [|[s e] r]; [left; split; [reflexivity|symmetry; auto]|right].
  split; [exists e; cbn; rewrite (I1 s e eq_refl); reflexivity|]. auto.
Qed.
Lemma stretch_length r mask : length (stretch r mask) = (length mask * Z.to_nat r)%nat.
Proof. unfold stretch. induction mask as [|b mask IH]; [reflexivity|]. cbn [flat_map length]. rewrite app_length, repeat_length, IH. lia. Qed.
Lemma stretch_nth r mask x : 0 < r -> 0 <= x -> nth_error (stretch r mask) (Z.to_nat x) = nth_error mask (Z.to_nat (x / r)).
Proof.
  intros Hr. revert x. induction mask as [|b mask IH]; intros x Hx; [cbn; destruct (Z.to_nat x), (Z.to_nat (x / r)); reflexivity|].
  unfold stretch. cbn [flat_map]. fold (stretch r mask). destruct (Z_lt_le_dec x r) as [H|H].
  - rewrite nth_error_app1 by (rewrite repeat_length; lia). rewrite Z.div_small by lia. cbn [Z.to_nat nth_error].
    rewrite (nth_error_nth' _ b) by (rewrite repeat_length; lia). f_equal. apply repeat_spec with (n := Z.to_nat r). apply nth_In. rewrite repeat_length. lia.
  - rewrite nth_error_app2 by (rewrite repeat_length; lia). rewrite repeat_length.
    replace (Z.to_nat x - Z.to_nat r)%nat with (Z.to_nat (x - r)) by lia. rewrite IH by lia.
    replace x with ((x - r) + 1 * r) at 2 by lia. rewrite Z.div_add by lia. rewrite Z2Nat.inj_add by (try apply Z.div_pos; lia). rewrite Nat.add_1_r. reflexivity.
Qed.
Lemma regall_sorted n rs : StronglySorted (kle slot) (slots (register_all n rs)) /\ NoDup (keys (slots (register_all n rs))).
Proof.
  unfold register_all. assert (H : forall l c, nonempty_keys slot (slots c) -> StronglySorted (kle slot) (slots c) -> NoDup (keys (slots c)) ->
    StronglySorted (kle slot) (slots (fold_left try_register l c)) /\ NoDup (keys (slots (fold_left try_register l c)))).
  { induction l as [|[id [s e]] l IH]; intros c N Srt D; cbn [fold_left]; [auto|]. unfold try_register at 2 4. destruct (register c (Reg id) s e) as [c'|] eqn:E; [|auto].
    apply register_ok in E. destruct E as [_ E]. apply IH; [eapply setitem_nonempty; eauto|eapply setitem_sorted; eauto|eapply setitem_nodup; eauto]. }
  apply H; [intros s e []|constructor|constructor].
Qed.

(** Reading works when, on every side of a module, the channels of the units cover a first part of
    the positions without a gap.  Missing compared to [C113_claim]: sides with a gap in front of a
    registered range, where the container raises. *)
Theorem C113_read_partial mods us masks m io wh b :
  tidy mods us -> sized us masks -> mods m = Some wh -> 0 <= width_of wh io -> fitting us m io (width_of wh io) ->
  (forall x, 0 <= x -> ((exists u n c, member us u n c /\ on m io c /\ within c x) <-> x < b)) -> 0 <= b <= width_of wh io ->
  exists st mask, prepare_units mods us = Ok st /\ read_mask st masks m io = Ok mask /\
    shows us masks m io (width_of wh io) mask.
Proof.
  intros T Sz Em Wp Ft Cv Bb. destruct (rinv_all mods us T) as (st & E & V). exists st.
  destruct (ri_cont _ _ _ V m io) as [rs Ec]. rewrite Em in Ec. cbn [option_map] in Ec. set (k := register_all (width_of wh io) rs) in *.
  assert (Sl : forall s e v, In ((s, e), v) (slots k) -> exists u n c id r, member us u n c /\ on m io c /\ s = rc_start c /\ e = rc_end c /\ v = Reg id /\
     nth_error (rs_made st) id = Some {| md_unit := u; md_ratio := r |} /\ 0 < n /\ (r = RSame /\ e - s = n \/ exists q, r = RInt q /\ e - s = n * q /\ 1 < q)).
  { intros s e v I. destruct (ri_slot _ _ _ V m io k s e v Ec I) as (u & n & c & id & r & M & O & -> & -> & -> & Nd & Pr).
    pose proof (td_size _ _ T u n c M ltac:(destruct O as [-> _]; congruence)) as Hn.
    exists u, n, c, id, r. split; [exact M|]. split; [exact O|]. split; [reflexivity|]. split; [reflexivity|]. split; [reflexivity|]. split; [exact Nd|]. split; [lia|].
    destruct (pick_ok (rc_end c - rc_start c) n Hn) as (r' & Er & X). rewrite Er in Pr. apply Ok_inj in Pr. subst r'.
    destruct X as [X|[X|[_ X]]]; [left; exact X|right; exact X|]. exfalso. apply X. exact (proj1 (Ft u n c M O)). }
  assert (Ln : forall u x, nth_error us u = Some x -> Z.of_nat (length (masks u)) = ru_n x) by exact Sz.
  assert (Env : forall u n c id r, member us u n c -> nth_error (rs_made st) id = Some {| md_unit := u; md_ratio := r |} -> 0 < n ->
     (r = RSame /\ rc_end c - rc_start c = n \/ exists q, r = RInt q /\ rc_end c - rc_start c = n * q /\ 1 < q) ->
     Z.of_nat (length (env_of st masks id)) = rc_end c - rc_start c /\
     forall x, 0 <= x -> nth_error (env_of st masks id) (Z.to_nat x) = nth_error (masks u) (Z.to_nat (x / ((rc_end c - rc_start c) / n)))).
  { intros u n c id r (x & Hx & -> & _) Nd Hn X. unfold env_of. rewrite Nd. unfold made_mask. cbn [md_ratio md_unit]. destruct X as [[-> X]|(q & -> & X & Q)].
    - split; [rewrite (Ln u x Hx); lia|]. intros y Hy. rewrite X, Z.div_same, Z.div_1_r by lia. reflexivity.
    - split; [rewrite stretch_length, Nat2Z.inj_mul, (Ln u x Hx); lia|]. intros y Hy. rewrite X, (Z.mul_comm (ru_n x)), Z.div_mul by lia. apply stretch_nth; lia. }
  assert (Ct : contiguous_from (keys (slots k)) 0 = Ok b).
  { destruct (regall_sorted (width_of wh io) rs) as [S1 S2]. apply covering; [exact S1|exact S2| | | |lia].
    - intros s e v I. destruct (Sl s e v I) as (u & n & c & id & r & M & O & -> & -> & _ & _ & Hn & X). destruct (Ft u n c M O) as (_ & F1 & _).
      assert (Hse : rc_start c < rc_end c) by (destruct X as [[_ X]|(q & _ & X & Q)]; nia). split; [exact F1|]. split; [exact Hse|].
      assert (rc_end c - 1 < b); [|lia]. apply Cv; [lia|]. exists u, n, c. split; [exact M|]. split; [exact O|]. split; lia.
    - intros [s1 e1] [s2 e2] x I1 I2 X1 X2. cbn [fst snd] in *. apply (keys_in slot) in I1. apply (keys_in slot) in I2. destruct I1 as [v1 I1], I2 as [v2 I2].
      destruct (Sl _ _ _ I1) as (u & n & c & id & r & M & [O1 O2] & -> & -> & _). destruct (Sl _ _ _ I2) as (u' & n' & c' & id' & r' & M' & [O1' O2'] & -> & -> & _).
      destruct (td_once _ _ T u n c u' n' c' x M M') as (_ & -> & ->); [congruence|congruence|congruence|exact X1|exact X2|reflexivity].
    - intros x Hx. destruct (proj2 (Cv x (proj1 Hx)) (proj2 Hx)) as (u & n & c & M & [O1 O2] & W). subst m io. destruct (ri_done _ _ _ V u n c M k Ec) as [id I]. exists (rc_start c, rc_end c). split; [apply (keys_in slot); eauto|exact W]. }
  destruct (C02_mask_layout_partial (width_of wh io) rs (env_of st masks) b) as (c' & mask & Rd & Ly).
  - exact Wp.
  - intros s e id I. destruct (Sl s e (Reg id) I) as (u & n & c & id' & r & M & O & -> & -> & Ei & Nd & Hn & X). inversion Ei; subst id'. exact (proj1 (Env u n c id r M Nd Hn X)).
  - apply contig_prefix. exact Ct.
  - lia.
  - exists mask. split; [exact E|]. split.
    + unfold read_mask. rewrite Ec. assert (Fl : existsb (fun kv => slot_float st (snd kv)) (slots k) = false).
      { destruct (existsb _ _) eqn:Ex; [|reflexivity]. apply existsb_exists in Ex. destruct Ex as ([[s e] v] & I & F). destruct (Sl s e v I) as (u & n & c & id & r & M & O & _ & _ & -> & Nd & Hn & X). cbn [snd slot_float] in F. rewrite Nd in F. unfold is_float in F. cbn [md_ratio] in F. destruct X as [[-> _]|(q & -> & _)]; discriminate. }
      rewrite Fl. fold k in Rd. rewrite Rd. reflexivity.
    + destruct Ly as (L1 & L2 & L3). split; [exact L1|]. split.
      * intros u n c x M O W. destruct O as [<- <-]. destruct (ri_done _ _ _ V u n c M k Ec) as [id I].
        destruct (Sl _ _ _ I) as (u' & n' & c2 & id' & r & M' & [O1 O2] & E1 & E2 & Ei & Nd & Hn & X). inversion Ei; subst id'.
        destruct (L2 _ _ id x I W) as [Hx Eq]. split; [exact Hx|]. rewrite Eq.
        destruct (td_once _ _ T u n c u' n' c2 x M M') as (<- & _); [congruence|congruence|congruence|exact W|split; [rewrite <- E1|rewrite <- E2]; apply W|].
        destruct M as (xx & Hxx & -> & Ic). destruct M' as (yy & Hyy & -> & Ic'). assert (yy = xx) by congruence. subst yy.
        destruct (Env u (ru_n xx) c id r) as [_ En]; [exists xx; auto|exact Nd|exact Hn|exact X|]. apply En. unfold within in W. lia.
      * intros x Hx N. apply L3; [exact Hx|]. intros s e id I W. destruct (Sl s e (Reg id) I) as (u & n & c & _ & _ & M & O & -> & -> & _). exact (N u n c M O W).
Qed.
Print Assumptions C113_read_partial.

(** A layer behind a concatenation of the network's input (3 channels, in no unit) and of the 4
    channels of a unit: its input mask cannot be read. *)
Definition gap_mods (m : nat) : option (Z * Z) := match m with 2%nat => Some (3, 4) | 3%nat => Some (7, 8) | _ => None end.
Definition gap_units : list runit :=
  [{| ru_n := 4; ru_chans := [{| rc_mod := 3; rc_out := false; rc_start := 3; rc_end := 7 |}; {| rc_mod := 2; rc_out := true; rc_start := 0; rc_end := 4 |}] |}].
Lemma gap_member u n c : member gap_units u n c -> u = 0%nat /\ n = 4 /\
  (c = {| rc_mod := 3; rc_out := false; rc_start := 3; rc_end := 7 |} \/ c = {| rc_mod := 2; rc_out := true; rc_start := 0; rc_end := 4 |}).
Proof. intros (x & Hx & -> & I). destruct u as [|[|u]]; cbn in Hx; try discriminate. inversion Hx; subst. split; [reflexivity|]. split; [reflexivity|]. destruct I as [<-|[<-|[]]]; auto. Qed.
Lemma gap_tidy : tidy gap_mods gap_units.
Proof.
  constructor.
  - intros u n c M _. apply gap_member in M. destruct M as (_ & -> & [->| ->]); cbn; lia.
  - intros u n c u' n' c' x M M' _ E1 E2 _ _. apply gap_member in M. apply gap_member in M'. destruct M as (-> & -> & [->| ->]), M' as (-> & -> & [->| ->]); cbn in E1; try discriminate; auto.
Qed.
Theorem C113_read_refuted : ~ C113_claim.
Proof.
  intros H. destruct (H gap_mods gap_units (fun _ => repeat true 4) 3%nat false (7, 8) gap_tidy) as (st & mask & E & R & _).
  - intros u x Hx. destruct u as [|[|u]]; cbn in Hx; try discriminate. inversion Hx; subst. reflexivity.
  - reflexivity.
  - cbn. lia.
  - intros u n c M [O1 O2]. apply gap_member in M. destruct M as (_ & -> & [->| ->]); cbn in *; [|discriminate]. split; [exists 1; reflexivity|lia].
  - vm_compute in E. apply Ok_inj in E. subst st. vm_compute in R. discriminate R.
Qed.
Print Assumptions C113_read_refuted.

(** The output side of module 2 of the same network, and a grouped module fed by a smaller unit. *)
Definition ex_masks (u : nat) : list bool := [true; true; false; true].
Example C113_case :
  tidy gap_mods gap_units /\ (exists st, prepare_units gap_mods gap_units = Ok st /\ read_mask st ex_masks 2 true = Ok [true; true; false; true]) /\
  (exists st, prepare_units (fun m => if Nat.eqb m 2 then Some (8, 3) else None)
     [{| ru_n := 4; ru_chans := [{| rc_mod := 2; rc_out := false; rc_start := 0; rc_end := 8 |}] |}] = Ok st /\
     read_mask st ex_masks 2 false = Ok [true; true; true; true; false; false; true; true]).
Proof. split; [exact gap_tidy|]. split; eexists; (split; [reflexivity|vm_compute; reflexivity]). Qed.
Example C113_partial_case :
  (forall x, 0 <= x -> ((exists u n c, member gap_units u n c /\ on 2 true c /\ within c x) <-> x < 4)) /\ fitting gap_units 2 true 4.
Proof.
  split.
  - intros x Hx. split.
    + intros (u & n & c & M & [O1 O2] & W). apply gap_member in M. destruct M as (_ & _ & [->| ->]); cbn in *; [discriminate|unfold within in W; cbn in W; lia].
    + intros Hl. exists 0%nat, 4, {| rc_mod := 2; rc_out := true; rc_start := 0; rc_end := 4 |}. split; [eexists; split; [reflexivity|]; split; [reflexivity|right; left; reflexivity]|]. split; [split; reflexivity|split; cbn; lia].
  - intros u n c M [O1 O2]. apply gap_member in M. destruct M as (_ & -> & [->| ->]); cbn in *; [discriminate|]. split; [exists 1; reflexivity|lia].
Qed.
