(** C100, continued: the channels of a unit that are pruned together. *)
From Verif Require Import Prelude UnionFind_Model UnionFind_Props ChannelGraph_Model ChannelGraph_Props ChannelGraph2_Props ChannelGraph3_Props ChannelGraph4_Props.
From Coq Require Import Sorting.Sorted Relations.
Local Open Scope nat_scope.

(** ** Specification *)

Definition no_collision (hash : list nat -> Z) : Prop :=
  forall B B', StronglySorted lt B -> StronglySorted lt B' -> hash B = hash B' -> B = B'.
(** Two nodes are given one name only when they are calls of one module. *)
Definition names_ok (g : list cnode) (names : list nat) : Prop :=
  length names = length g /\
  forall i j, i < length g -> j < length g -> nth_error names i = nth_error names j ->
    i = j \/ exists m, mod_of g i = Some m /\ mod_of g j = Some m.
Definition few_channels (g : list cnode) (W : nat -> nat * nat) (s : fstate) : Prop :=
  (Z.of_nat (uf_n (f_uf s)) <= 2 ^ 32)%Z /\
  forall i, i < length g -> (Z.of_nat (fst (W i)) <= 2 ^ 32)%Z /\ (Z.of_nat (snd (W i)) <= 2 ^ 32)%Z.
(** Channel [k] of one side of node [i] is listed in the unit by the entry [c]. *)
Definition listed (s : fstate) (names : list nat) (i : nat) (io : bool) (k : nat) (u : unit_cfg) (c : cfg) : Prop :=
  In c (entries io u) /\ nth_error names i = Some (fst c) /\ (fst (snd c) <= Z.of_nat k < snd (snd c))%Z.
(** A mask of [n] numbers is stretched over an entry by repeating every number. *)
Definition mask_position (n : Z) (c : cfg) (k : nat) : Z := ((Z.of_nat k - fst (snd c)) * n / range_len c)%Z.

(** The full claim: two channels listed by a unit get the same position of its mask exactly when
    they are tied. *)
Definition unit_matches (hash : list nat -> Z) (names : list nat) (s : fstate) (h n : Z) (u : unit_cfg) : Prop :=
  forall i io k e c j io' k' e' c',
    nth_error (tens (trip_of s i) (rec_side io)) k = Some e -> nth_error (tens (trip_of s j) (rec_side io')) k' = Some e' ->
    is_key hash s e h -> is_key hash s e' h -> listed s names i io k u c -> listed s names j io' k' u c' ->
    (mask_position n c k = mask_position n c' k' <-> grouped (f_uf s) e e').
Definition C100_claim : Prop :=
  forall hash g W numin names s st units,
    no_collision hash -> well_formed g -> counts g W -> names_ok g names ->
    forward g numin = Ok s -> few_channels g W s ->
    generate_units_config hash names s (g_start s) = Ok (st, units) ->
    forall h n u, In (h, (n, u)) units -> unit_matches hash names s h n u.

(** ** Proof *)
Section Keys.
Variable hash : list nat -> Z.
Variable A : nat -> Prop.
Variable s : fstate.
Hypothesis HA : AI A s.
Let HI : Inv (f_uf s) := proj1 HA.
Let HB : BI s := proj1 (proj2 HA).
Let HQ := proj2 (proj2 HA).
Notation n := (uf_n (f_uf s)).
Notation "x ~ y" := (eqv (f_uf s) x y) (at level 70).
Lemma er x : x ~ x. Proof. exact (proj1 (eqv_equiv _ HI) x). Qed.
Lemma es x y : x ~ y -> y ~ x. Proof. exact (proj1 (proj2 (eqv_equiv _ HI)) x y). Qed.
Lemma et x y z : x ~ y -> y ~ z -> x ~ z. Proof. exact (proj2 (proj2 (eqv_equiv _ HI)) x y z). Qed.
Lemma own_iff e b : e < n -> (owned s e b <-> exists x, e ~ x /\ base_of (f_base s) x = b).
Proof. apply (owned_eqv s HI). Qed.
Lemma memo_base b j : memo s b j -> b + j < n /\ base_of (f_base s) (b + j) = b. Proof. auto. Qed.
Lemma key_same b k k' h : memo s b k -> memo s b k' -> is_key hash s (b + k) h -> is_key hash s (b + k') h.
Proof.
  intros M M' (B & S1 & O & ->). exists B. split; [exact S1|]. split; [|reflexivity]. intros c. rewrite O.
  assert (G : forall k k', memo s b k -> memo s b k' -> owned s (b + k) c -> owned s (b + k') c).
  { clear -HA HI HB HQ. intros k k' M M' H. apply own_iff in H as (z & Hz & Ec); [|apply M]. apply own_iff; [apply M'|].
    destruct (HQ _ _ Hz) as [_ [[I1 I2]|(C1 & _)]].
    - rewrite (proj2 M) in I2. destruct (I2 k') as [J1 J2]. exists (base_of (f_base s) z + k'). split; [apply J2, M'|]. rewrite <- Ec. apply J1 in M'. apply M'.
    - rewrite (proj2 M) in C1. exists z. split; [eapply et; [apply C1; [exact M'|exact M]|exact Hz]|exact Ec]. }
  split; apply G; assumption.
Qed.
Lemma least_mono b k k' m m' : memo s b k -> memo s b k' -> k <= k' -> least_pos s (b + k) m -> least_pos s (b + k') m' -> (m <= m')%Z.
Proof.
  intros M M' Hk (L & _) (L' & z & Hz & Ez). apply (grouped_eqv _ _ _ HI (proj1 M')) in Hz.
  destruct (HQ _ _ Hz) as [_ [[I1 I2]|(C1 & _)]].
  - rewrite (proj2 M') in I1. unfold index_of in Ez. rewrite <- I1 in Ez.
    specialize (L (b + k)). unfold index_of in L. rewrite (proj2 M) in L.
    assert (grouped (f_uf s) (b + k) (b + k)) by (apply (grouped_eqv _ _ _ HI (proj1 M)), er). specialize (L H). lia.
  - rewrite (proj2 M') in C1. rewrite Ez. apply L. apply (grouped_eqv _ _ _ HI (proj1 M)). eapply et; [apply C1; [exact M|exact M']|exact Hz].
Qed.
Lemma whole_nth t k e b : t = seq b (length t) -> nth_error t k = Some e -> e = b + k /\ k < length t.
Proof. intros E H. rewrite E in H. apply nth_error_seq in H. exact H. Qed.
(** A tensor that was made in one piece is cut into one piece. *)
Lemma one_piece t rs : wh s t -> cuts hash s t rs -> exists h, rs = [((0%Z, Z.of_nat (length t)), h)] /\ forall e, In e t -> is_key hash s e h.
Proof.
  intros [Ht (b & E & M)] (T & KY & CU).
  assert (Hst : forall a c h, In ((a, c), h) rs -> a = 0%Z).
  { intros a c h Hin. pose proof (tiles_len _ _ _ _ _ _ T Hin) as TL. destruct (Z.eq_dec a 0) as [|Ha]; [assumption|exfalso].
    assert (Hk : exists k, a = Z.of_nat (S k) /\ S k < length t) by (exists (Z.to_nat (a - 1)); lia). destruct Hk as (k & -> & Hk).
    assert (E1 : nth_error t k = Some (b + k)) by (rewrite E, (nth_error_nth' _ 0); rewrite ?seq_length, ?seq_nth by lia; try reflexivity; lia).
    assert (E2 : nth_error t (S k) = Some (b + S k)) by (rewrite E, (nth_error_nth' _ 0); rewrite ?seq_length, ?seq_nth by lia; try reflexivity; lia).
    assert (M1 : memo s b k) by (apply M; lia). assert (M2 : memo s b (S k)) by (apply M; lia).
    destruct (proj1 (CU k _ _ E1 E2)) as [(x & y & K1 & K2 & N)|(x & y & L1 & L2 & N)]; [eauto| |].
    - apply N. pose proof (key_same b k (S k) x M1 M2 K1) as K3. destruct K2 as (B2 & S2 & O2 & ->), K3 as (B3 & S3 & O3 & ->).
      f_equal. apply sorted_same; auto. intros z. rewrite O2, O3. tauto.
    - pose proof (least_mono b k (S k) x y M1 M2 ltac:(lia) L1 L2). lia. }
  destruct rs as [|[[a c] h] rs]; [cbn in T; destruct t; [congruence|cbn in T; lia]|]. cbn [tiles] in T. destruct T as (-> & T1 & T2).
  destruct rs as [|[[a' c'] h'] rs].
  - cbn in T2. subst c. exists h. split; [reflexivity|]. intros e He. apply In_nth_error in He as [k Hk].
    apply (KY 0%Z (Z.of_nat (length t)) h k e); [left; reflexivity|exact Hk|]. assert (k < length t) by (apply nth_error_Some; congruence). lia.
  - exfalso. cbn [tiles] in T2. destruct T2 as (-> & T2 & _). assert (c = 0%Z) by (apply (Hst c c' h'); right; left; reflexivity). lia.
Qed.
End Keys.

Theorem C100_mask_partial :
  forall hash g W numin names s st units,
    no_collision hash -> well_formed g -> counts g W -> names_ok g names ->
    forward g numin = Ok s -> few_channels g W s ->
    generate_units_config hash names s (g_start s) = Ok (st, units) ->
    (forall nd, In nd g -> aligned_kind (c_kind nd)) ->
    forall h n u, In (h, (n, u)) units ->
      unit_matches hash names s h n u /\
      forall io c, In c (entries io u) -> fst (snd c) = 0%Z /\ (n = range_len c \/ n = 1%Z).
Proof.
  intros hash g W numin names s st units NC wf HW [HL HNM] HF [small wide] EG HK h n u Hu.
  destruct (C100_units hash g W numin names s wf HW HL HF small wide) as (st' & units' & RR & EG' & ND & CU & UN & EX).
  rewrite EG in EG'. apply Ok_inj in EG'. injection EG' as <- <-.
  destruct (forward_ai g numin wf HK s HF) as [[HA HT] LN].
  destruct (forward_good g W numin wf HW) as (s0 & E0 & [_ HG] & _). rewrite HF in E0. apply Ok_inj in E0. subst s0.
  pose proof HA as (HI & HB & HQ).
  destruct (eqv_equiv _ HI) as (ER & ES & ET).
  set (T := fun i io => tens (trip_of s i) (rec_side io)).
  assert (HWH : forall i io, i < length g -> wh s (T i io)) by (intros i io Hi; destruct (HT i) as (A1 & A2 & _); [lia|]; destruct io; assumption).
  assert (HONE : forall i io, i < length g -> exists h, RR i io = [((0%Z, Z.of_nat (length (T i io))), h)] /\ forall e, In e (T i io) -> is_key hash s e h).
  { intros i io Hi. apply (one_piece hash (ends g s) s HA); [apply HWH; exact Hi|apply CU; exact Hi]. }
  destruct (UN h n u Hu) as (UE & _ & _ & ULE & io0 & c0 & Hc0 & En).
  assert (HENT : forall io c, In c (entries io u) -> exists i, i < length g /\ nth_error names i = Some (fst c) /\
     snd c = (0%Z, Z.of_nat (length (T i io))) /\ forall e, In e (T i io) -> is_key hash s e h).
  { intros io c Hc. apply UE in Hc as (i & Hi & Hn & Hr). destruct (HONE i io Hi) as (h' & E & K). rewrite E in Hr. destruct Hr as [Hr|[]].
    injection Hr as <- <-. exists i. auto. }
  (* every entry with this key has its base among the owners of e *)
  assert (HKEYS : forall e e' x, e < uf_n (f_uf s) -> e' < uf_n (f_uf s) -> is_key hash s e h -> is_key hash s e' h -> owned s e x -> owned s e' x).
  { intros e e' x _ _ (B & S1 & O1 & EB) (B' & S2 & O2 & EB') Ho. rewrite EB in EB'. apply NC in EB'; [|assumption|assumption]. subst B'. apply O2, O1, Ho. }
  assert (HTN : forall i io k e, i < length g -> nth_error (T i io) k = Some e -> exists b, T i io = seq b (length (T i io)) /\ (forall j, memo s b j <-> j < length (T i io)) /\ e = b + k /\ memo s b k /\ k < length (T i io)).
  { intros i io k e Hi Hk. destruct (HWH i io Hi) as [_ (b & E & M)]. exists b. destruct (whole_nth _ _ _ _ E Hk) as [-> Hlt]. split; [exact E|]. split; [exact M|]. split; [reflexivity|]. split; [apply M; exact Hlt|exact Hlt]. }
  assert (Hpos : (1 <= n)%Z).
  { destruct (HENT io0 c0 Hc0) as (i & Hi & _ & Es & _). rewrite En. unfold range_len. rewrite Es. cbn [fst snd]. destruct (HWH i io0 Hi) as [Hne _]. destruct (T i io0); [congruence|cbn; lia]. }
  (* connected to an end node: one channel *)
  assert (HCONN : forall e, e < uf_n (f_uf s) -> is_key hash s e h -> conn s (ends g s) e -> n = 1%Z).
  { intros e He Ke (a & (q & nd & Hq & Enq & Kq & Ta) & Ea). assert (Hqg : q < length g) by lia.
    destruct (HONE q false Hqg) as (h' & Er & Kr).
    assert (Hlen : length (T q false) = 1) by (unfold T; cbn [rec_side tens]; rewrite Ta; reflexivity).
    assert (Hina : In a (T q false)) by (unfold T; cbn [rec_side tens]; rewrite Ta; left; reflexivity).
    pose proof (key_unique hash s HI e a h h' He Ea Ke (Kr a Hina)) as <-.
    destruct (nth_error names q) as [nm|] eqn:Enm; [|apply nth_error_None in Enm; lia].
    assert (Hin : In (nm, (0%Z, 1%Z)) (entries false u)) by (apply UE; exists q; split; [exact Hqg|]; split; [exact Enm|]; rewrite Er, Hlen; left; reflexivity).
    apply ULE in Hin. cbn in Hin. lia. }
  (* either one channel, or the length of every tensor of the unit *)
  assert (HNUM : forall i io k e, i < length g -> nth_error (T i io) k = Some e -> is_key hash s e h ->
     n = Z.of_nat (length (T i io)) \/ (n = 1%Z /\ forall b, T i io = seq b (length (T i io)) -> col s b)).
  { intros i io k e Hi Hk Ke. destruct (HTN i io k e Hi Hk) as (b & E & M & -> & Mk & Hlt).
    destruct (HENT io0 c0 Hc0) as (i0 & Hi0 & _ & Es & K0). assert (En0 : n = Z.of_nat (length (T i0 io0))) by (rewrite En; unfold range_len; rewrite Es; cbn; lia).
    destruct (HWH i0 io0 Hi0) as [Hne0 _]. assert (H0 : exists e0, nth_error (T i0 io0) 0 = Some e0) by (destruct (T i0 io0); [congruence|cbn; eauto]).
    destruct H0 as [e0 He0]. destruct (HTN i0 io0 0 e0 Hi0 He0) as (b0 & E0' & M0 & -> & Mk0 & Hlt0).
    pose proof (K0 _ (nth_error_In _ _ He0)) as Ke0.
    assert (Ho : owned s (b0 + 0) b).
    { apply (HKEYS (b + k)); [apply Mk|apply Mk0|exact Ke|exact Ke0|]. apply (own_iff (ends g s) s HA); [apply Mk|]. exists (b + k). split; [apply ER|apply Mk]. }
    apply (own_iff (ends g s) s HA) in Ho as (y & Hy & Eby); [|apply Mk0].
    destruct (HQ _ _ Hy) as [_ [[I1 I2]|(C1 & C2 & CN)]].
    - left. rewrite (proj2 Mk0), Eby in I2. rewrite En0. f_equal.
      destruct (lt_eq_lt_dec (length (T i0 io0)) (length (T i io))) as [[Hlt'|Heq]|Hlt']; [|exact Heq|]; exfalso.
      + destruct (I2 (length (T i0 io0))) as [J _]. apply M in Hlt'. apply J in Hlt'. apply M0 in Hlt'. lia.
      + destruct (I2 (length (T i io))) as [J _]. apply M0 in Hlt'. apply J in Hlt'. apply M in Hlt'. lia.
    - right. split; [apply (HCONN (b0 + 0)); [apply Mk0|exact Ke0|exact CN]|]. intros b1 Eb1.
      rewrite E in Eb1 at 1. destruct (length (T i io)) as [|L]; [lia|]. cbn in Eb1. injection Eb1 as <-. rewrite Eby in C2. exact C2. }
  split.
  - intros i io k e c j io' k' e' c' Hk Hk' Ke Ke' (Lc & Nc & Rc) (Lc' & Nc' & Rc').
    assert (HLEN : forall i io k c e, nth_error (T i io) k = Some e -> In c (entries io u) -> nth_error names i = Some (fst c) -> i < length g /\ snd c = (0%Z, Z.of_nat (length (T i io)))).
    { clear - HENT HNM HL HW wf HG LN. intros i io k c e Hk Hc Hn.
      assert (Hi : i < length g) by (rewrite <- HL; apply nth_error_Some; congruence). split; [exact Hi|].
      destruct (HENT io c Hc) as (i2 & Hi2 & Hn2 & Es & _). rewrite Es. f_equal. f_equal.
      destruct (HNM i i2 Hi Hi2) as [->|(m & Mi & Mi2)]; [congruence|reflexivity|].
      destruct (same_module g W wf HW i i2 m Mi Mi2) as (a & b & Ea & Eb & EW & KK & MM).
      destruct (HG i a) as [_ T1]; [lia|exact Ea|]. destruct (HG i2 b) as [_ T2]; [lia|exact Eb|]. rewrite <- KK, <- EW in T2.
      unfold T, tlen in *. destruct io; cbn [rec_side tens]; destruct (c_kind a); try contradiction; destruct T1 as (? & ? & _), T2 as (? & ? & _); congruence. }
    destruct (HLEN i io k c e Hk Lc Nc) as [Hi Ec]. destruct (HLEN j io' k' c' e' Hk' Lc' Nc') as [Hj Ec'].
    destruct (HTN i io k e Hi Hk) as (b & E & M & -> & Mk & Hlt). destruct (HTN j io' k' e' Hj Hk') as (b' & E' & M' & -> & Mk' & Hlt').
    set (L := length (T i io)) in *. set (L' := length (T j io')) in *.
    rewrite (grouped_eqv _ _ _ HI (proj1 Mk)).
    assert (HMP : mask_position n c k = (Z.of_nat k * n / Z.of_nat L)%Z) by (unfold mask_position, range_len; rewrite Ec; cbn [fst snd]; rewrite !Z.sub_0_r; reflexivity).
    assert (HMP' : mask_position n c' k' = (Z.of_nat k' * n / Z.of_nat L')%Z) by (unfold mask_position, range_len; rewrite Ec'; cbn [fst snd]; rewrite !Z.sub_0_r; reflexivity).
    rewrite HMP, HMP'.
    assert (ZERO : n = 1%Z -> (Z.of_nat k * n / Z.of_nat L = Z.of_nat k' * n / Z.of_nat L')%Z).
    { intros ->. rewrite !Z.mul_1_r, !Z.div_small by lia. reflexivity. }
    assert (Ho : owned s (b' + k') b).
    { apply (HKEYS (b + k)); [apply Mk|apply Mk'|exact Ke|exact Ke'|]. apply (own_iff (ends g s) s HA); [apply Mk|]. exists (b + k). split; [apply ER|apply Mk]. }
    apply (own_iff (ends g s) s HA) in Ho as (y & Hy & Eby); [|apply Mk'].
    destruct (HNUM i io k (b + k) Hi Hk Ke) as [HnL|[Hn1 HCOL]].
    + fold L in HnL. destruct (HNUM j io' k' (b' + k') Hj Hk' Ke') as [HnL'|[Hn1 _]].
      * fold L' in HnL'. rewrite HnL in *. assert (L' = L) by lia. clear HnL'. rewrite H in *. rewrite !Z.div_mul by lia.
        destruct (Nat.eq_dec L 1) as [HL1|HL1].
        { assert (k = 0) by lia. assert (k' = 0) by lia. subst k k'. split; [intros _|reflexivity].
          destruct (HQ _ _ Hy) as [_ [[I1 I2]|(C1 & C2 & CN)]].
          - rewrite (proj2 Mk'), Eby in I1, I2. destruct (I2 0) as [_ J]. apply ES. apply J. exact Mk'.
          - assert (Ey : y < uf_n (f_uf s)) by (apply (eqv_lt hash s HI (b' + 0)); [apply Mk'|exact Hy]).
            destruct HB as [_ LE]. specialize (LE y Ey). rewrite Eby in LE.
            assert (My : memo s b (y - b)) by (unfold memo; replace (b + (y - b)) with y by lia; auto).
            apply M in My. assert (y = b + 0) by lia. subst y. apply ES. exact Hy. }
        assert (NCN : forall z, z < uf_n (f_uf s) -> is_key hash s z h -> ~ conn s (ends g s) z) by (intros z Hz Kz Cz; specialize (HCONN z Hz Kz Cz); lia).
        destruct (HQ _ _ Hy) as [_ [[I1 I2]|(_ & _ & CN)]]; [|destruct (NCN _ (proj1 Mk') Ke' CN)].
        rewrite (proj2 Mk'), Eby in I1, I2.
        assert (Ey : y < uf_n (f_uf s)) by (apply (eqv_lt hash s HI (b' + k')); [apply Mk'|exact Hy]).
        assert (y = b + k') by (destruct HB as [_ LE]; specialize (LE y Ey); rewrite Eby in LE; lia). subst y.
        split.
        -- intros Ekk. assert (k = k') by lia. subst k'. apply ES. exact Hy.
        -- intros Eee. assert (Eky : eqv (f_uf s) (b + k) (b + k')) by (eapply ET; [exact Eee|exact Hy]).
           destruct (HQ _ _ Eky) as [_ [[I3 _]|(_ & _ & CN)]]; [|destruct (NCN _ (proj1 Mk) Ke CN)].
           rewrite (proj2 Mk), Eby in I3. lia.
      * split; [intros _|intros _; apply ZERO; exact Hn1]. assert (L = 1) by lia.
        assert (Ey : y < uf_n (f_uf s)) by (apply (eqv_lt hash s HI (b' + k')); [apply Mk'|exact Hy]).
        destruct HB as [_ LE]. specialize (LE y Ey). rewrite Eby in LE.
        assert (My : memo s b (y - b)) by (unfold memo; replace (b + (y - b)) with y by lia; auto).
        apply M in My. assert (y = b + k) by lia. subst y. apply ES. exact Hy.
    + specialize (HCOL b E). split; [intros _|intros _; apply ZERO; exact Hn1].
      assert (Ey : y < uf_n (f_uf s)) by (apply (eqv_lt hash s HI (b' + k')); [apply Mk'|exact Hy]).
      destruct HB as [_ LE]. specialize (LE y Ey). rewrite Eby in LE.
      assert (My : memo s b (y - b)) by (unfold memo; replace (b + (y - b)) with y by lia; auto).
      pose proof (HCOL k (y - b) Mk My) as H. replace (b + (y - b)) with y in H by lia. eapply ET; [exact H|apply ES; exact Hy].
  - intros io c Hc. destruct (HENT io c Hc) as (i & Hi & _ & Es & K). unfold range_len. rewrite Es. cbn [fst snd]. split; [reflexivity|].
    destruct (HWH i io Hi) as [Hne _]. assert (H0 : exists e0, nth_error (T i io) 0 = Some e0) by (destruct (T i io); [congruence|cbn; eauto]).
    destruct H0 as [e0 He0]. destruct (HNUM i io 0 e0 Hi He0 (K _ (nth_error_In _ _ He0))) as [H|[H _]]; [left; lia|right; exact H].
Qed.
Print Assumptions C100_mask_partial.

(** A hash without collisions. *)
Definition ihash (l : list nat) : Z := Zpos (fold_right (fun b p => Nat.iter b xO (xI p)) xH l).
Lemma ihash_ok : no_collision ihash.
Proof.
  assert (HX : forall b b' p p', Nat.iter b xO (xI p) = Nat.iter b' xO (xI p') -> b = b' /\ p = p').
  { induction b as [|b IH]; intros [|b'] p p' H; cbn in H; try discriminate; injection H as H; auto. apply IH in H as [-> ->]. auto. }
  intros B B' _ _ H. unfold ihash in H. injection H as H. revert B' H. induction B as [|b B IH]; intros [|b' B'] H; cbn in H; [reflexivity| | |].
  - destruct b'; discriminate.
  - destruct b; discriminate.
  - apply HX in H as [-> H]. f_equal. apply IH. exact H.
Qed.
Lemma key_by_run g W numin s e h : well_formed g -> counts g W -> forward g numin = Ok s -> e < uf_n (f_uf s) ->
  (do sh <- elem_set_hash ihash (f_base s) (g_start s) e; Ok (snd sh)) = Ok h -> is_key ihash s e h.
Proof.
  intros wf HW HF He E. destruct (forward_good g W numin wf HW) as (s0 & E0 & [HI _] & HB & _). rewrite HF in E0. apply Ok_inj in E0. subst s0.
  destruct (hash_step ihash s HI HB (g_start s) e (g_start_ok ihash s HI) He) as (st' & h' & E1 & _ & K). rewrite E1 in E. cbn in E. apply Ok_inj in E. subst h'. exact K.
Qed.

(** The second convolution has 2 groups of one channel, so the two channels of the first are tied
    together; the unit still gets two independent channels. *)
Definition ex_groups : list cnode :=
  [nd_ (KInput 2) [] None 0; nd_ (KConv 2 2 1) [0] (Some 1) 1; nd_ (KConv 2 4 2) [1] (Some 2) 2; nd_ KEnd [2] None 3].
Definition ex_groups_W (i : nat) : nat * nat := nth i [(2, 2); (2, 2); (2, 4); (4, 4)] (0, 0).
Lemma ex_groups_wf : well_formed ex_groups.
Proof.
  split.
  - intros i nd p H. each H; cbn; lia.
  - intros i nd p q H. each H; cbn; intros H; repeat (destruct H as [<-|H]; [intros [= <-]; discriminate|]); destruct H.
  - intros nd H. repeat (destruct H as [<-|H]; [cbn; eauto; try discriminate|]). destruct H.
  - intros nd H. repeat (destruct H as [<-|H]; [cbn; repeat split; try lia|]); [..|destruct H].
    + exists 2. reflexivity.
    + exists 2. reflexivity.
    + exists 1. reflexivity.
    + exists 2. reflexivity.
  - intros i j a b m H1 H2. each H1; each H2; cbn; intros E1 E2; try discriminate; try congruence; split; try reflexivity; exact I.
Qed.
Lemma ex_groups_counts : counts ex_groups ex_groups_W.
Proof. intros i nd H. each H; cbn; try (split; [reflexivity|]); try reflexivity; try (intros p [<-|[]]; reflexivity). exists 2, []. auto. Qed.
Theorem C100_mask_refuted : ~ C100_claim.
Proof.
  intros H. destruct (forward_good ex_groups ex_groups_W 3 ex_groups_wf ex_groups_counts) as (s & E & _).
  assert (HS : (do f <- forward ex_groups 3; Ok (uf_n (f_uf f), f_nodes f)) = Ok (19,
     [{| t_in := [3; 4]; t_out := [3; 4]; t_ret := [3; 4] |}; {| t_in := [3; 4]; t_out := [5; 6]; t_ret := [5; 6] |};
      {| t_in := [5; 6]; t_out := [8; 9; 10; 11]; t_ret := [8; 9; 10; 11] |}; {| t_in := [14]; t_out := [14]; t_ret := [14] |}]))
    by (vm_compute; reflexivity).
  assert (HU : exists h u, (do f <- forward ex_groups 3; do r <- generate_units_config ihash [0; 1; 2; 3] f (g_start f); Ok (nth_error (snd r) 1)) = Ok (Some (h, (2%Z, u))) /\
     (do f <- forward ex_groups 3; do sh <- elem_set_hash ihash (f_base f) (g_start f) 5; Ok (snd sh)) = Ok h /\
     (do f <- forward ex_groups 3; do sh <- elem_set_hash ihash (f_base f) (g_start f) 6; Ok (snd sh)) = Ok h /\ u_out u = [(1, (0%Z, 2%Z))]).
  { eexists _, _. vm_compute. split; [reflexivity|]. split; [reflexivity|]. split; reflexivity. }
  assert (HG : (do f <- forward ex_groups 3; Ok (groupedb (f_uf f) 5 6)) = Ok true) by (vm_compute; reflexivity).
  destruct HU as (h & u & HU & K5 & K6 & HO). rewrite E in HS, HU, K5, K6, HG. cbn [bind] in HS, HU, K5, K6, HG.
  apply Ok_inj in HS. injection HS as HN HT. apply Ok_inj in HG.
  destruct (generate_units_config ihash [0; 1; 2; 3] s (g_start s)) as [[st units]|] eqn:EG; cbn [bind snd] in HU; [|discriminate].
  apply Ok_inj in HU. apply nth_error_In in HU.
  assert (T1 : tens (trip_of s 1) (rec_side true) = [5; 6]) by (unfold trip_of; rewrite HT; reflexivity).
  specialize (H ihash ex_groups ex_groups_W 3 [0; 1; 2; 3] s st units ihash_ok ex_groups_wf ex_groups_counts).
  assert (B1 : names_ok ex_groups [0; 1; 2; 3]).
  { split; [reflexivity|]. intros i j Hi Hj Hn. left. cbn in Hi, Hj. do 4 (destruct i as [|i]; [do 4 (destruct j as [|j]; [cbn in Hn; congruence|]); lia|]). lia. }
  assert (B2 : few_channels ex_groups ex_groups_W s).
  { split; [rewrite HN; cbn; lia|]. intros i Hi. cbn in Hi. do 4 (destruct i as [|i]; [cbn; lia|]). lia. }
  specialize (H B1 E B2 EG h 2%Z u HU).
  assert (L : forall k, k < 2 -> listed s [0; 1; 2; 3] 1 true k u (1, (0%Z, 2%Z))).
  { intros k Hk. split; [cbn [entries]; rewrite HO; left; reflexivity|]. split; [reflexivity|]. cbn [fst snd]. lia. }
  specialize (H 1 true 0 5 (1, (0%Z, 2%Z)) 1 true 1 6 (1, (0%Z, 2%Z))). rewrite T1 in H. specialize (H eq_refl eq_refl).
  assert (Hk5 : is_key ihash s 5 h) by (apply (key_by_run ex_groups ex_groups_W 3 s 5 h ex_groups_wf ex_groups_counts E); [rewrite HN; lia|exact K5]).
  assert (Hk6 : is_key ihash s 6 h) by (apply (key_by_run ex_groups ex_groups_W 3 s 6 h ex_groups_wf ex_groups_counts E); [rewrite HN; lia|exact K6]).
  specialize (H Hk5 Hk6 (L 0 ltac:(lia)) (L 1 ltac:(lia))). apply proj2 in H.
  specialize (H (proj1 (groupedb_ok _ _ _) HG)). vm_compute in H. discriminate H.
Qed.
Print Assumptions C100_mask_refuted.

(** Two convolutions of one module applied to one input, added, batch norm, a flatten and a linear
    layer with the end node: an aligned graph with its units. *)
Definition ex_aligned : list cnode :=
  [nd_ (KInput 3) [] None 0; nd_ (KConv 3 4 1) [0] (Some 1) 1; nd_ (KConv 3 4 1) [0] (Some 1) 1;
   nd_ KBind [1; 2] None 3; nd_ (KBn 4) [3] (Some 4) 4; nd_ KPass [4] None 5; nd_ (KConv 4 4 4) [5] (Some 6) 6;
   nd_ (KLinear 4 2) [6] (Some 7) 7; nd_ KEnd [7] None 8].
Definition ex_aligned_W (i : nat) : nat * nat :=
  nth i [(3, 3); (3, 4); (3, 4); (4, 4); (4, 4); (4, 4); (4, 4); (4, 2); (2, 2)] (0, 0).
Definition e_ (nm : nat) (a b : Z) : cfg := (nm, (a, b)).
Example C100_case : well_formed ex_aligned /\ counts ex_aligned ex_aligned_W /\ (forall nd, In nd ex_aligned -> aligned_kind (c_kind nd)) /\
  names_ok ex_aligned (map c_name ex_aligned) /\
  exists s st units, forward ex_aligned 3 = Ok s /\ few_channels ex_aligned ex_aligned_W s /\
    generate_units_config ihash (map c_name ex_aligned) s (g_start s) = Ok (st, units) /\
    map (fun hu => (fst (snd hu), u_in (snd (snd hu)), u_out (snd (snd hu)))) units =
      [(3%Z, [e_ 0 0 3; e_ 1 0 3], [e_ 0 0 3]);
       (4%Z, [e_ 3 0 4; e_ 4 0 4; e_ 6 0 4; e_ 7 0 4], [e_ 1 0 4; e_ 3 0 4; e_ 4 0 4; e_ 6 0 4]);
       (1%Z, [], [e_ 5 0 1]); (1%Z, [e_ 5 0 1], []); (1%Z, [e_ 8 0 1], [e_ 7 0 2; e_ 8 0 1])].
Proof.
  assert (wf : well_formed ex_aligned).
  { split.
    - intros i nd p H. each H; cbn; lia.
    - intros i nd p q H. each H; cbn; intros H; repeat (destruct H as [<-|H]; [intros [= <-]; discriminate|]); destruct H.
    - intros nd H. repeat (destruct H as [<-|H]; [cbn; eauto; try discriminate|]). destruct H.
    - intros nd H. repeat (destruct H as [<-|H]; [cbn; repeat split; try lia|]); [..|destruct H].
      + exists 3. reflexivity.
      + exists 4. reflexivity.
      + exists 3. reflexivity.
      + exists 4. reflexivity.
      + exists 1. reflexivity.
      + exists 1. reflexivity.
    - intros i j a b m H1 H2. each H1; each H2; cbn; intros E1 E2; try discriminate; try congruence; split; try reflexivity; exact I. }
  assert (HC : counts ex_aligned ex_aligned_W).
  { intros i nd H. each H; cbn; try (split; [reflexivity|]); try reflexivity; try (intros p H; repeat destruct H as [<-|H]; try reflexivity; destruct H). exists 7, []. auto. }
  split; [exact wf|]. split; [exact HC|]. split.
  { intros nd H. repeat (destruct H as [<-|H]; [cbn; try exact I; try (left; reflexivity); right; repeat split; lia|]). destruct H. }
  split.
  { split; [reflexivity|]. intros i j Hi Hj Hn. cbn in Hi, Hj.
    do 9 (destruct i as [|i]; [do 9 (destruct j as [|j]; [cbn in Hn; first [left; reflexivity | discriminate | right; exists 1; split; reflexivity]|]); lia|]). lia. }
  destruct (forward_good ex_aligned ex_aligned_W 3 wf HC) as (s & E & _). exists s.
  assert (HU : exists r, (do f <- forward ex_aligned 3; do r <- generate_units_config ihash (map c_name ex_aligned) f (g_start f); Ok (uf_n (f_uf f), snd r)) = Ok (21, r) /\
     map (fun hu : Z * (Z * unit_cfg) => (fst (snd hu), u_in (snd (snd hu)), u_out (snd (snd hu)))) r =
      [(3%Z, [e_ 0 0 3; e_ 1 0 3], [e_ 0 0 3]);
       (4%Z, [e_ 3 0 4; e_ 4 0 4; e_ 6 0 4; e_ 7 0 4], [e_ 1 0 4; e_ 3 0 4; e_ 4 0 4; e_ 6 0 4]);
       (1%Z, [], [e_ 5 0 1]); (1%Z, [e_ 5 0 1], []); (1%Z, [e_ 8 0 1], [e_ 7 0 2; e_ 8 0 1])]).
  { eexists. vm_compute. split; reflexivity. }
  destruct HU as (r & HU & HM). rewrite E in HU. cbn [bind] in HU.
  destruct (generate_units_config ihash _ s (g_start s)) as [[st units]|] eqn:EG; cbn [bind snd] in HU; [|discriminate].
  apply Ok_inj in HU. injection HU as HN <-. exists st, units. split; [exact E|]. split; [|split; [reflexivity|exact HM]].
  split; [rewrite HN; cbn; lia|]. intros i Hi. cbn in Hi. do 9 (destruct i as [|i]; [cbn; lia|]). lia.
Qed.
