(** C113, continued: the units found by the channel graph can be registered, and tied channels are
    kept or removed together. *)
From Verif Require Import Prelude UnionFind_Model UnionFind_Props ChannelGraph_Model ChannelGraph_Props ChannelGraph2_Props ChannelGraph3_Props ChannelGraph4_Props ChannelGraph5_Props.
From Verif Require Import Container_Model Register_Model Register_Props.
From Coq Require Import Sorting.Sorted Relations.
Local Open Scope nat_scope.

(** ** Specification *)
(** The units of [generate_units_config] as the mutator registers them. *)
Definition to_chan (io : bool) (c : cfg) : rchan :=
  {| rc_mod := fst c; rc_out := io; rc_start := fst (snd c); rc_end := snd (snd c) |}.
Definition to_unit (hu : Z * (Z * unit_cfg)) : runit :=
  {| ru_n := fst (snd hu); ru_chans := map (to_chan false) (u_in (snd (snd hu))) ++ map (to_chan true) (u_out (snd (snd hu))) |}.
Definition node_width (W : nat -> nat * nat) (i : nat) : Z * Z := (Z.of_nat (fst (W i)), Z.of_nat (snd (W i))).
(** The dynamic modules are convolutions, linear layers and batch norms with these widths, and two
    nodes are given the name of one of them only when they are calls of it. *)
Definition dynamic_ok (g : list cnode) (W : nat -> nat * nat) (names : list nat) (mods : nat -> option (Z * Z)) : Prop :=
  (forall i nd nm wh, nth_error g i = Some nd -> nth_error names i = Some nm -> mods nm = Some wh ->
     wh = node_width W i /\ match c_kind nd with KConv _ _ _ | KLinear _ _ | KBn _ => True | _ => False end) /\
  (forall i j nm, nth_error names i = Some nm -> nth_error names j = Some nm -> mods nm <> None ->
     i = j \/ exists m, mod_of g i = Some m /\ mod_of g j = Some m).

(** ** Proof *)
Lemma tiles_starts : forall rs rs' from to, tiles rs from to -> tiles rs' from to ->
  (forall x, (from < x < to)%Z -> (exists b h, In ((x, b), h) rs) <-> (exists b h, In ((x, b), h) rs')) ->
  map fst rs = map fst rs'.
Proof.
  induction rs as [|[[s e] h] rs IH]; intros rs' from to T T' H.
  - cbn in T. subst to. destruct rs' as [|[[s' e'] h'] rs']; [reflexivity|]. cbn in T'. destruct T' as (-> & L & T'). exfalso.
    clear -L T'. assert (forall rs a b, tiles rs a b -> (a <= b)%Z) as G.
    { clear. induction rs as [|[[s e] h] rs IH]; intros a b T; cbn in T; [lia|]. destruct T as (-> & L & T). apply IH in T. lia. }
    apply G in T'. lia.
  - cbn in T. destruct T as (-> & L & T). destruct rs' as [|[[s' e'] h'] rs']; [cbn in T'; subst to|cbn in T'; destruct T' as (-> & L' & T')].
    + exfalso. assert (G : forall rs a b, tiles rs a b -> (a <= b)%Z).
      { clear. induction rs as [|[[s e] h] rs IH]; intros a b T; cbn in T; [lia|]. destruct T as (-> & L & T). apply IH in T. lia. }
      apply G in T. lia.
    + assert (GE : forall rs a b s e h, tiles rs a b -> In ((s, e), h) rs -> (a <= s < b)%Z) by (intros; pose proof (tiles_len _ _ _ _ _ _ H0 H1); lia).
      assert (HEAD : forall rs a b, tiles rs a b -> (a <= b)%Z /\ ((a < b)%Z -> exists e h, In ((a, e), h) rs)).
      { clear. induction rs as [|[[s e] h] rs IH]; intros a b T; cbn in T; [subst; split; lia|]. destruct T as (-> & L & T). destruct (IH e b T) as [M _]. split; [lia|]. intros _. exists e, h. left. reflexivity. }
      assert (e = e') as <-.
      { destruct (HEAD _ _ _ T) as [M N], (HEAD _ _ _ T') as [M' N']. destruct (Z.lt_trichotomy e e') as [Hlt|[Heq|Hlt]]; [exfalso|exact Heq|exfalso].
        - destruct N as (b & hh & I); [lia|]. destruct (proj1 (H e ltac:(lia))) as (b' & h2 & I'); [exists b, hh; right; exact I|]. destruct I' as [I'|I']; [inversion I'; lia|]. apply (GE _ _ _ _ _ _ T') in I'. lia.
        - destruct N' as (b & hh & I); [lia|]. destruct (proj2 (H e' ltac:(lia))) as (b' & h2 & I'); [exists b, hh; right; exact I|]. destruct I' as [I'|I']; [inversion I'; lia|]. apply (GE _ _ _ _ _ _ T) in I'. lia. }
      cbn [map fst]. f_equal. apply (IH rs' e to T T'). intros x Hx. specialize (H x ltac:(lia)).
      split; intros (b & hh & I).
      * destruct (proj1 H) as (b' & h2 & [I'|I']); [exists b, hh; right; exact I|inversion I'; lia|eauto].
      * destruct (proj2 H) as (b' & h2 & [I'|I']); [exists b, hh; right; exact I|inversion I'; lia|eauto].
Qed.

Section Link.
Variable hash : list nat -> Z.
Variable s : fstate.
Hypothesis HI : Inv (f_uf s).
Lemma least_eqv e e' m : e < uf_n (f_uf s) -> e' < uf_n (f_uf s) -> eqv (f_uf s) e e' -> least_pos s e m -> least_pos s e' m.
Proof.
  intros L L' E (H1 & x & Gx & Ex). destruct (eqv_equiv _ HI) as (ER & ES & ET). split.
  - intros y Gy. apply H1. apply (grouped_eqv _ e y HI L). apply (grouped_eqv _ e' y HI L') in Gy. eapply ET; eauto.
  - exists x. split; [|exact Ex]. apply (grouped_eqv _ e' x HI L'). apply (grouped_eqv _ e x HI L) in Gx. eapply ET; [apply ES; exact E|exact Gx].
Qed.
(** Tensors tied channel by channel are cut in the same way. *)
Lemma cuts_same t t' rs rs' : length t = length t' -> valid s t -> valid s t' ->
  (forall k e e', nth_error t k = Some e -> nth_error t' k = Some e' -> eqv (f_uf s) e e') ->
  cuts hash s t rs -> cuts hash s t' rs' -> rs = rs'.
Proof.
  intros Ln V V' Eq (T & K & C) (T' & K' & C'). rewrite <- Ln in T'.
  assert (Lt : forall k e, nth_error t k = Some e -> e < uf_n (f_uf s)) by (intros k e H; apply V; eapply nth_error_In; eauto).
  assert (Lt' : forall k e, nth_error t' k = Some e -> e < uf_n (f_uf s)) by (intros k e H; apply V'; eapply nth_error_In; eauto).
  destruct (eqv_equiv _ HI) as (ER & ES & ET).
  assert (M : map fst rs = map fst rs').
  { apply (tiles_starts rs rs' 0 (Z.of_nat (length t)) T T'). intros x Hx.
    assert (exists k, x = Z.of_nat (S k) /\ S k < length t) as (k & -> & Hk) by (exists (Z.to_nat (x - 1)); lia).
    destruct (nth_error t k) as [e1|] eqn:E1; [|apply nth_error_None in E1; lia]. destruct (nth_error t (S k)) as [e2|] eqn:E2; [|apply nth_error_None in E2; lia].
    destruct (nth_error t' k) as [f1|] eqn:F1; [|apply nth_error_None in F1; lia]. destruct (nth_error t' (S k)) as [f2|] eqn:F2; [|apply nth_error_None in F2; lia].
    rewrite (C k e1 e2 E1 E2), (C' k f1 f2 F1 F2). pose proof (Eq k e1 f1 E1 F1) as Q1. pose proof (Eq (S k) e2 f2 E2 F2) as Q2. split.
    - intros [(h & h' & A & B & N)|(m & m' & A & B & N)]; [left; exists h, h'|right; exists m, m'].
      + split; [apply (key_eqv hash s HI e1 f1 h (Lt _ _ E1) Q1 A)|]. split; [apply (key_eqv hash s HI e2 f2 h' (Lt _ _ E2) Q2 B)|exact N].
      + split; [apply (least_eqv e1 f1); eauto|]. split; [apply (least_eqv e2 f2); eauto|exact N].
    - intros [(h & h' & A & B & N)|(m & m' & A & B & N)]; [left; exists h, h'|right; exists m, m'].
      + split; [apply (key_eqv hash s HI f1 e1 h (Lt' _ _ F1) (ES _ _ Q1) A)|]. split; [apply (key_eqv hash s HI f2 e2 h' (Lt' _ _ F2) (ES _ _ Q2) B)|exact N].
      + split; [apply (least_eqv f1 e1); eauto|]. split; [apply (least_eqv f2 e2); eauto|exact N]. }
  assert (KK : forall a b h h', In ((a, b), h) rs -> In ((a, b), h') rs' -> h = h').
  { intros a b h h' I I'. pose proof (tiles_len _ _ _ _ _ _ T I) as TL. assert (exists k, a = Z.of_nat k /\ k < length t) as (k & -> & Hk) by (exists (Z.to_nat a); lia).
    destruct (nth_error t k) as [e|] eqn:E; [|apply nth_error_None in E; lia]. destruct (nth_error t' k) as [f|] eqn:F; [|apply nth_error_None in F; lia].
    apply (key_unique hash s HI e f h h' (Lt _ _ E) (Eq k e f E F)); [apply (K _ _ _ k e I E); lia|apply (K' _ _ _ k f I' F); lia]. }
  clear -M KK. revert rs' M KK. induction rs as [|[r h] rs IH]; intros [|[r' h'] rs'] M KK; cbn in M; try discriminate; [reflexivity|]. inversion M; subst. destruct r' as [a b].
  rewrite (KK a b h h') by (left; reflexivity). f_equal. apply IH; [assumption|]. intros a' b' k k' I I'. apply (KK a' b'); right; assumption.
Qed.
Lemma tiles_at : forall rs from to x, tiles rs from to -> (from <= x < to)%Z -> exists a b h, In ((a, b), h) rs /\ (a <= x < b)%Z.
Proof.
  induction rs as [|[[a b] h] rs IH]; intros from to x T Hx; cbn in T; [lia|]. destruct T as (-> & L & T). destruct (Z_lt_le_dec x b); [exists from, b, h; split; [left; reflexivity|lia]|].
  destruct (IH b to x T ltac:(lia)) as (a' & b' & h' & I & X). exists a', b', h'. split; [right; exact I|exact X].
Qed.
Lemma tiles_one : forall rs from to a b h a' b' h' x, tiles rs from to -> In ((a, b), h) rs -> In ((a', b'), h') rs -> (a <= x < b)%Z -> (a' <= x < b')%Z ->
  a = a' /\ b = b' /\ h = h'.
Proof.
  induction rs as [|[[p q] r] rs IH]; intros from to a b h a' b' h' x T I I' X X'; [destruct I|]. cbn in T. destruct T as (-> & L & T).
  destruct I as [I|I], I' as [I'|I'].
  - inversion I; inversion I'; subst; auto.
  - inversion I; subst. pose proof (tiles_len _ _ _ _ _ _ T I'). lia.
  - inversion I'; subst. pose proof (tiles_len _ _ _ _ _ _ T I). lia.
  - exact (IH q to a b h a' b' h' x T I I' X X').
Qed.
End Link.

Lemma wf_single g : well_formed g -> single_inputs g.
Proof.
  intros wf nd I. pose proof (wf_arity g wf nd I) as A. unfold arity_ok in A. destruct (c_kind nd); try exact Logic.I; destruct A as [p ->]; cbn; lia.
Qed.
Lemma unit_entry units u n c : member (map to_unit units) u n c -> exists h x, nth_error units u = Some (h, (n, x)) /\
  In (rc_mod c, (rc_start c, rc_end c)) (entries (rc_out c) x).
Proof.
  intros (y & Hy & -> & I). rewrite nth_error_map in Hy. destruct (nth_error units u) as [[h [n x]]|]; [|discriminate]. cbn in Hy. inversion Hy; subst y. exists h, x. split; [reflexivity|].
  cbn [to_unit ru_chans fst snd] in I. apply in_app_or in I. destruct I as [I|I]; apply in_map_iff in I; destruct I as ([nm [a b]] & <- & I); exact I.
Qed.
Lemma entry_unit units u h n x io c : nth_error units u = Some (h, (n, x)) -> In c (entries io x) -> member (map to_unit units) u n (to_chan io c).
Proof.
  intros E I. exists (to_unit (h, (n, x))). split; [rewrite nth_error_map, E; reflexivity|]. split; [reflexivity|]. cbn [to_unit ru_chans fst snd]. apply in_or_app. destruct io; [right|left]; apply in_map; exact I.
Qed.

(** All units of a graph can be registered, and on every dynamic module they cover both sides. *)
Theorem C113_graph :
  forall hash g W numin names s st units mods,
    well_formed g -> counts g W -> length names = length g -> dynamic_ok g W names mods ->
    forward g numin = Ok s -> few_channels g W s ->
    generate_units_config hash names s (g_start s) = Ok (st, units) ->
    tidy mods (map to_unit units) /\
    (forall u n c wh, member (map to_unit units) u n c -> mods (rc_mod c) = Some wh -> (0 <= rc_start c /\ rc_end c <= width_of wh (rc_out c))%Z) /\
    (forall i nm io wh, nth_error names i = Some nm -> mods nm = Some wh ->
       forall x, (0 <= x)%Z -> ((exists u n c, member (map to_unit units) u n c /\ on nm io c /\ within c x) <-> (x < width_of wh io)%Z)).
Proof.
  intros hash g W numin names s st units mods wf HW HL [HD HN] HF [small wide] EG.
  destruct (C100_units hash g W numin names s wf HW HL HF small wide) as (st' & units' & RR & EG' & ND & CU & UN & EX).
  rewrite EG in EG'. apply Ok_inj in EG'. injection EG' as <- <-.
  destruct (forward_good g W numin wf HW) as (s0 & E0 & [HI HG] & _ & LN). rewrite HF in E0. apply Ok_inj in E0. subst s0.
  set (T := fun i io => tens (trip_of s i) (rec_side io)).
  assert (WD : forall i nd nm wh io, nth_error g i = Some nd -> nth_error names i = Some nm -> mods nm = Some wh -> valid s (T i io) /\ Z.of_nat (length (T i io)) = width_of wh io).
  { intros i nd nm wh io Ei En Em. destruct (HD i nd nm wh Ei En Em) as [-> Kd]. destruct (HG i nd) as [(V1 & V2 & _) TL]; [rewrite LN; apply nth_error_Some; congruence|exact Ei|].
    unfold tlen in TL. unfold T. destruct io; cbn [rec_side tens node_width width_of fst snd]; (split; [assumption|]); f_equal; destruct (c_kind nd); try contradiction; destruct TL as (? & ? & ?); assumption. }
  assert (MB : forall u n c, member (map to_unit units) u n c -> exists h i, nth_error (map fst units) u = Some h /\ i < length g /\ nth_error names i = Some (rc_mod c) /\
     In ((rc_start c, rc_end c), h) (RR i (rc_out c)) /\ (n <= rc_end c - rc_start c)%Z /\ (0 < n)%Z).
  { intros u n c M. destruct (unit_entry units u n c M) as (h & x & Ex & I). pose proof (nth_error_In _ _ Ex) as Ix. destruct (UN h n x Ix) as (UE & _ & _ & ULE & io0 & c0 & I0 & En).
    destruct (proj1 (UE _ _) I) as (i & Hi & Hn & Hr). exists h, i. split; [rewrite nth_error_map, Ex; reflexivity|]. split; [exact Hi|]. split; [exact Hn|]. split; [exact Hr|]. split; [exact (ULE _ _ I)|].
    destruct (proj1 (UE _ _) I0) as (i0 & Hi0 & _ & Hr0). destruct c0 as [nm0 [a0 b0]]. cbn [fst snd] in Hr0. pose proof (tiles_len _ _ _ _ _ _ (proj1 (CU i0 io0 Hi0)) Hr0). rewrite En. unfold range_len. cbn [fst snd]. lia. }
  (* same name, same cuts *)
  assert (SC : forall i j nm io, i < length g -> j < length g -> nth_error names i = Some nm -> nth_error names j = Some nm -> mods nm <> None -> RR i io = RR j io).
  { intros i j nm io Hi Hj Ni Nj Dm. destruct (HN i j nm Ni Nj Dm) as [->|(m & Mi & Mj)]; [reflexivity|].
    destruct (nth_error g i) as [a|] eqn:Ea; [|apply nth_error_None in Ea; lia]. destruct (nth_error g j) as [b|] eqn:Eb; [|apply nth_error_None in Eb; lia].
    destruct (mods nm) as [wh|] eqn:Em; [|congruence]. destruct (WD i a nm wh io Ea Ni Em) as [V1 L1]. destruct (WD j b nm wh io Eb Nj Em) as [V2 L2].
    apply (cuts_same hash s HI (T i io) (T j io)); [lia|exact V1|exact V2| |apply CU; exact Hi|apply CU; exact Hj].
    intros k e e' Hk Hk'. apply (grouped_eqv _ e e' HI); [apply V1; eapply nth_error_In; eauto|].
    apply (C98_groups g numin s (wf_single g wf) HF (i, rec_side io, k) (j, rec_side io, k)); [exact Hk|exact Hk'|].
    apply rst_step. apply (dep_shared g (width s) i j m); [exact Mi|exact Mj|destruct io; discriminate|]. unfold width. apply nth_error_Some. unfold T in Hk. congruence. }
  assert (UQ : forall u u' h, nth_error (map fst units) u = Some h -> nth_error (map fst units) u' = Some h -> u = u').
  { intros u u' h H1 H2. apply (NoDup_nth_error (map fst units)); [exact ND|apply nth_error_Some; congruence|congruence]. }
  split; [|split].
  - constructor.
    + intros u n c M _. destruct (MB u n c M) as (h & i & _ & _ & _ & _ & A & B). split; [exact B|exact A].
    + intros u n c u' n' c' x M M' Dm E1 E2 X X'. destruct (MB u n c M) as (h & i & H1 & Hi & Ni & Ri & _). destruct (MB u' n' c' M') as (h' & j & H2 & Hj & Nj & Rj & _).
      rewrite <- E1 in Nj. rewrite <- E2 in Rj. rewrite (SC i j (rc_mod c) (rc_out c) Hi Hj Ni Nj Dm) in Ri.
      destruct (tiles_one _ _ _ _ _ _ _ _ _ x (proj1 (CU j (rc_out c) Hj)) Ri Rj X X') as (-> & -> & <-). split; [exact (UQ u u' h H1 H2)|auto].
  - intros u n c wh M Em. destruct (MB u n c M) as (h & i & _ & Hi & Ni & Ri & _). destruct (nth_error g i) as [nd|] eqn:Ei; [|apply nth_error_None in Ei; lia].
    destruct (WD i nd _ wh (rc_out c) Ei Ni Em) as [_ L]. pose proof (tiles_len _ _ _ _ _ _ (proj1 (CU i (rc_out c) Hi)) Ri). unfold T in L. lia.
  - intros i nm io wh Ni Em x Hx. assert (Hi : i < length g) by (rewrite <- HL; apply nth_error_Some; congruence). destruct (nth_error g i) as [nd|] eqn:Ei; [|apply nth_error_None in Ei; lia].
    destruct (WD i nd nm wh io Ei Ni Em) as [_ L]. split.
    + intros (u & n & c & M & [O1 O2] & X). destruct (MB u n c M) as (h & j & _ & Hj & Nj & Rj & _). rewrite O1 in Nj. rewrite O2 in Rj. rewrite <- (SC i j nm io Hi Hj Ni Nj ltac:(congruence)) in Rj.
      pose proof (tiles_len _ _ _ _ _ _ (proj1 (CU i io Hi)) Rj) as TL. unfold within in X. unfold T in L. lia.
    + intros Hlt. rewrite <- L in Hlt. destruct (tiles_at _ _ _ x (proj1 (CU i io Hi)) (conj Hx Hlt)) as (a & b & h & I & X).
      destruct (EX i io (a, b) h Hi I) as (n & y & Iy). apply In_nth_error in Iy. destruct Iy as [u Hu].
      exists u, n, (to_chan io (nm, (a, b))). split; [|split; [split; reflexivity|exact X]]. apply (entry_unit units u h n y io (nm, (a, b)) Hu).
      apply (proj1 (UN h n y (nth_error_In _ _ Hu))). exists i. auto.
Qed.
Print Assumptions C113_graph.

(** Networks without concatenation, expansion or grouped layers: every dynamic module's mask can be
    read, and channels tied by the graph have the same entry in the masks of their modules.
    Missing: the other networks (see C100_mask_refuted and C113_read_refuted). *)
Theorem C113_tied_partial :
  forall hash g W numin names s st units mods masks,
    no_collision hash -> well_formed g -> counts g W -> names_ok g names -> dynamic_ok g W names mods ->
    forward g numin = Ok s -> few_channels g W s ->
    generate_units_config hash names s (g_start s) = Ok (st, units) ->
    (forall nd, In nd g -> aligned_kind (c_kind nd)) ->
    sized (map to_unit units) masks ->
    exists rst (mask : nat -> bool -> list bool),
      prepare_units mods (map to_unit units) = Ok rst /\
      (forall i nm io wh, nth_error names i = Some nm -> mods nm = Some wh ->
         read_mask rst masks nm io = Ok (mask nm io) /\ Z.of_nat (length (mask nm io)) = width_of wh io) /\
      (forall i nm wh io k e j nm' wh' io' k' e',
         nth_error names i = Some nm -> mods nm = Some wh -> nth_error (tens (trip_of s i) (rec_side io)) k = Some e ->
         nth_error names j = Some nm' -> mods nm' = Some wh' -> nth_error (tens (trip_of s j) (rec_side io')) k' = Some e' ->
         grouped (f_uf s) e e' -> nth_error (mask nm io) k = nth_error (mask nm' io') k').
Proof.
  intros hash g W numin names s st units mods masks NC wf HW HNM HD HF few EG HK Sz. pose proof HNM as [HL HNM'].
  destruct (C113_graph hash g W numin names s st units mods wf HW HL HD HF few EG) as (T & B & Cv).
  pose proof (C100_mask_partial hash g W numin names s st units NC wf HW HNM HF few EG HK) as MP.
  assert (FT : forall nm io wh, mods nm = Some wh -> fitting (map to_unit units) nm io (width_of wh io)).
  { intros nm io wh Em u n c M [O1 O2]. subst nm io. destruct (B u n c wh M Em) as [B1 B2]. split; [|split; assumption]. destruct (unit_entry units u n c M) as (h & x & Ex & I).
    destruct (MP h n x (nth_error_In _ _ Ex)) as [_ M2]. destruct (M2 _ _ I) as [_ [E|E]]; [exists 1%Z; unfold range_len in E; cbn [fst snd] in E; lia|subst n; exists (rc_end c - rc_start c)%Z; lia]. }
  assert (RD : forall i nm io wh, nth_error names i = Some nm -> mods nm = Some wh ->
    exists rst mask, prepare_units mods (map to_unit units) = Ok rst /\ read_mask rst masks nm io = Ok mask /\ shows (map to_unit units) masks nm io (width_of wh io) mask).
  { intros i nm io wh Ni Em. assert (Hi : i < length g) by (rewrite <- HL; apply nth_error_Some; congruence). destruct (nth_error g i) as [nd|] eqn:Ei; [|apply nth_error_None in Ei; lia].
    assert (P : (0 <= width_of wh io)%Z) by (destruct (proj1 HD i nd nm wh Ei Ni Em) as [-> _]; destruct io; cbn; lia).
    apply (C113_read_partial mods (map to_unit units) masks nm io wh (width_of wh io) T Sz Em P (FT nm io wh Em) (Cv i nm io wh Ni Em)). lia. }
  destruct (C113_registered mods (map to_unit units) T) as (rst & Er & _). exists rst, (fun nm io => match read_mask rst masks nm io with Ok m => m | Raise _ => [] end).
  split; [exact Er|].
  assert (RD2 : forall i nm io wh, nth_error names i = Some nm -> mods nm = Some wh -> exists mask, read_mask rst masks nm io = Ok mask /\ shows (map to_unit units) masks nm io (width_of wh io) mask).
  { intros i nm io wh Ni Em. destruct (RD i nm io wh Ni Em) as (rst' & mask & E' & R & Sh). assert (rst' = rst) by congruence. subst rst'. exists mask. auto. }
  split.
  - intros i nm io wh Ni Em. destruct (RD2 i nm io wh Ni Em) as (mask & R & Sh & _). rewrite R. auto.
  - intros i nm wh io k e j nm' wh' io' k' e' Ni Em Hk Nj Em' Hk' G.
    destruct (RD2 i nm io wh Ni Em) as (m1 & R1 & L1 & S1 & _). destruct (RD2 j nm' io' wh' Nj Em') as (m2 & R2 & L2 & S2 & _). rewrite R1, R2.
    destruct (C100_units hash g W numin names s wf HW HL HF (proj1 few) (proj2 few)) as (st' & units' & RR & EG' & ND & CU & UN & EX).
    rewrite EG in EG'. apply Ok_inj in EG'. injection EG' as <- <-.
    destruct (forward_good g W numin wf HW) as (s0 & E0 & [HI HG] & _ & LN). rewrite HF in E0. apply Ok_inj in E0. subst s0.
    assert (Hi : i < length g) by (rewrite <- HL; apply nth_error_Some; congruence). assert (Hj : j < length g) by (rewrite <- HL; apply nth_error_Some; congruence).
    assert (LK : forall i io k e, i < length g -> nth_error (tens (trip_of s i) (rec_side io)) k = Some e -> e < uf_n (f_uf s) /\
      exists a b h, In ((a, b), h) (RR i io) /\ (a <= Z.of_nat k < b)%Z /\ is_key hash s e h).
    { clear -HG LN CU. intros i io k e Hi Hk. destruct (nth_error g i) as [nd|] eqn:Ei; [|apply nth_error_None in Ei; lia]. destruct (HG i nd) as [(V1 & V2 & _) _]; [lia|exact Ei|].
      split; [destruct io; cbn [rec_side tens] in Hk; [apply V2|apply V1]; eapply nth_error_In; eauto|].
      assert (Hl : k < length (tens (trip_of s i) (rec_side io))) by (apply nth_error_Some; congruence).
      destruct (CU i io Hi) as (T & K & _). destruct (tiles_at _ _ _ (Z.of_nat k) T ltac:(lia)) as (a & b & h & I & X). exists a, b, h. split; [exact I|]. split; [exact X|]. exact (K a b h k e I Hk X). }
    destruct (LK i io k e Hi Hk) as (Le & a & b & h & I & X & Ke). destruct (LK j io' k' e' Hj Hk') as (Le' & a' & b' & h' & I' & X' & Ke').
    assert (E : eqv (f_uf s) e e') by (apply (grouped_eqv _ e e' HI Le); exact G).
    pose proof (key_unique hash s HI e e' h h' Le E Ke Ke') as <-.
    destruct (EX i io (a, b) h Hi I) as (n & x & Ix). pose proof (proj1 (UN h n x Ix)) as UE.
    apply In_nth_error in Ix as Hu. destruct Hu as [u Hu].
    assert (In1 : In (nm, (a, b)) (entries io x)) by (apply UE; exists i; auto). assert (In2 : In (nm', (a', b')) (entries io' x)) by (apply UE; exists j; auto).
    pose proof (entry_unit units u h n x io _ Hu In1) as M1. pose proof (entry_unit units u h n x io' _ Hu In2) as M2.
    destruct (S1 u n _ (Z.of_nat k) M1 (conj eq_refl eq_refl) X) as [_ Q1]. destruct (S2 u n _ (Z.of_nat k') M2 (conj eq_refl eq_refl) X') as [_ Q2].
    rewrite Nat2Z.id in Q1, Q2. rewrite Q1, Q2. f_equal. f_equal.
    destruct (MP h n x Ix) as [UM M3].
    pose proof (proj2 (UM i io k e (nm, (a, b)) j io' k' e' (nm', (a', b')) Hk Hk' Ke Ke' (conj In1 (conj Ni X)) (conj In2 (conj Nj X'))) G) as MPQ.
    unfold mask_position in MPQ. cbn [to_chan rc_start rc_end fst snd] in *.
    assert (DIV : forall a b k, (a <= k < b)%Z -> a = 0%Z -> (n = b - a \/ n = 1)%Z -> ((k - a) / ((b - a) / n) = (k - a) * n / (b - a))%Z).
    { clear. intros a b k Hk -> [->| ->].
      - rewrite !Z.sub_0_r in *. rewrite Z.div_same by lia. rewrite Z.div_1_r, Z.div_mul by lia. reflexivity.
      - rewrite Z.div_1_r, Z.mul_1_r. reflexivity. }
    destruct (M3 _ _ In1) as [A1 A2]. destruct (M3 _ _ In2) as [A3 A4]. unfold range_len in A2, A4, MPQ. cbn [fst snd] in A1, A2, A3, A4, MPQ.
    rewrite (DIV a b (Z.of_nat k) X A1 A2), (DIV a' b' (Z.of_nat k') X' A3 A4). exact MPQ.
Qed.
Print Assumptions C113_tied_partial.

(** The aligned network of C100: dynamic modules are the convolutions, the norm and the linear layer. *)
Definition ex_dyn (m : nat) : option (Z * Z) :=
  match m with 1 => Some (3, 4)%Z | 4 => Some (4, 4)%Z | 6 => Some (4, 4)%Z | 7 => Some (4, 2)%Z | _ => None end.
Lemma ex_dyn_ok : dynamic_ok ex_aligned ex_aligned_W (map c_name ex_aligned) ex_dyn.
Proof.
  split.
  - intros i nd nm wh H. do 9 (destruct i as [|i]; [cbn in H; injection H as <-; cbn; intros [= <-] E; first [discriminate E|injection E as <-; split; [reflexivity|exact I]]|]). destruct i; discriminate H.
  - intros i j nm H1 H2 D.
    do 9 (destruct i as [|i]; [do 9 (destruct j as [|j]; [cbn in H1, H2; first [left; reflexivity|exfalso; congruence|right; exists 1; split; reflexivity]|]); destruct j; discriminate H2|]). destruct i; discriminate H1.
Qed.
Definition ex_dyn_masks (u : nat) : list bool := nth u [[true; true; true]; [true; false; true; false]; [true]; [true]; [false]] [].
Example C113_graph_case :
  dynamic_ok ex_aligned ex_aligned_W (map c_name ex_aligned) ex_dyn /\
  exists s st units rst, forward ex_aligned 3 = Ok s /\
    generate_units_config ihash (map c_name ex_aligned) s (g_start s) = Ok (st, units) /\
    sized (map to_unit units) ex_dyn_masks /\ prepare_units ex_dyn (map to_unit units) = Ok rst /\
    map (fun x => read_mask rst ex_dyn_masks (fst x) (snd x)) [(1, true); (4, false); (6, true); (7, false); (7, true)] =
      map Ok [[true; false; true; false]; [true; false; true; false]; [true; false; true; false]; [true; false; true; false]; [false; false]].
Proof.
  split; [exact ex_dyn_ok|]. destruct C100_case as (_ & _ & _ & _ & s & st & units & E & _ & EG & EU). exists s, st, units.
  assert (X : exists l, map to_unit units = l /\ l = map (fun hu : Z * list cfg * list cfg => {| ru_n := fst (fst hu); ru_chans := map (to_chan false) (snd (fst hu)) ++ map (to_chan true) (snd hu) |})
      [(3%Z, [e_ 0 0 3; e_ 1 0 3], [e_ 0 0 3]);
       (4%Z, [e_ 3 0 4; e_ 4 0 4; e_ 6 0 4; e_ 7 0 4], [e_ 1 0 4; e_ 3 0 4; e_ 4 0 4; e_ 6 0 4]);
       (1%Z, [], [e_ 5 0 1]); (1%Z, [e_ 5 0 1], []); (1%Z, [e_ 8 0 1], [e_ 7 0 2; e_ 8 0 1])]).
  { eexists. split; [reflexivity|]. rewrite <- EU, map_map. reflexivity. }
  destruct X as (l & -> & ->). eexists. split; [exact E|]. split; [exact EG|]. split.
  - intros u x Hx. do 5 (destruct u as [|u]; [cbn in Hx; injection Hx as <-; reflexivity|]). destruct u; discriminate Hx.
  - split; [vm_compute; reflexivity|]. vm_compute. reflexivity.
Qed.

Local Open Scope Z_scope.
(** Units that are accepted have no channel narrower than themselves on a dynamic module. *)
Lemma channel_dom u n st c st' : register_channel u n st c = Ok st' ->
  (rs_cont st (rc_mod c) (rc_out c) <> None -> n <= rc_end c - rc_start c) /\ forall m io, rs_cont st m io <> None -> rs_cont st' m io <> None.
Proof.
  unfold register_channel. destruct (rs_cont st (rc_mod c) (rc_out c)) as [k|] eqn:Ek; [|intros H; apply Ok_inj in H; subst; split; [congruence|auto]].
  unfold pick_ratio. intros H. assert (W : n <= rc_end c - rc_start c).
  { destruct (rc_end c - rc_start c =? n) eqn:E1; [lia|]. destruct (n <? rc_end c - rc_start c) eqn:E2; [lia|discriminate]. }
  split; [auto|]. intros m io D. match type of H with bind ?e _ = _ => destruct e as [rr|]; [|discriminate] end. cbn [bind] in H.
  destruct (IndexDict_Model.contains (slots k) (rc_start c, rc_end c)).
  - destruct (slot_at (slots k) (rc_start c, rc_end c)) as [[id|]|]; try discriminate H. destruct (nth_error (rs_made st) id); [|discriminate]. destruct (assert_ _); [|discriminate]. apply Ok_inj in H. subst. exact D.
  - destruct (Container_Model.register k _ _ _) as [k'|]; [|discriminate]. apply Ok_inj in H. subst. cbn [rs_cont]. unfold set_cont. destruct (Nat.eqb (rc_mod c) m && Bool.eqb (rc_out c) io); [discriminate|exact D].
Qed.
Lemma channels_dom u n : forall cs st st', register_channels u n st cs = Ok st' ->
  (forall c, In c cs -> rs_cont st (rc_mod c) (rc_out c) <> None -> n <= rc_end c - rc_start c) /\ forall m io, rs_cont st m io <> None -> rs_cont st' m io <> None.
Proof.
  induction cs as [|c cs IH]; intros st st' H; cbn [register_channels] in H; [apply Ok_inj in H; subst; split; [intros c []|auto]|].
  destruct (register_channel u n st c) as [st1|] eqn:E; [|discriminate]. cbn [bind] in H. destruct (channel_dom _ _ _ _ _ E) as [A B]. destruct (IH _ _ H) as [A' B'].
  split; [intros c' [<-|I] D; [auto|apply A'; auto]|auto].
Qed.
Theorem C113_accepted mods us st u n c :
  prepare_units mods us = Ok st -> member us u n c -> mods (rc_mod c) <> None -> n <= rc_end c - rc_start c.
Proof.
  intros H (x & Hx & -> & I) D. unfold prepare_units in H.
  assert (G : forall us i st0, register_units i st0 us = Ok st -> (forall m io, mods m <> None -> rs_cont st0 m io <> None) -> forall u x, nth_error us u = Some x -> In c (ru_chans x) -> ru_n x <= rc_end c - rc_start c).
  { clear - D. induction us as [|y us IH]; intros i st0 H K u x Hx I; [destruct u; discriminate|]. cbn [register_units] in H. destruct (register_channels i (ru_n y) st0 (ru_chans y)) as [st1|] eqn:E; [|discriminate]. cbn [bind] in H.
    destruct (channels_dom _ _ _ _ _ E) as [A B]. destruct u as [|u]; cbn [nth_error] in Hx; [injection Hx as <-; apply A; auto|]. eapply IH; eauto. }
  eapply G; eauto. intros m io Dm. cbn [register_containers rs_cont]. destruct (mods m) as [[i o]|]; [discriminate|congruence].
Qed.
Print Assumptions C113_accepted.
Example C113_accepted_case :
  prepare_units (fun m => Some (8, 8)) [{| ru_n := 4; ru_chans := [{| rc_mod := 0; rc_out := true; rc_start := 0; rc_end := 8 |}] |}] <> Raise NotImplementedError /\
  prepare_units (fun m => Some (8, 8)) [{| ru_n := 8; ru_chans := [{| rc_mod := 0; rc_out := true; rc_start := 0; rc_end := 4 |}] |}] = Raise NotImplementedError.
Proof. split; [discriminate|reflexivity]. Qed.
