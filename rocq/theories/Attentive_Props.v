(** C166: which values a search space given by ranges has.  C167: what building the searchable MobileNetV3 does to the list of
    activations it is given. *)
From Coq Require Import List ZArith Bool Lia.
From Verif Require Import Prelude OpShapes_Model OpShapes_Props Attentive_Model.
Import ListNotations.
Local Open Scope Z_scope.

(** ** C166: specification *)
(** The values that [start, start + step, ...] reaches without leaving [start .. stop], where the bound is moved up by one. *)
Definition reached (start stop step x : Z) : Prop :=
  (step | x - start) /\ ((0 < step /\ start <= x <= stop) \/ (step < 0 /\ stop + 1 < x <= start)).
Definition ordered (step : Z) (l : list Z) : Prop := forall i x y, nth_error l i = Some x -> nth_error l (S i) = Some y -> y = x + step.

(** ** Lemmas *)
Lemma mapM_inv {X Y} (f : X -> outcome Y) l m : mapM f l = Ok m -> Forall2 (fun x y => f x = Ok y) l m.
Proof.
  revert m. induction l as [|x r IH]; intros m; cbn [mapM bind].
  - intros H. apply Ok_inj in H. subst. constructor.
  - destruct (f x) as [y|e] eqn:E; cbn [bind]; [|intros X0; discriminate X0].
    destruct (mapM f r) as [t|e] eqn:Et; cbn [bind]; [|intros X0; discriminate X0].
    intros H. apply Ok_inj in H. subst. constructor; auto.
Qed.
Lemma py_range_spec a b s l : py_range a (b + 1) s = Ok l -> s <> 0 /\ (forall x, In x l <-> reached a b s x) /\ ordered s l.
Proof.
  unfold py_range. destruct (s =? 0) eqn:E0; [intros X; discriminate X|]. apply Z.eqb_neq in E0. intros H. apply Ok_inj in H. subst l.
  split; [assumption|]. split.
  - intros x. rewrite in_map_iff. unfold reached. split.
    + intros (i & <- & Hi). apply in_seq in Hi. split; [exists (Z.of_nat i); lia|].
      destruct (0 <? s) eqn:Es; [apply Z.ltb_lt in Es; left | apply Z.ltb_ge in Es; right]; (split; [lia|]).
      * pose proof (Z.div_mod (b + 1 - a + s - 1) s ltac:(lia)). pose proof (Z.mod_pos_bound (b + 1 - a + s - 1) s ltac:(lia)).
        assert (Z.of_nat i < (b + 1 - a + s - 1) / s) by lia. nia.
      * pose proof (Z.div_mod (a - (b + 1) - s - 1) (- s) ltac:(lia)). pose proof (Z.mod_pos_bound (a - (b + 1) - s - 1) (- s) ltac:(lia)).
        assert (Z.of_nat i < (a - (b + 1) - s - 1) / - s) by lia. nia.
    + intros ((q & Hq) & Hb). exists (Z.to_nat q).
      assert (Hq0 : 0 <= q) by (destruct Hb as [(A & B) | (A & B)]; nia). rewrite Z2Nat.id by assumption. split; [lia|].
      apply in_seq. destruct Hb as [(A & B) | (A & B)].
      * replace (0 <? s) with true by (symmetry; apply Z.ltb_lt; lia).
        assert (q + 1 <= (b + 1 - a + s - 1) / s) by (apply Z.div_le_lower_bound; nia). lia.
      * replace (0 <? s) with false by (symmetry; apply Z.ltb_ge; lia).
        assert (q + 1 <= (a - (b + 1) - s - 1) / - s) by (apply Z.div_le_lower_bound; nia). lia.
  - intros i x y Hx Hy. rewrite nth_error_map in Hx, Hy.
    destruct (nth_error (seq 0 _) i) as [u|] eqn:Eu in Hx; [|discriminate Hx]. destruct (nth_error (seq 0 _) (S i)) as [v|] eqn:Ev in Hy; [|discriminate Hy].
    assert (N : forall n k w, nth_error (seq 0 n) k = Some w -> w = k).
    { clear. intros n k w H. assert (K : (k < length (seq 0 n))%nat) by (apply nth_error_Some; rewrite H; discriminate).
      rewrite seq_length in K. rewrite (nth_error_nth' _ 0%nat) in H by (rewrite seq_length; lia). rewrite seq_nth in H by lia. injection H as <-. lia. }
    apply N in Eu, Ev. subst. unfold option_map in *. assert (x = a + Z.of_nat i * s) by congruence. assert (y = a + Z.of_nat (S i) * s) by congruence. subst. rewrite Nat2Z.inj_succ. ring.
Qed.
Lemma max_of_ge l m : max_of l = Ok m -> In m l /\ forall x, In x l -> x <= m.
Proof.
  destruct l as [|a r]; cbn [max_of]; [intros X; discriminate X|]. intros H. apply Ok_inj in H. subst m.
  assert (G : forall l a, (fold_left Z.max l a = a \/ In (fold_left Z.max l a) l) /\ a <= fold_left Z.max l a /\ forall x, In x l -> x <= fold_left Z.max l a).
  { clear. induction l as [|b l IH]; intros a; cbn [fold_left]; [repeat split; [left; reflexivity | lia | contradiction]|].
    destruct (IH (Z.max a b)) as (A & B & C). repeat split.
    - destruct A as [A | A]; [|right; right; assumption]. rewrite A. destruct (Z.max_spec a b) as [(_ & ->) | (_ & ->)]; [right; left | left]; reflexivity.
    - lia.
    - intros x [<- | Hx]; [lia | auto]. }
  destruct (G r a) as (A & B & C). split.
  - destruct A as [-> | A]; [left; reflexivity | right; exact A].
  - intros x [<- | Hx]; auto.
Qed.

(** ** C166: theorems *)
(** The lists of values, in the order of the ranges: every value that the steps reach, each one step after the one before. *)
Theorem C166_values : forall rs vs, parse_values rs = Ok vs ->
  Forall2 (fun r v => exists start stop step, r = [start; stop; step] /\ step <> 0
                      /\ (forall x, In x v <-> reached start stop step x) /\ ordered step v) rs vs.
Proof.
  intros rs vs H. apply mapM_inv in H. induction H as [|r v rs vs Hr _ IH]; constructor; [|exact IH].
  destruct r as [|a [|b [|s [|z r]]]]; cbn [range_to_list] in Hr; try discriminate Hr.
  exists a, b, s. split; [reflexivity|]. apply py_range_spec. exact Hr.
Qed.
(** Only triples with a step are accepted. *)
Theorem C166_refused : forall rs, (exists vs, parse_values rs = Ok vs) <-> Forall (fun r => length r = 3%nat /\ nth 2 r 0 <> 0) rs.
Proof.
  intros rs. unfold parse_values. split.
  - intros (vs & H). apply mapM_inv in H. induction H as [|r v rs vs Hr _ IH]; constructor; [|exact IH].
    destruct r as [|a [|b [|s [|z r]]]]; cbn [range_to_list] in Hr; try discriminate Hr. apply py_range_spec in Hr. cbn. tauto.
  - induction 1 as [|r rs (L & N) _ (vs & IH)]; [exists []; reflexivity|].
    destruct r as [|a [|b [|s [|z r]]]]; cbn in L; try discriminate L. cbn [nth] in N. cbn [mapM range_to_list]. unfold py_range at 1.
    apply Z.eqb_neq in N. rewrite N. cbn [bind]. rewrite IH. cbn [bind]. eexists. reflexivity.
Qed.
(** The comment promises (min_range, max_range, step): the second entry is a value. *)
Definition C166_claim : Prop := forall start stop step v, step <> 0 -> (0 < step -> start <= stop) -> (step < 0 -> stop <= start) ->
  parse_values [[start; stop; step]] = Ok [v] -> In stop v.
Theorem C166_bound_partial : forall start stop step v, 0 < step -> start <= stop -> (step | stop - start) ->
  parse_values [[start; stop; step]] = Ok [v] -> max_of v = Ok stop /\ In start v.
Proof.
  intros a b s v Hs Hab Hd H. apply C166_values in H. inversion H as [|r v' rs vs (a' & b' & s' & E & _ & R & _) _]; subst. injection E as <- <- <-.
  assert (Ib : In b v) by (apply R; split; [assumption | left; lia]). assert (Ia : In a v) by (apply R; split; [exists 0; lia | left; lia]).
  split; [|exact Ia]. destruct (max_of v) as [m|e] eqn:Em; [|destruct v; [destruct Ib | discriminate Em]].
  apply max_of_ge in Em as (Im & Gm). f_equal. specialize (Gm _ Ib). apply R in Im as (_ & [(_ & X) | (X & _)]); lia.
Qed.
(** A step that does not divide the distance misses it, and a descending range always does. *)
Theorem C166_bound_refuted : ~ C166_claim /\ parse_values [[16; 27; 8]] = Ok [[16; 24]]
  /\ (forall start stop step v, step < 0 -> parse_values [[start; stop; step]] = Ok [v] -> ~ In stop v).
Proof.
  assert (W : parse_values [[16; 27; 8]] = Ok [[16; 24]]) by (vm_compute; reflexivity). split; [|split; [exact W|]].
  - intros C. specialize (C 16 27 8 [16; 24] ltac:(lia) ltac:(lia) ltac:(lia) W). cbn in C. lia.
  - intros a b s v Hs H. apply C166_values in H. inversion H as [|r v' rs vs (a' & b' & s' & E & _ & R & _) _]; subst. injection E as <- <- <-.
    intros I. apply R in I as (_ & [(X & _) | (_ & X)]); lia.
Qed.
Example C166_kernels : parse_values [[3; 3; 1]; [3; 7; 2]; [7; 3; -2]; [4; 3; 1]] = Ok [[3]; [3; 5; 7]; [7; 5]; []].
Proof. vm_compute. reflexivity. Qed.
Example C166_pair : parse_values [[3; 7]] = Raise AssertionError /\ parse_values [[3; 7; 0]] = Raise ValueError.
Proof. vm_compute. repeat split. Qed.

(** ** C167 *)
Section Rebuilding.
Variable act : Type.
Variable swish : act.
Variable widen : Z -> Z.

(** The arguments pass the checks before the list of activations is touched. *)
Definition checked (c : config) : Prop :=
  (forall i, In i (c_outs c) -> 0 <= i < 8) /\ -1 <= c_frozen c < 8
  /\ exists ks ds rs cs, parse_values (c_kernels c) = Ok ks /\ parse_values (c_blocks c) = Ok ds
                         /\ parse_values (c_ratios c) = Ok rs /\ parse_values (c_channels c) = Ok cs.
Lemma pop_last_app {X} (l : list X) x : pop_last (l ++ [x]) = Ok (x, l).
Proof. unfold pop_last. rewrite rev_app_distr. cbn [rev app]. rewrite rev_involutive. reflexivity. Qed.
Lemma pop_last_inv {X} (l : list X) x r : pop_last l = Ok (x, r) -> l = r ++ [x].
Proof.
  unfold pop_last. destruct (rev l) as [|y t] eqn:E; [intros H; discriminate H|]. intros H. apply Ok_inj in H. injection H as <- <-.
  rewrite <- (rev_involutive l), E. reflexivity.
Qed.
(** The part of the constructor before the list is touched. *)
Lemma init_checked c acts : checked c -> exists ks ds rs cs,
  init act swish widen c acts =
    let left_ l := match acts with [] => [] | _ => l end in
    match pop_first (or_default acts (repeat swish 9)) with
    | Raise e => (Raise e, acts)
    | Ok (a, l) => match pop_last l with
                   | Raise e => (Raise e, left_ l)
                   | Ok (z, l') => (build act c a z l' ks ds rs cs, left_ l')
                   end
    end.
Proof.
  intros (Ho & Hf & ks & ds & rs & cs & E1 & E2 & E3 & E4). exists ks, ds, rs, (map (map widen) cs). unfold init.
  replace (forallb (fun i => (0 <=? i) && (i <? 8)) (c_outs c)) with true.
  2: { symmetry. apply forallb_forall. intros i Hi. specialize (Ho _ Hi). apply andb_true_iff. split; [apply Z.leb_le | apply Z.ltb_lt]; lia. }
  replace ((-1 <=? c_frozen c) && (c_frozen c <? 8)) with true.
  2: { symmetry. apply andb_true_iff. split; [apply Z.leb_le | apply Z.ltb_lt]; lia. }
  cbn [negb]. rewrite E1, E2, E3, E4. cbn [bind]. reflexivity.
Qed.
Lemma init_ok_checked c acts n rest : init act swish widen c acts = (Ok n, rest) -> checked c.
Proof.
  unfold init. destruct (forallb _ (c_outs c)) eqn:F; cbn [negb]; [|intros X; discriminate X].
  destruct ((-1 <=? c_frozen c) && (c_frozen c <? 8)) eqn:Z0; cbn [negb]; [|intros X; discriminate X].
  destruct (parse_values (c_kernels c)) as [ks|] eqn:E1; cbn [bind]; [|intros X; discriminate X].
  destruct (parse_values (c_blocks c)) as [ds|] eqn:E2; cbn [bind]; [|intros X; discriminate X].
  destruct (parse_values (c_ratios c)) as [rs|] eqn:E3; cbn [bind]; [|intros X; discriminate X].
  destruct (parse_values (c_channels c)) as [cs|] eqn:E4; cbn [bind]; [|intros X; discriminate X].
  intros _. split; [|split].
  - rewrite forallb_forall in F. intros i Hi. specialize (F _ Hi). apply andb_true_iff in F as (A & B). apply Z.leb_le in A. apply Z.ltb_lt in B. lia.
  - apply andb_true_iff in Z0 as (A & B). apply Z.leb_le in A. apply Z.ltb_lt in B. lia.
  - exists ks, ds, rs, cs. auto.
Qed.
Lemma make_layers_acts c acts ks j i ds rs cs ls last : make_layers act c acts j i ks ds rs cs = Ok (ls, last) ->
  map (l_act act) ls = firstn (length ls) (skipn j acts) /\ (length ls <= length (skipn j acts))%nat.
Proof.
  revert j i ds rs cs ls last.
  assert (D : forall (j : nat) (i : Z) (ls : list (layer act)) (last : Z), Ok ([], i) = Ok (ls, last) ->
    map (l_act act) ls = firstn (length ls) (skipn j acts) /\ (length ls <= length (skipn j acts))%nat).
  { intros. apply Ok_inj in H. injection H as <- <-. split; [reflexivity | cbn; lia]. }
  induction ks as [|k ks IH]; intros j i ds rs cs ls last; [destruct ds; cbn [make_layers]; apply D|].
  destruct ds as [|d ds]; [cbn [make_layers]; apply D|]. destruct rs as [|r rs]; [cbn [make_layers]; apply D|].
  destruct cs as [|ch cs]; [cbn [make_layers]; apply D|]. cbn [make_layers].
  destruct (item (or_default (c_strides c) _) j) as [s|]; cbn [bind]; [|intros X; discriminate X].
  destruct (item (or_default (c_se c) _) j) as [se|]; cbn [bind]; [|intros X; discriminate X].
  destruct (item acts j) as [a|] eqn:Ea; cbn [bind]; [|intros X; discriminate X].
  destruct (make_single_layer act c i s se a k d r ch) as [(l, i')|] eqn:El; cbn [bind]; [|intros X; discriminate X].
  destruct (make_layers act c acts (S j) i' ks ds rs cs) as [(t, last')|] eqn:Et; cbn [bind]; [|intros X; discriminate X].
  intros H. apply Ok_inj in H. injection H as <- <-. apply IH in Et as (A & B).
  assert (La : l_act act l = a).
  { unfold make_single_layer in El. destruct (max_of d); cbn [bind] in El; [|discriminate El]. destruct (max_of k); cbn [bind] in El; [|discriminate El].
    destruct (max_of r); cbn [bind] in El; [|discriminate El]. destruct (max_of ch); cbn [bind] in El; [|discriminate El].
    destruct (all_ok new_block _); cbn [bind] in El; [|discriminate El]. apply Ok_inj in El. injection El as <- _. reflexivity. }
  assert (Sk : skipn j acts = a :: skipn (S j) acts).
  { unfold item in Ea. destruct (nth_error acts j) as [a'|] eqn:En; [|discriminate Ea]. apply Ok_inj in Ea. subst a'.
    clear - En. revert acts En. induction j as [|j IH]; intros [|y acts] H; try discriminate H; [injection H as ->; reflexivity | cbn [skipn]; rewrite (IH _ H); reflexivity]. }
  rewrite Sk. cbn [map length firstn]. rewrite La, A. split; [reflexivity | lia].
Qed.
Lemma build_acts c a z acts ks ds rs cs n : build act c a z acts ks ds rs cs = Ok n ->
  v_first_act act n = a /\ v_last_act act n = z /\ map (l_act act) (v_layers act n) = firstn (length (v_layers act n)) acts
  /\ (length (v_layers act n) <= length acts)%nat /\ length (v_layers act n) = length ks.
Proof.
  unfold build. destruct (pop_first cs) as [(f, cs1)|]; cbn [bind]; [|intros X; discriminate X].
  destruct (pop_last cs1) as [(g, cs2)|]; cbn [bind]; [|intros X; discriminate X].
  destruct (pop_last rs) as [(h, rs1)|]; cbn [bind]; [|intros X; discriminate X].
  unfold assert_. destruct (_ && _) eqn:L; cbn [bind]; [|intros X; discriminate X].
  destruct (max_of f) as [i|]; cbn [bind]; [|intros X; discriminate X].
  destruct (make_layers act c acts 0 i ks ds rs1 cs2) as [(ls, last)|] eqn:E; cbn [bind]; [|intros X; discriminate X].
  destruct (max_of h); cbn [bind]; [|intros X; discriminate X]. destruct (max_of g); cbn [bind]; [|intros X; discriminate X].
  intros H. apply Ok_inj in H. subst n. cbn [v_first_act v_last_act v_layers].
  pose proof (make_layers_acts _ _ _ _ _ _ _ _ _ _ E) as (A & B). rewrite skipn_O in A, B. repeat split; auto.
  apply andb_true_iff in L as (L & L3). apply andb_true_iff in L as (L1 & L2). apply Nat.eqb_eq in L1, L2, L3.
  clear - E L1 L2 L3. revert E. generalize 0%nat as j. revert i ds rs1 cs2 ls last L1 L2 L3. induction ks as [|k ks IH]; intros i ds rs cs ls last L1 L2 L3 j E.
  - destruct ds; [|discriminate L1]. cbn [make_layers] in E. apply Ok_inj in E. injection E as <- _. reflexivity.
  - destruct ds as [|d ds]; [discriminate L1|]. destruct rs as [|r rs]; [discriminate L2|]. destruct cs as [|ch cs]; [discriminate L3|]. cbn [make_layers] in E.
    destruct (item (or_default (c_strides c) _) j); cbn [bind] in E; [|discriminate E].
    destruct (item (or_default (c_se c) _) j); cbn [bind] in E; [|discriminate E].
    destruct (item acts j); cbn [bind] in E; [|discriminate E].
    destruct (make_single_layer _ _ _ _ _ _ _ _ _ _) as [(l, i')|]; cbn [bind] in E; [|discriminate E].
    destruct (make_layers act c acts (S j) i' ks ds rs cs) as [(t, last')|] eqn:Et; cbn [bind] in E; [|discriminate E].
    apply Ok_inj in E. injection E as <- _. cbn [length]. f_equal. eapply IH; [| | | exact Et]; cbn [length] in *; lia.
Qed.

(** The activations go to the layers in order: the first to the stem, the last to the last layers, the ones after the first to the
    layers.  What is left of the caller's list is what lies between the first and the last. *)
Theorem C167_activations : forall c acts n rest, init act swish widen c acts = (Ok n, rest) ->
  exists first mid last, or_default acts (repeat swish 9) = first :: mid ++ [last]
  /\ v_first_act act n = first /\ v_last_act act n = last
  /\ map (l_act act) (v_layers act n) = firstn (length (v_layers act n)) mid /\ (length (v_layers act n) <= length mid)%nat
  /\ rest = match acts with [] => [] | _ => mid end.
Proof.
  intros c acts n rest H. pose proof (init_ok_checked _ _ _ _ H) as Hc. destruct (init_checked c acts Hc) as (ks & ds & rs & cs & E).
  rewrite E in H. cbv zeta in H. destruct (or_default acts (repeat swish 9)) as [|a l] eqn:Ed; cbn [pop_first] in H; [discriminate H|].
  destruct (pop_last l) as [(z, l')|e] eqn:El; [|discriminate H]. apply pop_last_inv in El. injection H as Hb <-.
  apply build_acts in Hb as (A & B & C & D & _). exists a, l', z. rewrite El. repeat split; auto.
Qed.
(** The caller's list loses its two ends with every construction, whether it succeeds or not. *)
Theorem C167_consumed : forall c k acts, checked c -> (2 * k <= length acts)%nat ->
  rebuilds act swish widen c k acts = firstn (length acts - 2 * k) (skipn k acts).
Proof.
  intros c k. induction k as [|k IH]; intros acts Hc Hk.
  - cbn [rebuilds skipn]. rewrite Nat.sub_0_r. symmetry. apply firstn_all.
  - cbn [rebuilds]. destruct acts as [|a t]; [cbn in Hk; lia|].
    assert (Ht : exists mid z, t = mid ++ [z]).
    { destruct (rev t) as [|z r] eqn:Er; [apply (f_equal (@length act)) in Er; rewrite rev_length in Er; cbn in *; lia|].
      exists (rev r), z. rewrite <- (rev_involutive t), Er. reflexivity. }
    destruct Ht as (mid & z & ->). destruct (init_checked c (a :: mid ++ [z]) Hc) as (ks & ds & rs & cs & E).
    rewrite E. cbv zeta. unfold or_default. cbn [pop_first]. rewrite pop_last_app. cbn [snd].
    cbn [length] in Hk. rewrite app_length in Hk. cbn [length] in Hk. rewrite IH by (try assumption; lia).
    cbn [length skipn]. rewrite app_length. cbn [length].
    replace (S (length mid + 1) - 2 * S k)%nat with (length mid - 2 * k)%nat by lia.
    rewrite skipn_app, firstn_app, skipn_length.
    replace (length mid - 2 * k - (length mid - k))%nat with 0%nat by lia. cbn [firstn]. rewrite app_nil_r. reflexivity.
Qed.
(** Without a list of its own the constructor can be called again and again. *)
Theorem C167_default : forall c k, rebuilds act swish widen c k [] = [].
Proof.
  intros c k. induction k as [|k IH]; [reflexivity|]. cbn [rebuilds]. replace (snd (init act swish widen c [])) with (@nil act); [exact IH|].
  unfold init. destruct (negb (forallb _ _)); [reflexivity|]. destruct (negb _); [reflexivity|].
  destruct (bind _ _) as [(((ks & ds) & rs) & cs)|]; [|reflexivity]. reflexivity.
Qed.
(** A list that is as long as it must be serves exactly one construction. *)
Theorem C167_once : forall c acts n rest, acts <> [] -> length acts = (length (v_layers act n) + 2)%nat -> (1 <= length (v_layers act n))%nat ->
  init act swish widen c acts = (Ok n, rest) -> rest <> [] -> exists e rest', init act swish widen c rest = (Raise e, rest').
Proof.
  intros c acts n rest Hne Hl Hn H Hr. pose proof (init_ok_checked _ _ _ _ H) as Hc.
  pose proof (C167_activations _ _ _ _ H) as (first & mid & last & Ed & _ & _ & _ & _ & Er).
  assert (Ea : acts = first :: mid ++ [last]) by (destruct acts; [contradiction | exact Ed]).
  assert (Em : rest = mid) by (destruct acts; [contradiction | exact Er]). clear Er Ed. rewrite Em in *. clear Em rest.
  destruct (init act swish widen c mid) as ([n'|e] & rest') eqn:E; [exfalso | eauto].
  assert (El : length (v_layers act n') = length (v_layers act n)).
  { destruct (init_checked c acts Hc) as (ks & ds & rs & cs & E1). destruct Hc as (Ho & Hf & ks0 & ds0 & rs0 & cs0 & P1 & P2 & P3 & P4).
    assert (G : forall a m r, init act swish widen c a = (Ok m, r) -> length (v_layers act m) = length ks0).
    { clear - Ho Hf P1 P2 P3 P4. intros a m r H. unfold init in H. destruct (negb (forallb _ _)); [discriminate H|]. destruct (negb _); [discriminate H|].
      rewrite P1, P2, P3, P4 in H. cbn [bind] in H. destruct (pop_first _) as [(x, l)|]; [|discriminate H]. destruct (pop_last l) as [(z, l')|]; [|discriminate H].
      injection H as Hb _. apply build_acts in Hb as (_ & _ & _ & _ & L). exact L. }
    rewrite (G _ _ _ E), (G _ _ _ H). reflexivity. }
  apply C167_activations in E as (f' & m' & l' & Ed & _ & _ & _ & Hle & _).
  assert (Emid : mid = f' :: m' ++ [l']) by (destruct mid; [contradiction | exact Ed]).
  rewrite Ea, Emid in Hl. cbn [length] in Hl. rewrite !app_length in Hl. cbn [length] in Hl. rewrite app_length in Hl. cbn [length] in Hl. lia.
Qed.
End Rebuilding.

(** Building twice from the same arguments gives the same network. *)
Definition C167_claim : Prop := forall c acts n rest, init nat 0%nat (fun x => x) c acts = (Ok n, rest) ->
  fst (init nat 0%nat (fun x => x) c rest) = Ok n.
(** The search space of configs/_base_/nas_backbones/ofa_mobilenetv3_supernet.py, with activation 1 for HSwish and 2 for ReLU. *)
Definition ofa : config :=
  {| c_kernels := [[3; 3; 1]; [3; 7; 2]; [3; 7; 2]; [3; 7; 2]; [3; 7; 2]; [3; 7; 2]];
     c_blocks := [[1; 1; 1]; [2; 4; 1]; [2; 4; 1]; [2; 4; 1]; [2; 4; 1]; [2; 4; 1]];
     c_ratios := [[1; 1; 1]; [3; 6; 1]; [3; 6; 1]; [3; 6; 1]; [3; 6; 1]; [3; 6; 1]; [6; 6; 1]];
     c_channels := [[16; 16; 8]; [16; 16; 8]; [16; 24; 8]; [24; 40; 8]; [40; 80; 8]; [80; 112; 8]; [112; 160; 8]; [1024; 1280; 256]];
     c_outs := [6]; c_frozen := -1; c_strides := [1; 2; 2; 2; 1; 2]; c_se := [false; false; true; false; true; true];
     c_fine := true; c_attentive := false |}.
Definition ofa_acts : list nat := [1; 2; 2; 2; 1; 1; 1; 1; 1]%nat.
Definition one_layer : config :=
  {| c_kernels := [[3; 5; 2]]; c_blocks := [[1; 2; 1]]; c_ratios := [[1; 4; 1]; [6; 6; 1]]; c_channels := [[16; 24; 8]; [16; 24; 8]; [32; 32; 8]];
     c_outs := [0; 1]; c_frozen := -1; c_strides := []; c_se := []; c_fine := false; c_attentive := true |}.
(** The second network of the shipped configuration cannot be built, and a smaller one gets other activations. *)
Theorem C167_rebuild_refuted : ~ C167_claim
  /\ (exists n, init nat 0%nat (fun x => x) ofa ofa_acts = (Ok n, [2; 2; 2; 1; 1; 1; 1]%nat))
  /\ init nat 0%nat (fun x => x) ofa [2; 2; 2; 1; 1; 1; 1]%nat = (Raise IndexError, [2; 2; 1; 1; 1]%nat)
  /\ (exists n m, init nat 0%nat (fun x => x) one_layer [1; 2; 3; 4; 5]%nat = (Ok n, [2; 3; 4]%nat)
                  /\ init nat 0%nat (fun x => x) one_layer [2; 3; 4]%nat = (Ok m, [3]%nat)
                  /\ map (l_act nat) (v_layers nat n) = [2%nat] /\ map (l_act nat) (v_layers nat m) = [3%nat]).
Proof.
  assert (A : exists n, init nat 0%nat (fun x => x) ofa ofa_acts = (Ok n, [2; 2; 2; 1; 1; 1; 1]%nat)) by (eexists; vm_compute; reflexivity).
  assert (B : init nat 0%nat (fun x => x) ofa [2; 2; 2; 1; 1; 1; 1]%nat = (Raise IndexError, [2; 2; 1; 1; 1]%nat)) by (vm_compute; reflexivity).
  split; [|split; [exact A | split; [exact B|]]].
  - intros C. destruct A as (n & A). apply C in A. rewrite B in A. cbn [fst] in A. discriminate A.
  - do 2 eexists. split; [vm_compute; reflexivity|]. split; [vm_compute; reflexivity|]. split; vm_compute; reflexivity.
Qed.
(** A list that has been used up is replaced by the default: the next network gets Swish (0) everywhere. *)
Example C167_used_up : rebuilds nat 0%nat (fun x => x) one_layer 2 [1; 2; 2; 1]%nat = []
  /\ (exists n, init nat 0%nat (fun x => x) one_layer [] = (Ok n, []) /\ v_first_act nat n = 0%nat).
Proof. split; [vm_compute; reflexivity|]. eexists. split; vm_compute; reflexivity. Qed.
Example C167_checked : checked ofa.
Proof.
  split; [intros i [<- | []]; lia|]. split; [cbn; lia|]. do 4 eexists. repeat split; vm_compute; reflexivity.
Qed.

Print Assumptions C166_values.
Print Assumptions C166_refused.
Print Assumptions C166_bound_partial.
Print Assumptions C166_bound_refuted.
Print Assumptions C167_activations.
Print Assumptions C167_consumed.
Print Assumptions C167_default.
Print Assumptions C167_once.
Print Assumptions C167_rebuild_refuted.
