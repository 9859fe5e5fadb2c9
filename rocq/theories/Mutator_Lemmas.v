(** Lemmas about the choices of channel units and mutators. *)
From Verif Require Import Prelude PyNum Channel_Model Channel_Lemmas Divisible_Model Divisible_Props Mutator_Model.
From Coq Require Import Sorting.Permutation Sorting.Sorted.
Ltac Zify.zify_post_hook ::= Z.div_mod_to_equations.

Lemma uname_eqb_eq a b : uname_eqb a b = true <-> a = b.
Proof.
  destruct a, b; cbn; rewrite ?andb_true_iff, ?Nat.eqb_eq, ?Z.eqb_eq; split; try discriminate; try (intros H; decompose [and] H; subst; reflexivity); intros H; inversion H; auto.
Qed.
Lemma uname_eqb_refl a : uname_eqb a a = true.
Proof. apply uname_eqb_eq. reflexivity. Qed.
Lemma uname_dec (a b : uname) : a = b \/ a <> b.
Proof. destruct (uname_eqb a b) eqn:E; [left; apply uname_eqb_eq; exact E|right; intros ->; rewrite uname_eqb_refl in E; discriminate]. Qed.
Lemma uname_neqb a b : a <> b -> uname_eqb a b = false.
Proof. intros N. destruct (uname_eqb a b) eqn:E; [apply uname_eqb_eq in E; congruence|reflexivity]. Qed.

(** ** Dictionaries *)
Lemma d_get_in {A} (d : list (uname * A)) k v : d_get d k = Some v -> In (k, v) d.
Proof. induction d as [|[k' v'] d IH]; cbn; [discriminate|]. destruct (uname_eqb k' k) eqn:E; [apply uname_eqb_eq in E; intros H; inversion H; subst; auto|auto]. Qed.
Lemma d_get_nodup {A} (d : list (uname * A)) k v : NoDup (map fst d) -> In (k, v) d -> d_get d k = Some v.
Proof.
  induction d as [|[k' v'] d IH]; cbn; intros N I; [destruct I|]. inversion N as [|x y N1 N2]; subst. destruct I as [E|I].
  - inversion E; subst. rewrite uname_eqb_refl. reflexivity.
  - rewrite uname_neqb; [auto|]. intros ->. apply N1. apply (in_map fst) in I. exact I.
Qed.
Lemma d_get_none {A} (d : list (uname * A)) k : d_get d k = None <-> ~ In k (map fst d).
Proof.
  induction d as [|[k' v'] d IH]; cbn; [tauto|]. destruct (uname_eqb k' k) eqn:E.
  - apply uname_eqb_eq in E. split; [discriminate|]. intros H. exfalso. apply H. auto.
  - rewrite IH. split; [intros H [->|H']; [rewrite uname_eqb_refl in E; discriminate|auto]|auto].
Qed.
Lemma d_put_new {A} (d : list (uname * A)) k v : ~ In k (map fst d) -> d_put d k v = d ++ [(k, v)].
Proof. induction d as [|[k' v'] d IH]; cbn; intros H; [reflexivity|]. rewrite uname_neqb by auto. rewrite IH by auto. reflexivity. Qed.
Lemma d_put_same {A} (d : list (uname * A)) k v : d_get d k = Some v -> d_put d k v = d.
Proof. induction d as [|[k' v'] d IH]; cbn; [discriminate|]. destruct (uname_eqb k' k) eqn:E; [intros H; inversion H; reflexivity|intros H; rewrite IH by exact H; reflexivity]. Qed.

(** ** make_divisible *)
Lemma md_fix k d m ratio :
  0 < d -> (0 <= ratio <= 1)%Q -> (d | k) -> eff_min (Some m) d <= k -> make_divisible k d (Some m) ratio = Ok k.
Proof.
  intros D [R0 R1] DK M. rewrite md_unfold by exact D. cbv zeta. assert (K : 0 < k) by (unfold eff_min in M; lia).
  assert (E : Z.quot (2 * k + d) 2 / d * d = k).
  { destruct DK as [q Q]. rewrite Z.quot_div_nonneg by lia. assert (X : (2 * k + d) / 2 = k + d / 2) by lia.
    rewrite X, Q, Z.add_comm, Z.div_add by lia. rewrite (Z.div_small (d / 2) d) by lia. lia. }
  rewrite E, Z.max_r by exact M. pose proof (Qle_ratio ratio k k R0 R1 ltac:(lia) ltac:(lia)) as Q. apply Qle_bool_iff in Q. rewrite Q. reflexivity.
Qed.
Lemma md_range v d m ratio k :
  0 < d -> (d | m) \/ m <= d -> make_divisible v d (Some m) ratio = Ok k -> (d | k) /\ eff_min (Some m) d <= k.
Proof.
  intros D M E. rewrite md_unfold in E by exact D. apply Ok_inj in E. cbv zeta in E. set (N := eff_min (Some m) d) in *.
  assert (DN : (d | N)). { subst N; unfold eff_min. destruct M as [M|M]; [apply Z.max_case; [apply Z.divide_refl|exact M]|rewrite Z.max_l by lia; apply Z.divide_refl]. }
  assert (DR : (d | Z.quot (2 * v + d) 2 / d * d)) by apply Z.divide_factor_r.
  destruct (negb _); subst k; split; try lia; [apply Z.divide_add_r; [|apply Z.divide_refl]|]; apply Z.max_case; assumption.
Qed.

(** ** Units *)
(** Number mode; the divisor divides the width and the minimum is in order. *)
Record neat (u : munit) : Prop := {
  n_num : u_num (m_cfg u) = true;
  n_div : 0 < u_div (m_cfg u);
  n_ratio : (0 <= u_ratio (m_cfg u) <= 1)%Q;
  n_width : (u_div (m_cfg u) | Z.of_nat (u_n (m_cfg u)));
  n_pos : (0 < u_n (m_cfg u))%nat;
  n_min : u_min (m_cfg u) <= Z.of_nat (u_n (m_cfg u));
  n_min_div : (u_div (m_cfg u) | u_min (m_cfg u)) \/ u_min (m_cfg u) <= u_div (m_cfg u);
  n_cands : forall k, In (NInt k) (m_cands u) -> k <= Z.of_nat (u_n (m_cfg u))
}.
Definition low (u : munit) : Z := eff_min (Some (u_min (m_cfg u))) (u_div (m_cfg u)).
Definition fine (u : munit) (k : Z) : Prop := (u_div (m_cfg u) | k) /\ low u <= k <= Z.of_nat (u_n (m_cfg u)).
Record base (u : munit) : Prop := {
  b_neat : neat u;
  b_n : q_n (m_ch u) = u_n (m_cfg u);
  b_num : q_num (m_ch u) = true;
  b_fixed : q_fixed (m_ch u) = false;
  b_len : length (q_mask (m_ch u)) = u_n (m_cfg u);
  b_cands : forall c, In c (m_cands u) -> exists k, c = NInt k /\ fine u k
}.
(** The unit's choice is [k]. *)
Definition at_choice (u : munit) (k : Z) : Prop :=
  base u /\ fine u k /\ q_mask (m_ch u) = leading (u_n (m_cfg u)) k /\ (m_cls u <> CSeq -> In (NInt k) (m_cands u)).
Definition good (u : munit) : Prop := exists k, at_choice u k.
Definition same (u u' : munit) : Prop := exists m, u' = with_ch u (with_mask (m_ch u) m).

Lemma low_pos u : neat u -> 1 <= low u <= Z.of_nat (u_n (m_cfg u)).
Proof.
  intros N. destruct (n_width u N) as [q Q]. pose proof (n_div u N). pose proof (n_min u N). pose proof (n_pos u N). unfold low, eff_min.
  assert (u_div (m_cfg u) <= Z.of_nat (u_n (m_cfg u))). { apply Z.divide_pos_le; [lia|exists q; exact Q]. } lia.
Qed.
Lemma same_refl u : same u u.
Proof. exists (q_mask (m_ch u)). destruct u as [a b c d e f [g h i j]]. reflexivity. Qed.
Lemma same_trans a b c : same a b -> same b c -> same a c.
Proof. intros [m ->] [m' ->]. exists m'. reflexivity. Qed.
Lemma same_name a b : same a b -> name_of b = name_of a.
Proof. intros [m ->]. reflexivity. Qed.
Lemma same_mutable mi a b : same a b -> is_mutable mi b = is_mutable mi a.
Proof. intros [m ->]. reflexivity. Qed.
Lemma same_fine a b k : same a b -> fine b k <-> fine a k.
Proof. intros [m ->]. reflexivity. Qed.

Lemma num_in_int k l : num_in (NInt k) l = true -> (forall c, In c l -> exists z, c = NInt z) -> In (NInt k) l.
Proof.
  unfold num_in. intros H F. apply existsb_exists in H. destruct H as (c & I & E). destruct (F c I) as [z ->].
  unfold num_eqb, num_val in E. apply Qeq_bool_iff in E. unfold Qeq, inject_Z in E. cbn [Qnum Qden] in E. assert (k = z) by lia. subst. exact I.
Qed.
Lemma leading_cap n k : Z.of_nat n <= k -> leading n k = leading n (Z.of_nat n).
Proof. intros K. unfold leading. assert (E : slice_stop n k = slice_stop n (Z.of_nat n)) by (unfold slice_stop; destruct (k <? 0) eqn:A, (Z.of_nat n <? 0) eqn:B; lia). rewrite E. reflexivity. Qed.

Lemma set_good u v u' : base u -> set_choice u v = Ok u' -> same u u' /\ good u'.
Proof.
  intros B E. unfold set_choice in E. pose proof (b_neat u B) as N. pose proof (low_pos u N) as LP.
  assert (K : exists k, (u_div (m_cfg u) | k) /\ low u <= k /\ (m_cls u <> CSeq -> In (NInt k) (m_cands u)) /\ u' = with_ch u (with_mask (m_ch u) (leading (u_n (m_cfg u)) k))).
  { assert (V : forall k, valid_int_choice (m_cfg u) v = Ok k -> (u_div (m_cfg u) | k) /\ low u <= k).
    { intros k H. unfold valid_int_choice in H. destruct (ratio2num _ _) as [z|]; [|discriminate]. cbn [bind] in H. unfold u_make_divisible in H.
      exact (md_range _ _ _ _ _ (n_div u N) (n_min_div u N) H). }
    destruct (m_cls u) eqn:C.
    - unfold unit_set in E. destruct (valid_int_choice (m_cfg u) v) as [k|] eqn:Ek; [|discriminate]. cbn [bind seq_set] in E. apply Ok_inj in E.
      destruct (V k eq_refl) as [V1 V2]. exists k. rewrite (b_len u B) in E. repeat split; auto. congruence.
    - unfold oneshot_unit_set in E. destruct (num_in v (m_cands u)); [|discriminate]. cbn [assert_ bind] in E.
      destruct (valid_int_choice (m_cfg u) v) as [k|] eqn:Ek; [|discriminate]. cbn [bind] in E. rewrite (n_num u N) in E. cbn [bind] in E.
      unfold oneshot_set in E. destruct (num_in (NInt k) (m_cands u)) eqn:I; [|discriminate]. cbn [assert_ bind seq_set] in E. apply Ok_inj in E.
      destruct (V k eq_refl) as [V1 V2]. exists k. rewrite (b_len u B) in E. repeat split; auto. intros _. apply num_in_int; [exact I|].
      intros c Hc. destruct (b_cands u B c Hc) as (z & Z1 & _). eauto.
    - unfold oneshot_unit_set in E. destruct (num_in v (m_cands u)); [|discriminate]. cbn [assert_ bind] in E.
      destruct (valid_int_choice (m_cfg u) v) as [k|] eqn:Ek; [|discriminate]. cbn [bind] in E. rewrite (n_num u N) in E. cbn [bind] in E.
      unfold oneshot_set in E. destruct (num_in (NInt k) (m_cands u)) eqn:I; [|discriminate]. cbn [assert_ bind seq_set] in E. apply Ok_inj in E.
      destruct (V k eq_refl) as [V1 V2]. exists k. rewrite (b_len u B) in E. repeat split; auto. intros _. apply num_in_int; [exact I|].
      intros c Hc. destruct (b_cands u B c Hc) as (z & Z1 & _). eauto. }
  destruct K as (k & D & L & I & ->). split; [eexists; reflexivity|].
  assert (B' : base (with_ch u (with_mask (m_ch u) (leading (u_n (m_cfg u)) k)))).
  { constructor; cbn [with_ch with_mask m_cfg m_ch m_cands q_n q_num q_mask q_fixed]; [destruct N; constructor; assumption|apply B|apply B|apply B|apply leading_length|apply B]. }
  destruct (Z.le_gt_cases k (Z.of_nat (u_n (m_cfg u)))) as [Le|Gt].
  - exists k. split; [exact B'|]. split; [split; [exact D|split; [exact L|exact Le]]|]. split; [reflexivity|exact I].
  - exists (Z.of_nat (u_n (m_cfg u))). split; [exact B'|]. split; [split; [apply N|split; [apply LP|cbn; lia]]|]. split; [cbn; apply leading_cap; lia|].
    intros C. exfalso. pose proof (n_cands u N k (I C)). lia.
Qed.

Lemma at_get u k : at_choice u k -> get_choice u = Ok (NInt k).
Proof.
  intros (B & (D & F) & M & _). unfold get_choice, seq_get. rewrite (b_num u B), M, leading_count. pose proof (low_pos u (b_neat u B)). rewrite slice_stop_in by lia. rewrite Z2Nat.id by lia. reflexivity.
Qed.
Lemma set_fine u k :
  base u -> fine u k -> (m_cls u <> CSeq -> In (NInt k) (m_cands u)) ->
  exists u', set_choice u (NInt k) = Ok u' /\ same u u' /\ at_choice u' k /\ u' = with_ch u (with_mask (m_ch u) (leading (u_n (m_cfg u)) k)).
Proof.
  intros B F I. pose proof (b_neat u B) as N. destruct F as [D L].
  assert (V : valid_int_choice (m_cfg u) (NInt k) = Ok k) by (unfold valid_int_choice, u_make_divisible; cbn [ratio2num bind]; apply md_fix; [apply N|apply N|exact D|apply L]).
  assert (E : set_choice u (NInt k) = Ok (with_ch u (with_mask (m_ch u) (leading (u_n (m_cfg u)) k)))).
  { unfold set_choice. destruct (m_cls u) eqn:C.
    - unfold unit_set. rewrite V. cbn [bind seq_set]. rewrite (b_len u B). reflexivity.
    - assert (J : num_in (NInt k) (m_cands u) = true) by (apply num_in_In; [discriminate|apply I; congruence]).
      unfold oneshot_unit_set. rewrite J. cbn [assert_ bind]. rewrite V. cbn [bind]. rewrite (n_num u N). cbn [bind]. unfold oneshot_set. rewrite J. cbn [assert_ bind seq_set]. rewrite (b_len u B). reflexivity.
    - assert (J : num_in (NInt k) (m_cands u) = true) by (apply num_in_In; [discriminate|apply I; congruence]).
      unfold oneshot_unit_set. rewrite J. cbn [assert_ bind]. rewrite V. cbn [bind]. rewrite (n_num u N). cbn [bind]. unfold oneshot_set. rewrite J. cbn [assert_ bind seq_set]. rewrite (b_len u B). reflexivity. }
  eexists. split; [exact E|]. split; [eexists; reflexivity|]. split; [|reflexivity].
  split; [|split; [split; assumption|split; [reflexivity|exact I]]].
  constructor; cbn [with_ch with_mask m_cfg m_ch m_cands q_n q_num q_mask q_fixed]; [destruct N; constructor; assumption|apply B|apply B|apply B|apply leading_length|apply B].
Qed.
Lemma at_again u k : at_choice u k -> set_choice u (NInt k) = Ok u.
Proof.
  intros (B & F & M & I). destruct (set_fine u k B F I) as (u' & E & _ & _ & ->). rewrite E, <- M. f_equal. destruct u as [a b c d e f [g h i j]]. reflexivity.
Qed.

(** ** Candidates *)
Definition ile (a b : num) : Prop := num_leb a b = true.
Definition all_int (l : list num) : Prop := forall c, In c l -> exists k, c = NInt k.
Lemma leb_int a b : num_leb (NInt a) (NInt b) = (a <=? b).
Proof. unfold num_leb, num_val. destruct (Z.leb_spec a b) as [H|H]; [apply Qle_bool_iff; unfold Qle, inject_Z; cbn; lia|]. apply Bool.not_true_is_false. intros E. apply Qle_bool_iff in E. unfold Qle, inject_Z in E. cbn in E. lia. Qed.
Lemma insert_sorted x l : all_int (x :: l) -> Sorted ile l -> Sorted ile (num_insert x l).
Proof.
  intros A S. assert (Ax : exists k, x = NInt k) by (apply A; left; reflexivity). destruct Ax as [k ->].
  induction S as [|y l S IH H]; [repeat constructor|]. cbn [num_insert].
  assert (Ay : exists k', y = NInt k') by (apply A; right; left; reflexivity). destruct Ay as [k' ->]. rewrite leb_int. destruct (Z.leb_spec k k') as [L|L].
  - constructor; [constructor; assumption|]. constructor. unfold ile. rewrite leb_int. apply Z.leb_le. exact L.
  - constructor.
    + apply IH. intros c [<-|Hc]; apply A; [left; reflexivity|right; right; exact Hc].
    + assert (X : ile (NInt k') (NInt k)) by (unfold ile; rewrite leb_int; apply Z.leb_le; lia).
      destruct l as [|z l]; cbn [num_insert]; [constructor; exact X|]. destruct (num_leb (NInt k) z); constructor; [exact X|inversion H; assumption].
Qed.
Lemma sort_in l c : In c (num_sort l) <-> In c l.
Proof. split; intros H; eapply Permutation_in; try exact H; [apply num_sort_perm|symmetry; apply num_sort_perm]. Qed.
Lemma sort_sorted l : all_int l -> Sorted ile (num_sort l).
Proof.
  induction l as [|x l IH]; intros A; [constructor|]. cbn [num_sort fold_right]. change (fold_right num_insert [] l) with (num_sort l). apply insert_sorted.
  - intros c [<-|Hc]; [apply A; left; reflexivity|]. apply (proj1 (sort_in l c)) in Hc. apply A. right. exact Hc.
  - apply IH. intros c Hc. apply A. right. exact Hc.
Qed.
Lemma sorted_sort l : Sorted ile l -> num_sort l = l.
Proof.
  induction 1 as [|x l S IH H]; [reflexivity|]. cbn [num_sort fold_right]. change (fold_right num_insert [] l) with (num_sort l). rewrite IH.
  destruct l as [|y l]; [reflexivity|]. cbn [num_insert]. inversion H as [|b c HR]; subst. unfold ile in HR. rewrite HR. reflexivity.
Qed.
Lemma mapM_fix {A} (f : A -> outcome A) l : (forall x, In x l -> f x = Ok x) -> mapM f l = Ok l.
Proof. induction l as [|x l IH]; intros H; [reflexivity|]. cbn. rewrite H by (left; reflexivity). cbn. rewrite IH by (intros; apply H; right; assumption). reflexivity. Qed.
Lemma mapM_len {A B} (f : A -> outcome B) l l' : mapM f l = Ok l' -> length l' = length l.
Proof. revert l'; induction l as [|x r IH]; intros l' H; cbn in H; [apply Ok_inj in H; subst; reflexivity|]. destruct (f x); [|discriminate]. cbn in H. destruct (mapM f r) as [ys|]; [|discriminate]. cbn in H. apply Ok_inj in H. subst. cbn. rewrite (IH ys eq_refl). reflexivity. Qed.

(** What the constructor makes of the candidates in number mode. *)
Lemma cands_ok (u : unit_cfg) l cands :
  u_num u = true -> 0 < u_div u -> (u_div u | u_min u) \/ u_min u <= u_div u ->
  oneshot_unit_candidates u l = Ok cands ->
  cands <> [] /\ Sorted ile cands /\
  forall c, In c cands -> exists k, c = NInt k /\ (u_div u | k) /\ eff_min (Some (u_min u)) (u_div u) <= k.
Proof.
  intros Nm D M E. unfold oneshot_unit_candidates in E. set (l1 := match l with [] => _ | _ => l end) in E.
  assert (N1 : l1 <> []) by (subst l1; destruct l; discriminate).
  destruct (prepare_candidates u l1) as [cs|] eqn:Ep; [|discriminate]. cbn [bind] in E. unfold prepare_candidates in Ep.
  destruct (mapM (prepare_candidate u) l1) as [ys|] eqn:Em; [|discriminate]. cbn [bind] in Ep. apply Ok_inj in Ep. subst cs. apply Ok_inj in E.
  pose proof (mapM_len _ _ _ Em) as Ln.
  assert (Y : forall c, In c ys -> exists k, c = NInt k /\ (u_div u | k) /\ eff_min (Some (u_min u)) (u_div u) <= k).
  { intros c Hc. destruct (mapM_ok _ _ _ Em _ Hc) as (x & _ & Hx). unfold prepare_candidate in Hx. rewrite Nm in Hx. destruct x as [z|]; [|discriminate].
    destruct (u_make_divisible u z) as [k|] eqn:Ek; [|discriminate]. cbn in Hx. apply Ok_inj in Hx. exists k. split; [auto|]. exact (md_range _ _ _ _ _ D M Ek). }
  assert (AI : all_int ys) by (intros c Hc; destruct (Y c Hc) as (k & -> & _); eauto).
  assert (S1 : Sorted ile (num_sort ys)) by (apply sort_sorted; exact AI). unfold init_candidates in E. rewrite (sorted_sort _ S1) in E.
  assert (NE : num_sort ys <> []). { intros X. apply (f_equal (@length _)) in X. rewrite num_sort_length, Ln in X. destruct l1; [congruence|discriminate]. }
  destruct (num_sort ys) as [|a t] eqn:Es; [congruence|]. subst cands. split; [discriminate|]. split; [exact S1|].
  intros c Hc. apply Y. apply sort_in. rewrite Es. exact Hc.
Qed.
Lemma cands_again (u : unit_cfg) cands :
  u_num u = true -> 0 < u_div u -> (0 <= u_ratio u <= 1)%Q ->
  cands <> [] -> Sorted ile cands ->
  (forall c, In c cands -> exists k, c = NInt k /\ (u_div u | k) /\ eff_min (Some (u_min u)) (u_div u) <= k) ->
  oneshot_unit_candidates u cands = Ok cands.
Proof.
  intros Nm D R NE S C. unfold oneshot_unit_candidates. destruct cands as [|a t] eqn:Ec; [congruence|]. rewrite <- Ec in *.
  assert (E : prepare_candidates u cands = Ok cands).
  { unfold prepare_candidates. rewrite mapM_fix; [cbn [bind]; rewrite sorted_sort by exact S; reflexivity|]. intros x Hx. destruct (C x Hx) as (k & -> & D1 & L1).
    unfold prepare_candidate. rewrite Nm. unfold u_make_divisible. rewrite md_fix by assumption. reflexivity. }
  rewrite E. cbn [bind]. unfold init_candidates. rewrite (sorted_sort _ S). rewrite Ec. reflexivity.
Qed.

(** ** Mutators *)
Definition names (us : list munit) : list uname := map name_of us.
Lemma last_named_some us k i : last_named us k = Some i -> exists u, nth_error us i = Some u /\ name_of u = k.
Proof.
  revert i. induction us as [|u us IH]; intros i; cbn; [discriminate|]. destruct (last_named us k) as [j|].
  - intros H. inversion H; subst. cbn. apply IH. reflexivity.
  - destruct (uname_eqb (name_of u) k) eqn:E; [|discriminate]. intros H. inversion H; subst. apply uname_eqb_eq in E. exists u. auto.
Qed.
Lemma last_named_in us k : In k (names us) -> exists i, last_named us k = Some i.
Proof.
  induction us as [|u us IH]; cbn; intros H; [destruct H|]. destruct (last_named us k) as [j|] eqn:E; [eauto|]. destruct H as [<-|H]; [rewrite uname_eqb_refl; eauto|].
  destruct (IH H) as [i X]. congruence.
Qed.
Lemma upd_id {A} (l : list A) i x : nth_error l i = Some x -> upd l i x = l.
Proof.
  intros H. apply nth_ext with (d := x) (d' := x); [apply upd_length|]. intros j Lj. rewrite upd_length in Lj.
  destruct (Nat.eq_dec j i) as [->|D].
  - rewrite (nth_error_nth _ _ x (upd_same l i x Lj)). symmetry. apply nth_error_nth. exact H.
  - apply nth_error_nth. rewrite upd_other by auto. apply nth_error_nth'. exact Lj.
Qed.
Lemma Forall2_upd {A} (P : A -> A -> Prop) (l : list A) i x y :
  (forall z, P z z) -> nth_error l i = Some x -> P x y -> Forall2 P l (upd l i y).
Proof.
  intros Re. revert i. induction l as [|z l IH]; intros [|i] H Pxy; try discriminate.
  - cbn in H. inversion H; subst. unfold upd. cbn. constructor; [exact Pxy|]. clear -Re. induction l; constructor; auto.
  - cbn in H. assert (E : upd (z :: l) (S i) y = z :: upd l i y) by (unfold upd; cbn [firstn skipn length app]; change (Nat.ltb (S i) (S (length l))) with (Nat.ltb i (length l)); reflexivity).
    rewrite E. constructor; auto.
Qed.
Lemma same_names us us' : Forall2 same us us' -> names us' = names us.
Proof. unfold names. induction 1; cbn [map]; [reflexivity|]. rewrite (same_name _ _ H), IHForall2. reflexivity. Qed.
Lemma Forall2_same_trans a b c : Forall2 same a b -> Forall2 same b c -> Forall2 same a c.
Proof. intros H. revert c. induction H; intros c Hc; inversion Hc; subst; constructor; eauto using same_trans. Qed.
Lemma Forall2_same_refl us : Forall2 same us us.
Proof. induction us; constructor; auto using same_refl. Qed.

Lemma set_choices_inv cs : forall us us' r,
  Forall good us -> set_choices us cs = (us', r) -> Forall good us' /\ Forall2 same us us'.
Proof.
  induction cs as [|[k v] cs IH]; intros us us' r G E; cbn [set_choices] in E; [inversion E; subst; auto using Forall2_same_refl|].
  destruct (last_named us k) as [i|]; [|inversion E; subst; auto using Forall2_same_refl].
  destruct (nth_error us i) as [u|] eqn:En; [|inversion E; subst; auto using Forall2_same_refl].
  destruct (set_choice u v) as [u'|] eqn:Eu; [|inversion E; subst; auto using Forall2_same_refl].
  assert (Gu : good u) by (rewrite Forall_forall in G; apply G; eapply nth_error_In, En). destruct Gu as [ku Gu]. destruct (set_good u v u' (proj1 Gu) Eu) as [Su Gu'].
  assert (S1 : Forall2 same us (upd us i u')) by (eapply Forall2_upd; eauto using same_refl).
  assert (G1 : Forall good (upd us i u')).
  { rewrite Forall_forall in *. intros w Hw. apply In_nth_error in Hw. destruct Hw as [j Hj]. apply upd_inv in Hj. destruct Hj as [[_ ->]|[_ Hj]]; [exact Gu'|]. apply G. eapply nth_error_In, Hj. }
  destruct (IH _ _ _ G1 E) as [A B]. split; [exact A|]. eapply Forall2_same_trans; eauto.
Qed.

(** [choice_template] on units with distinct names. *)
Lemma template_from us f : forall d,
  NoDup (map fst d ++ names us) -> (forall u, In u us -> get_choice u = Ok (f u)) ->
  choice_template us d = Ok (d ++ map (fun u => (name_of u, f u)) us).
Proof.
  induction us as [|u us IH]; intros d N F; [cbn; rewrite app_nil_r; reflexivity|]. cbn [choice_template]. rewrite (F u) by (left; reflexivity). cbn [bind].
  assert (NI : ~ In (name_of u) (map fst d)). { cbn [names map] in N. apply NoDup_remove_2 in N. intros X. apply N, in_or_app. auto. }
  rewrite d_put_new by exact NI. rewrite IH; [rewrite <- app_assoc; reflexivity| |intros; apply F; right; assumption].
  rewrite map_app. cbn [map fst]. rewrite <- app_assoc. exact N.
Qed.
Lemma template_twice us f d : (forall u, In u us -> get_choice u = Ok (f u) /\ d_get d (name_of u) = Some (f u)) -> choice_template us d = Ok d.
Proof.
  induction us as [|u us IH]; intros F; [reflexivity|]. cbn [choice_template]. destruct (F u) as [A B]; [left; reflexivity|]. rewrite A. cbn [bind]. rewrite d_put_same by exact B. apply IH. intros; apply F; right; assumption.
Qed.
Lemma current_ok mi us f :
  NoDup (names us) -> (forall u, In u us -> get_choice u = Ok (f u)) ->
  current_choices mi us = Ok (map (fun u => (name_of u, f u)) (mutable_units mi us)).
Proof.
  intros N F. unfold current_choices. set (ms := mutable_units mi us).
  assert (Fm : forall u, In u ms -> get_choice u = Ok (f u)) by (intros u Hu; apply F; subst ms; apply filter_In in Hu; apply Hu).
  assert (Nm : NoDup (names ms)).
  { subst ms. unfold mutable_units, names in *. clear -N. induction us as [|u us IH]; [constructor|]. cbn in *. inversion N as [|a b A B]; subst. destruct (is_mutable mi u); [|auto]. cbn. constructor; [|auto].
    intros X. apply A. apply in_map_iff in X. destruct X as (w & W1 & W2). apply filter_In in W2. rewrite <- W1. apply in_map, W2. }
  rewrite (template_from ms f []) by assumption. cbn [bind app]. apply template_twice with f. intros u Hu. split; [auto|].
  apply d_get_nodup; [rewrite map_map; exact Nm|]. apply (in_map (fun u => (name_of u, f u))). exact Hu.
Qed.
