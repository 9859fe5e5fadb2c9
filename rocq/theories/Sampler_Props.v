(** C23. *)
From Verif Require Import Prelude Candidates_Model Candidates_Props Sampler_Model.
From Coq Require Import Permutation Lqa.

(** Probability schedule: within the band, at the ends of the schedule exactly init / max. *)
Definition schedule_ok (f : Z -> outcome Q) (c : sconf) : Prop :=
  (forall i, exists p, f i = Ok p /\ (init_prob c <= p /\ p <= max_prob c)%Q) /\
  (exists p, f (start_iter c) = Ok p /\ (p == init_prob c)%Q) /\
  (exists p, f (end_iter c) = Ok p /\ (p == max_prob c)%Q).
Definition valid_conf (c : sconf) : Prop :=
  start_iter c <= end_iter c /\ (0 <= init_prob c /\ init_prob c <= max_prob c /\ max_prob c <= 1)%Q.
Definition C23_claim_schedule (cospi : Q -> Q) : Prop :=
  forall c, valid_conf c -> schedule_ok (update_cur_prob cospi c) c.

(** For every function in the role of cos: the linear schedule starts at 0 instead of init_prob. *)
Theorem C23_linear_refuted : forall cospi, ~ C23_claim_schedule cospi.
Proof.
  intros cospi H.
  destruct (H {| sched := Linear; start_iter := 0; end_iter := 10; init_prob := 1#5; max_prob := 4#5 |}) as (_ & (p & Hp & He) & _).
  - split; [cbn; lia|]. cbn. repeat split; unfold Qle; cbn; lia.
  - cbn in Hp. apply Ok_inj in Hp. subst p. vm_compute in He. discriminate.
Qed.
Print Assumptions C23_linear_refuted.
(** The cosine schedule decreases from 1 to init_prob: it never ends at max_prob unless
    init_prob = max_prob, and starts above max_prob unless max_prob = 1. *)
Theorem C23_consine_refuted :
  forall cospi, (forall x, (x == 0 -> cospi x == 1)%Q) -> (forall x, (x == 1 -> cospi x == -1)%Q) ->
  forall c, sched c = Consine -> start_iter c < end_iter c ->
  (exists p, update_cur_prob cospi c (start_iter c) = Ok p /\ (p == 1)%Q) /\
  (exists p, update_cur_prob cospi c (end_iter c) = Ok p /\ (p == init_prob c)%Q) /\
  ((init_prob c < max_prob c)%Q -> ~ schedule_ok (update_cur_prob cospi c) c).
Proof.
  intros cospi H0 H1 c Hs Hlt.
  assert (A : exists p, update_cur_prob cospi c (start_iter c) = Ok p /\ (p == 1)%Q).
  { unfold update_cur_prob. destruct (Z.ltb_spec (end_iter c) (start_iter c)); [lia|]. rewrite Z.ltb_irrefl.
    destruct (Z.eqb_spec (end_iter c - start_iter c) 0); [lia|]. rewrite Hs. eexists. split; [reflexivity|].
    rewrite Z.sub_diag. rewrite H0; [ring|]. unfold Qdiv. ring. }
  assert (B : exists p, update_cur_prob cospi c (end_iter c) = Ok p /\ (p == init_prob c)%Q).
  { unfold update_cur_prob. rewrite Z.ltb_irrefl. destruct (Z.ltb_spec (end_iter c) (start_iter c)); [lia|].
    destruct (Z.eqb_spec (end_iter c - start_iter c) 0); [lia|]. rewrite Hs. eexists. split; [reflexivity|].
    rewrite H1; [ring|]. field. intros Hc. unfold Qeq in Hc. cbn in Hc. lia. }
  split; [exact A|]. split; [exact B|]. intros Hm (_ & _ & (p & Hp & He)).
  destruct B as (p' & Hp' & He'). rewrite Hp in Hp'. apply Ok_inj in Hp'. subst p'.
  rewrite He in He'. rewrite He' in Hm. apply Qlt_irrefl in Hm. exact Hm.
Qed.
Print Assumptions C23_consine_refuted.
(** A schedule of length zero divides by zero. *)
Theorem C23_zero_length_refuted :
  forall cospi c, start_iter c = end_iter c -> update_cur_prob cospi c (start_iter c) = Raise ZeroDivisionError.
Proof.
  intros cospi c H. unfold update_cur_prob. rewrite <- H, Z.ltb_irrefl, Z.sub_diag. reflexivity.
Qed.
Print Assumptions C23_zero_length_refuted.
(** The linear schedule is right when init_prob is 0, and non-decreasing. *)
Theorem C23_linear_partial :
  forall cospi c, valid_conf c -> sched c = Linear -> start_iter c < end_iter c -> (init_prob c == 0)%Q ->
  schedule_ok (update_cur_prob cospi c) c /\
  (forall i j p q, i <= j -> update_cur_prob cospi c i = Ok p -> update_cur_prob cospi c j = Ok q -> (p <= q)%Q).
Proof.
  intros cospi c (Hv1 & Hv2 & Hv3 & Hv4) Hs Hlt H0.
  set (all := end_iter c - start_iter c). assert (Hall : 0 < all) by (unfold all; lia).
  set (m := max_prob c). set (i0 := init_prob c) in *.
  assert (Hm : (0 <= m)%Q) by (unfold m; rewrite <- H0; exact Hv3).
  assert (Hq : (0 < inject_Z all)%Q) by (unfold Qlt; cbn; lia).
  assert (Hin : forall i, start_iter c <= i <= end_iter c ->
    update_cur_prob cospi c i = Ok ((m - i0) / inject_Z all * inject_Z (i - start_iter c))%Q).
  { intros i Hi. unfold update_cur_prob. destruct (Z.ltb_spec (end_iter c) i); [lia|]. destruct (Z.ltb_spec i (start_iter c)); [lia|].
    fold all. destruct (Z.eqb_spec all 0); [lia|]. rewrite Hs. reflexivity. }
  assert (Hd : (0 <= (m - i0) / inject_Z all)%Q).
  { apply Qle_shift_div_l; [exact Hq|]. rewrite Qmult_0_l. lra. }
  assert (Hend : ((m - i0) / inject_Z all * inject_Z all == m)%Q).
  { rewrite Qmult_comm, Qmult_div_r by lra. lra. }
  assert (Hmon : forall a b, a <= b -> ((m - i0) / inject_Z all * inject_Z a <= (m - i0) / inject_Z all * inject_Z b)%Q).
  { intros a b Hab. rewrite !(Qmult_comm ((m - i0) / inject_Z all)). apply Qmult_le_compat_r; [|exact Hd]. rewrite <- Zle_Qle. exact Hab. }
  assert (Hband : forall i, start_iter c <= i <= end_iter c ->
    (i0 <= (m - i0) / inject_Z all * inject_Z (i - start_iter c) /\ (m - i0) / inject_Z all * inject_Z (i - start_iter c) <= m)%Q).
  { intros i Hi. pose proof (Hmon 0 (i - start_iter c) ltac:(lia)) as M1. pose proof (Hmon (i - start_iter c) all ltac:(unfold all; lia)) as M2.
    assert (Hz : ((m - i0) / inject_Z all * inject_Z 0 == 0)%Q) by (cbn; ring). split; lra. }
  split.
  - split; [|split].
    + intros i. destruct (Z_lt_le_dec (end_iter c) i) as [H|H].
      * exists m. unfold update_cur_prob. rewrite (proj2 (Z.ltb_lt _ _) H). split; [reflexivity|]. fold i0 m. lra.
      * destruct (Z_lt_le_dec i (start_iter c)) as [H'|H'].
        -- exists i0. unfold update_cur_prob. destruct (Z.ltb_spec (end_iter c) i); [lia|]. rewrite (proj2 (Z.ltb_lt _ _) H').
           split; [reflexivity|]. fold i0 m. lra.
        -- eexists. split; [apply Hin; lia|]. apply Hband. lia.
    + eexists. split; [apply Hin; lia|]. rewrite Z.sub_diag. fold i0. rewrite H0. ring.
    + eexists. split; [apply Hin; lia|]. fold all m. exact Hend.
  - intros i j p q Hij Hp Hqq.
    destruct (Z_lt_le_dec (end_iter c) i) as [H|H].
    + unfold update_cur_prob in Hp, Hqq. rewrite (proj2 (Z.ltb_lt _ _) H) in Hp. destruct (Z.ltb_spec (end_iter c) j); [|lia].
      apply Ok_inj in Hp. apply Ok_inj in Hqq. subst. apply Qle_refl.
    + destruct (Z_lt_le_dec i (start_iter c)) as [H'|H'].
      * unfold update_cur_prob in Hp. destruct (Z.ltb_spec (end_iter c) i); [lia|]. rewrite (proj2 (Z.ltb_lt _ _) H') in Hp.
        apply Ok_inj in Hp. subst p. fold i0.
        destruct (Z_lt_le_dec (end_iter c) j) as [G|G].
        -- unfold update_cur_prob in Hqq. rewrite (proj2 (Z.ltb_lt _ _) G) in Hqq. apply Ok_inj in Hqq. subst q. exact Hv3.
        -- destruct (Z_lt_le_dec j (start_iter c)) as [G'|G'].
           ++ unfold update_cur_prob in Hqq. destruct (Z.ltb_spec (end_iter c) j); [lia|]. rewrite (proj2 (Z.ltb_lt _ _) G') in Hqq.
              apply Ok_inj in Hqq. subst q. apply Qle_refl.
           ++ rewrite Hin in Hqq by lia. apply Ok_inj in Hqq. subst q. apply Hband. lia.
      * rewrite Hin in Hp by lia. apply Ok_inj in Hp. subst p.
        destruct (Z_lt_le_dec (end_iter c) j) as [G|G].
        -- unfold update_cur_prob in Hqq. rewrite (proj2 (Z.ltb_lt _ _) G) in Hqq. apply Ok_inj in Hqq. subst q. apply Hband. lia.
        -- rewrite Hin in Hqq by lia. apply Ok_inj in Hqq. subst q. apply Hmon. lia.
Qed.
Print Assumptions C23_linear_partial.
Example C23_example :
  let c := {| sched := Linear; start_iter := 10; end_iter := 20; init_prob := 0; max_prob := 4#5 |} in
  valid_conf c /\ exists p, update_cur_prob (fun x => x) c 15 = Ok p /\ (p == 2#5)%Q.
Proof.
  split; [split; [cbn; lia|]; repeat split; unfold Qle; cbn; lia|]. eexists. split; [reflexivity|]. reflexivity.
Qed.

(** Consumption of the pool.  Claim: two consecutive calls without a refill in between use
    up two entries of the top set (the docstring: "Pop from the top_k_candidates one by one"). *)
Definition C23_claim_pop : Prop :=
  forall (net : Type) n k (ev : nat -> net -> Q) it x y s a s1 b s2,
    sample_subnet n k ev it x s = Ok (a, s1) -> sample_subnet n k ev (S it) y s1 = Ok (b, s2) ->
    (2 <= length (p_top s1))%nat -> nth_error (map fst (p_top s1)) 1 = Some b \/ (length (p_top s2) < length (p_top s1))%nat.
Theorem C23_pop_refuted : ~ C23_claim_pop.
Proof.
  intros H. specialize (H Z 5%nat 2%nat (fun _ z => inject_Z z) 0%nat [7; 8] [9] {| p_cands := []; p_top := [] |} 8 _ 8 _ eq_refl eq_refl).
  cbn in H. destruct H as [H|H]; [lia|discriminate|lia].
Qed.
Print Assumptions C23_pop_refuted.
(** Once filled, the top set is never refreshed: every later iteration trains the same
    subnet. *)
Theorem C23_pop_partial :
  forall (net : Type) n k (ev : nat -> net -> Q) it x s a s1 samples,
    sample_subnet n k ev it x s = Ok (a, s1) ->
    sample_run n k ev it (x :: samples) s = Ok (repeat a (S (length samples)), s1).
Proof.
  intros net n k ev it x s a s1 samples H.
  assert (Htop : exists e r, p_top s1 = e :: r /\ fst e = a).
  { unfold sample_subnet in H. match type of H with bind ?m _ = _ => destruct m as [s'|] end; cbn in H; [|discriminate].
    destruct (p_top s') as [|e r] eqn:E; [discriminate|]. inversion H; subst. eauto. }
  destruct Htop as (e & r & Ht & He).
  assert (R : sample_run n k ev (S it) samples s1 = Ok (repeat a (length samples), s1)).
  2:{ cbn [sample_run]. rewrite H. cbn [bind fst snd]. rewrite R. reflexivity. }
  clear H. generalize (S it) as i. induction samples as [|y ys IH]; intros i; [reflexivity|].
  cbn [sample_run length repeat]. unfold sample_subnet at 1. rewrite Ht. cbn [bind]. rewrite Ht. cbn [bind fst snd]. rewrite He.
  rewrite IH. reflexivity.
Qed.
Print Assumptions C23_pop_partial.
(** When the top set is empty it is refilled with the best subnets known. *)
Theorem C23_refill :
  forall (net : Type) n k (ev : nat -> net -> Q) it x s a s1,
    p_top s = [] -> (1 <= k <= n)%nat -> sample_subnet n k ev it x s = Ok (a, s1) ->
    In a (map fst (p_cands s) ++ x) /\
    (forall b, In b (map fst (p_cands s) ++ x) -> (ev it b <= ev it a)%Q) /\ (length (p_cands s1) <= n)%nat /\
    p_top s1 = firstn k (p_cands s1) /\
    exists rest, Permutation (p_cands s1 ++ rest) (map (fun b => (b, ev it b)) (map fst (p_cands s) ++ x)) /\
      forall e b, In e (p_cands s1) -> In b rest -> (snd b <= snd e)%Q.
Proof.
  intros net n k ev it x s a s1 Ht Hk H. unfold sample_subnet in H. rewrite Ht in H.
  destruct (map fst (p_cands s) ++ x) as [|z zs] eqn:Ea; [discriminate|]. rewrite <- Ea in *. clear Ea z zs.
  set (all := map fst (p_cands s) ++ x) in *.
  set (before := fun p q : net * Q => negb (Qle_bool (snd p) (snd q))) in *.
  set (sorted := stable_sort before (map (fun n0 => (n0, ev it n0)) all)) in *.
  cbn [bind p_top p_cands] in H.
  destruct sorted as [|e r] eqn:Es; [destruct n, k; cbn in H; discriminate|].
  destruct n as [|n]; [lia|]. destruct k as [|k]; [lia|]. cbn in H. inversion H; subst.
  assert (Hp : Permutation (e :: r) (map (fun n0 => (n0, ev it n0)) all)) by (rewrite <- Es; apply stable_perm).
  assert (Hin : In e (map (fun n0 => (n0, ev it n0)) all)) by (apply (Permutation_in _ Hp); left; reflexivity).
  apply in_map_iff in Hin as (n0 & He & Hn0). subst e. cbn [fst]. split; [exact Hn0|].
  split.
  - intros b Hb. assert (Hs : Sorted.StronglySorted (fun p q : net * Q => (snd q <= snd p)%Q) ((n0, ev it n0) :: r)).
    { rewrite <- Es. apply stable_sorted.
      - intros p q Hq. apply negb_true_iff in Hq. apply Qle_bool_false. exact Hq.
      - intros p q Hq. apply negb_false_iff in Hq. apply Qle_bool_iff. exact Hq.
      - intros p q w H1 H2. eapply Qle_trans; eassumption. }
    inversion Hs as [|? ? _ Hf]; subst. rewrite Forall_forall in Hf.
    assert (Hb' : In (b, ev it b) ((n0, ev it n0) :: r)).
    { apply (Permutation_in _ (Permutation_sym Hp)). apply in_map_iff. eauto. }
    destruct Hb' as [Hb'|Hb']; [inversion Hb'; subst; apply Qle_refl|]. apply (Hf (b, ev it b) Hb').
  - cbn [p_cands p_top length firstn]. split; [apply le_n_S, firstn_le_length|]. split; [reflexivity|].
    exists (skipn n r). split.
    + cbn [app]. rewrite firstn_skipn. exact Hp.
    + assert (Hs : Sorted.StronglySorted (fun p q : net * Q => (snd q <= snd p)%Q) ((n0, ev it n0) :: r)).
      { rewrite <- Es. apply stable_sorted.
        - intros p q Hq. apply negb_true_iff in Hq. apply Qle_bool_false. exact Hq.
        - intros p q Hq. apply negb_false_iff in Hq. apply Qle_bool_iff. exact Hq.
        - intros p q w H1 H2. eapply Qle_trans; eassumption. }
      change ((n0, ev it n0) :: r) with (firstn (S n) ((n0, ev it n0) :: r) ++ skipn n r) in Hs || idtac.
      intros e b He Hb. pose proof (firstn_skipn (S n) ((n0, ev it n0) :: r)) as Hsplit. cbn [firstn skipn] in Hsplit.
      rewrite <- Hsplit in Hs. clear - Hs He Hb. revert Hs He. generalize ((n0, ev it n0) :: firstn n r) as l.
      induction l as [|y l IH]; intros Hs [].
      * subst y. cbn in Hs. inversion Hs as [|? ? _ Hf]; subst. rewrite Forall_forall in Hf. apply Hf. apply in_or_app. auto.
      * apply IH; [|assumption]. cbn in Hs. inversion Hs; assumption.
Qed.
Print Assumptions C23_refill.
Example C23_refill_example :
  sample_subnet 5 2 (fun _ z => inject_Z z) 0 [7; 9; 8] {| p_cands := [(3, 0%Q)]; p_top := [] |} =
  Ok (9, {| p_cands := [(9, 9%Q); (8, 8%Q); (7, 7%Q); (3, 3%Q)]; p_top := [(9, 9%Q); (8, 8%Q)] |}).
Proof. reflexivity. Qed.
