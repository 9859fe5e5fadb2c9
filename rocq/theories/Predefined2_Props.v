(** C115 - the units of a model prepared for pruning can be read back from its containers. *)
From Verif Require Import Prelude IndexDict_Model Container_Model Register_Model Register_Props Predefined_Model Predefined_Props.
From Verif Require Import UnionFind_Model ChannelGraph_Model ChannelGraph_Props ChannelGraph2_Props ChannelGraph3_Props ChannelGraph4_Props ChannelGraph5_Props Register2_Props.

(** ** Specification *)
(** What [named_modules] shows of the prepared model: the dynamic modules called [names]; the
    mutable of unit [u] is [u].  (A slot filled in by the container itself has no unit; there is
    none before a mask is read.) *)
Definition seen (st : rstate) (v : slot) : pent :=
  match v with
  | Reg id => match nth_error (rs_made st) id with
              | Some {| md_unit := u; md_ratio := RSame |} => PMut u
              | Some {| md_unit := u |} => PDer [u]
              | None => PDer []
              end
  | Filled _ => PDer []
  end.
Definition seen_side (st : rstate) (m : nat) (io : bool) : option (idict pent) :=
  option_map (fun k => map (fun kv => (fst kv, seen st (snd kv))) (slots k)) (rs_cont st m io).
Definition seen_model (st : rstate) (names : list nat) : list pmod :=
  map (fun m => {| pm_name := m; pm_in := seen_side st m false; pm_out := seen_side st m true |}) names.
Definition own_width (us : list runit) (u : nat) : outcome Z :=
  match nth_error us u with Some x => Ok (ru_n x) | None => Raise AttributeError end.

(** ** Theorem *)
Lemma seen_side_of st m io names : In m names -> forall pm, In pm (seen_model st names) -> pm_name pm = m -> mod_side pm io = seen_side st m io.
Proof.
  intros _ pm H E. unfold seen_model in H. apply in_map_iff in H. destruct H as (m' & <- & _). cbn in E. subst m'. destruct io; reflexivity.
Qed.
Theorem C115_read_back mods us names :
  tidy mods us -> (forall m, In m names -> mods m <> None) ->
  exists st us', prepare_units mods us = Ok st /\
    init_from_predefined_model (own_width us) (seen_model st names) = Ok us' /\ NoDup (map pu_id us') /\
    (forall x, In x us' -> NoDup (pu_in x) /\ NoDup (pu_out x) /\ sides_right x /\ own_width us (pu_id x) = Ok (pu_n x)) /\
    (forall u c, (exists x, In x us' /\ pu_id x = u /\ lists x c) <-> (exists n, member us u n c /\ In (rc_mod c) names)).
Proof.
  intros T HN. destruct (C113_registered mods us T) as (st & E & G). exists st.
  assert (HOLD : forall c x, holds (seen_model st names) c x <-> In (rc_mod c) names /\ exists k v, rs_cont st (rc_mod c) (rc_out c) = Some k /\ In ((rc_start c, rc_end c), v) (slots k) /\ x = seen st v).
  { intros c x. split.
    - intros (pm & d & Hm & Hn & Hd & Hx). assert (Hin : In (rc_mod c) names) by (unfold seen_model in Hm; apply in_map_iff in Hm; destruct Hm as (m' & <- & H); cbn in Hn; subst; exact H).
      split; [exact Hin|]. rewrite (seen_side_of st _ _ names Hin pm Hm Hn) in Hd. unfold seen_side in Hd. destruct (rs_cont st (rc_mod c) (rc_out c)) as [k|]; [|discriminate]. cbn in Hd. injection Hd as <-. apply in_map_iff in Hx. destruct Hx as ([rg v] & Heq & Hv). cbn in Heq. injection Heq as -> <-. exists k, v. auto.
    - intros (Hin & k & v & Hk & Hv & ->). exists {| pm_name := rc_mod c; pm_in := seen_side st (rc_mod c) false; pm_out := seen_side st (rc_mod c) true |}.
      exists (map (fun kv => (fst kv, seen st (snd kv))) (slots k)). split; [unfold seen_model; apply in_map_iff; exists (rc_mod c); auto|]. split; [reflexivity|]. split.
      + destruct (rc_out c) eqn:Eo; cbn; unfold seen_side; rewrite Hk; reflexivity.
      + apply in_map_iff. exists ((rc_start c, rc_end c), v). auto. }
  assert (ENT : forall c x, holds (seen_model st names) c x -> exists u n, stands x u /\ member us u n c).
  { intros c x H. apply HOLD in H. destruct H as (Hin & k & v & Hk & Hv & ->). destruct (mods (rc_mod c)) as [wh|] eqn:Em; [|destruct (HN _ Hin Em)].
    destruct (G (rc_mod c) (rc_out c) wh Em) as (k' & Hk' & _ & _ & Sl). rewrite Hk in Hk'. injection Hk' as <-. destruct (Sl _ _ _ Hv) as (u & n & c' & id & r & M & [O1 O2] & S1 & S2 & -> & Nd & _).
    exists u, n. assert (c' = c) as -> by (destruct c, c'; cbn in *; congruence). split; [|exact M]. cbn [seen]. rewrite Nd. unfold stands. destruct r; auto. }
  assert (MEM : forall u n c, member us u n c -> own_width us u = Ok n) by (intros u n c (x & Hx & -> & _); unfold own_width; rewrite Hx; reflexivity).
  destruct (C114_units (own_width us) (seen_model st names)) as [S U].
  assert (X : exists us', init_from_predefined_model (own_width us) (seen_model st names) = Ok us').
  { apply S. split.
    - intros pm io Hm. unfold seen_model in Hm. apply in_map_iff in Hm. destruct Hm as (m & <- & Hin). destruct (mods m) as [wh|] eqn:Em; [|destruct (HN m Hin Em)]. destruct (G m io wh Em) as (k & Hk & _). destruct io; cbn; unfold seen_side; rewrite Hk; discriminate.
    - intros c x H. destruct (ENT c x H) as (u & n & St & M). exists u, n. split; [exact St|exact (MEM _ _ _ M)]. }
  destruct X as (us' & EU). exists us'. split; [exact E|]. split; [exact EU|]. destruct (U us' EU) as (A & B & L). split; [exact A|]. split; [intros x Hx; destruct (B x Hx) as (B1 & B2 & B3 & B4 & _); auto|].
  intros u c. rewrite L. split.
  - intros (x & Hx & Sx). destruct (ENT c x Hx) as (u' & n & St & M). assert (u' = u) as -> by (apply source_iff in St, Sx; congruence). exists n. split; [exact M|]. apply HOLD in Hx. exact (proj1 Hx).
  - intros (n & M & Hin). destruct (mods (rc_mod c)) as [wh|] eqn:Em; [|destruct (HN _ Hin Em)]. destruct (G (rc_mod c) (rc_out c) wh Em) as (k & Hk & _ & Done & Sl). destruct (Done u n c M (conj eq_refl eq_refl)) as (id & Hid).
    exists (seen st (Reg id)). split; [apply HOLD; split; [exact Hin|]; exists k, (Reg id); auto|].
    destruct (Sl _ _ _ Hid) as (u' & n' & c' & id' & r & M' & [O1 O2] & S1 & S2 & Ei & Nd & _). injection Ei as <-. assert (c' = c) as -> by (destruct c, c'; cbn in *; congruence).
    assert (u' = u) as ->. { pose proof (td_size _ _ T u n c M) as W. destruct (td_once _ _ T u' n' c u n c (rc_start c) M' M) as [-> _]; [congruence|reflexivity|reflexivity| | |reflexivity]; unfold within; assert (mods (rc_mod c) <> None) by congruence; specialize (W H); lia. }
    cbn [seen]. rewrite Nd. unfold stands. destruct r; auto.
Qed.
Print Assumptions C115_read_back.

(** For the units of a channel graph. *)
Corollary C115_graph hash g W numin names s st units mods dyn :
  well_formed g -> counts g W -> length names = length g -> dynamic_ok g W names mods ->
  forward g numin = Ok s -> few_channels g W s -> generate_units_config hash names s (g_start s) = Ok (st, units) ->
  (forall m, In m dyn -> mods m <> None) ->
  exists rst us', prepare_units mods (map to_unit units) = Ok rst /\
    init_from_predefined_model (own_width (map to_unit units)) (seen_model rst dyn) = Ok us' /\ NoDup (map pu_id us') /\
    (forall u c, (exists x, In x us' /\ pu_id x = u /\ lists x c) <->
       (exists h n v, nth_error units u = Some (h, (n, v)) /\ In (rc_mod c) dyn /\ In (rc_mod c, (rc_start c, rc_end c)) (if rc_out c then u_out v else u_in v))).
Proof.
  intros wf HW HL HD HF HC EG HN. destruct (C113_graph hash g W numin names s st units mods wf HW HL HD HF HC EG) as [T _].
  destruct (C115_read_back mods (map to_unit units) dyn T HN) as (rst & us' & E & EU & N & _ & L). exists rst, us'. split; [exact E|]. split; [exact EU|]. split; [exact N|].
  intros u c. rewrite L. unfold member. split.
  - intros (n & (x & Hx & -> & Hc) & Hin). rewrite nth_error_map in Hx. destruct (nth_error units u) as [[h [n v]]|] eqn:En; [|discriminate]. cbn in Hx. injection Hx as <-. exists h, n, v. split; [first [reflexivity|exact En]|]. split; [exact Hin|].
    cbn in Hc. apply in_app_iff in Hc. destruct Hc as [Hc|Hc]; apply in_map_iff in Hc; destruct Hc as ([nm [a b]] & <- & Hc); cbn; exact Hc.
  - intros (h & n & v & En & Hin & Hc). exists n. split; [|exact Hin]. exists (to_unit (h, (n, v))). rewrite nth_error_map, En. split; [reflexivity|]. split; [reflexivity|]. cbn [to_unit ru_chans snd fst]. apply in_app_iff. destruct c as [nm io a b]. cbn in Hc.
    destruct io; [right|left]; apply in_map_iff; exists (nm, (a, b)); auto.
Qed.
Print Assumptions C115_graph.

(** The convolutions and the linear layer of the network of C100: two units with dynamic channels,
    read back with the channels they were registered with. *)
Example C115_case : exists s st units rst us',
  forward ex_aligned 3 = Ok s /\ generate_units_config ihash (map c_name ex_aligned) s (g_start s) = Ok (st, units) /\
  prepare_units ex_dyn (map to_unit units) = Ok rst /\
  init_from_predefined_model (own_width (map to_unit units)) (seen_model rst [1; 4; 6; 7]%nat) = Ok us' /\
  map (fun x => (pu_id x, length (pu_in x), length (pu_out x))) us' = [(0, 1, 0); (1, 3, 3); (4, 0, 1)]%nat.
Proof.
  destruct C100_case as (_ & _ & _ & _ & s & st & units & E & _ & EG & EU). exists s, st, units.
  assert (X : exists l, map to_unit units = l /\ l = map (fun hu : Z * list cfg * list cfg => {| ru_n := fst (fst hu); ru_chans := map (to_chan false) (snd (fst hu)) ++ map (to_chan true) (snd hu) |})
      [(3%Z, [e_ 0 0 3; e_ 1 0 3], [e_ 0 0 3]);
       (4%Z, [e_ 3 0 4; e_ 4 0 4; e_ 6 0 4; e_ 7 0 4], [e_ 1 0 4; e_ 3 0 4; e_ 4 0 4; e_ 6 0 4]);
       (1%Z, [], [e_ 5 0 1]); (1%Z, [e_ 5 0 1], []); (1%Z, [e_ 8 0 1], [e_ 7 0 2; e_ 8 0 1])]).
  { eexists. split; [reflexivity|]. rewrite <- EU, map_map. reflexivity. }
  destruct X as (l & -> & ->). eexists. eexists. split; [exact E|]. split; [exact EG|]. split; [vm_compute; reflexivity|]. split; [vm_compute; reflexivity|]. reflexivity.
Qed.
