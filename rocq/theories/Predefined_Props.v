(** C114 - the units of a model with predefined dynamic ops. *)
From Coq Require Import Permutation.
From Verif Require Import Prelude IndexDict_Model IndexDict_Lemmas Register_Model Predefined_Model.

(** ** Specification *)
(** The range of [c] holds [x]. *)
Definition holds (ms : list pmod) (c : rchan) (x : pent) : Prop :=
  exists m d, In m ms /\ pm_name m = rc_mod c /\ mod_side m (rc_out c) = Some d /\ In ((rc_start c, rc_end c), x) d.
(** [x] is, or is derived from, the mutable [id] alone. *)
Definition stands (x : pent) (id : nat) : Prop := x = PMut id \/ x = PDer [id].
(** Unit [u] lists the channel [c] on its side. *)
Definition lists (u : punit) (c : rchan) : Prop := In c (if rc_out c then pu_out u else pu_in u).
Definition sides_right (u : punit) : Prop :=
  (forall c, In c (pu_in u) -> rc_out c = false) /\ (forall c, In c (pu_out u) -> rc_out c = true).
(** Module names are distinct, and so are the ranges of a container. *)
Definition plain (ms : list pmod) : Prop :=
  NoDup (map pm_name ms) /\ forall m io d, In m ms -> mod_side m io = Some d -> NoDup (keys d).
(** Preparing a model whose containers are filled changes none of them. *)
Definition C114_prepared_claim : Prop :=
  forall make ms us, plain ms -> (forall id n, make id = Ok n -> 0 < n) ->
    init_from_predefined_model make ms = Ok us ->
    prepare_predefined ms (set_predefined (Some true) us) = Ok ms.
(** unit_predefined reaches every unit. *)
Definition C114_flag_claim : Prop :=
  forall us u b, In (u, b) (set_predefined (Some true) us) -> b = true.

(** ** Proof *)
Lemma rchan_eqb_iff a b : rchan_eqb a b = true <-> a = b.
Proof.
  unfold rchan_eqb. rewrite !andb_true_iff, Nat.eqb_eq, Bool.eqb_true_iff, !Z.eqb_eq. destruct a, b; cbn. split; [intros [[[-> ->] ->] ->]; reflexivity|intros [= -> -> -> ->]; auto].
Qed.
Lemma in_related l c c' : In c' (add_related l c) <-> In c' l \/ c' = c.
Proof.
  unfold add_related. destruct (existsb (rchan_eqb c) l) eqn:E.
  - apply existsb_exists in E. destruct E as (x & Hx & Ex). apply rchan_eqb_iff in Ex. subst x. split; [auto|intros [H| ->]; assumption].
  - rewrite in_app_iff. cbn. intuition auto.
Qed.
Lemma nodup_related l c : NoDup l -> NoDup (add_related l c).
Proof.
  intros H. unfold add_related. destruct (existsb (rchan_eqb c) l) eqn:E; [exact H|].
  assert (~ In c l). { intros Hc. assert (existsb (rchan_eqb c) l = true); [|congruence]. apply existsb_exists. exists c. split; [exact Hc|]. apply rchan_eqb_iff. reflexivity. }
  clear E. induction l as [|x l IH]; cbn; [constructor; [intros []|constructor]|]. inversion H as [|? ? N ND]; subst. constructor.
  - rewrite in_app_iff. cbn. intros [K|[K|[]]]; [exact (N K)|subst; apply H0; left; reflexivity].
  - apply IH; [exact ND|]. intros K. apply H0. right. exact K.
Qed.

Section Units.
Variable make : nat -> outcome Z.
Record uinv (done : list (nat * rchan)) (us : list punit) : Prop := {
  ui_ids : NoDup (map pu_id us);
  ui_unit : forall u, In u us -> make (pu_id u) = Ok (pu_n u) /\ NoDup (pu_in u) /\ NoDup (pu_out u) /\ sides_right u /\ exists c, lists u c;
  ui_list : forall id c, (exists u, In u us /\ pu_id u = id /\ lists u c) <-> In (id, c) done }.

Lemma lists_add u c c' : lists (unit_add u c) c' <-> lists u c' \/ c' = c.
Proof.
  unfold lists, unit_add. destruct (rc_out c) eqn:E, (rc_out c') eqn:E'; cbn; rewrite ?in_related; intuition (try congruence).
Qed.
Lemma add_id u c : pu_id (unit_add u c) = pu_id u /\ pu_n (unit_add u c) = pu_n u.
Proof. unfold unit_add. destruct (rc_out c); split; reflexivity. Qed.
Lemma add_sides u c : sides_right u -> sides_right (unit_add u c).
Proof.
  intros [A B]. unfold unit_add. destruct (rc_out c) eqn:E; split; cbn; intros c' H; try (apply in_related in H; destruct H as [H| ->]); auto.
Qed.
Lemma add_nodup u c : NoDup (pu_in u) -> NoDup (pu_out u) -> NoDup (pu_in (unit_add u c)) /\ NoDup (pu_out (unit_add u c)).
Proof. intros A B. unfold unit_add. destruct (rc_out c); cbn; split; auto using nodup_related. Qed.

Lemma put_ok us id c n : make id = Ok n -> exists us', put_channel make us id c = Ok us'.
Proof.
  intros H. induction us as [|u r [r' IH]]; cbn [put_channel]; [rewrite H; eexists; reflexivity|]. destruct (Nat.eqb (pu_id u) id); [eexists; reflexivity|]. rewrite IH. eexists; reflexivity.
Qed.
Lemma put_fails us id c e : make id = Raise e -> (forall u, In u us -> make (pu_id u) = Ok (pu_n u)) -> put_channel make us id c = Raise e.
Proof.
  intros H. induction us as [|u r IH]; intros K; cbn [put_channel]; [rewrite H; reflexivity|]. destruct (Nat.eqb (pu_id u) id) eqn:E.
  - apply Nat.eqb_eq in E. specialize (K u (or_introl eq_refl)). rewrite E in K. congruence.
  - rewrite IH; [reflexivity|]. intros u' Hu. apply K. right. exact Hu.
Qed.
Lemma put_shape : forall us id c us', put_channel make us id c = Ok us' ->
  (exists a u b, us = a ++ u :: b /\ us' = a ++ unit_add u c :: b /\ pu_id u = id /\ ~ In id (map pu_id a)) \/
  (exists n, ~ In id (map pu_id us) /\ make id = Ok n /\ us' = us ++ [unit_add {| pu_id := id; pu_n := n; pu_in := []; pu_out := [] |} c]).
Proof.
  induction us as [|u r IH]; intros id c us' H; cbn [put_channel] in H.
  - destruct (make id) as [n|] eqn:E; [|discriminate]. apply Ok_inj in H. subst us'. right. exists n. split; [intros []|]. split; [first [reflexivity|exact E]|reflexivity].
  - destruct (Nat.eqb (pu_id u) id) eqn:E.
    + apply Ok_inj in H. subst us'. left. exists [], u, r. apply Nat.eqb_eq in E. repeat split; auto.
    + destruct (put_channel make r id c) as [r'|] eqn:E1; [|discriminate]. apply Ok_inj in H. subst us'. apply Nat.eqb_neq in E. destruct (IH id c r' E1) as [(a & v & b & -> & -> & Hi & N)|(n & N & M & ->)].
      * left. exists (u :: a), v, b. repeat split; auto. cbn. intros [K|K]; [exact (E K)|exact (N K)].
      * right. exists n. split; [cbn; intros [K|K]; [exact (E K)|exact (N K)]|]. split; [exact M|reflexivity].
Qed.
Lemma put_inv done us id c us' : uinv done us -> put_channel make us id c = Ok us' -> uinv ((id, c) :: done) us'.
Proof.
  intros [I1 I2 I3] H. destruct (put_shape _ _ _ _ H) as [(a & u & b & -> & -> & Hi & N)|(n & N & M & ->)].
  - assert (Eid : map pu_id (a ++ unit_add u c :: b) = map pu_id (a ++ u :: b)) by (rewrite !map_app; cbn; rewrite (proj1 (add_id u c)); reflexivity).
    split.
    + rewrite Eid. exact I1.
    + intros v Hv. apply in_app_iff in Hv. destruct Hv as [Hv|[<-|Hv]].
      * apply I2. apply in_app_iff. left. exact Hv.
      * destruct (I2 u) as (A & B & C & D & E); [apply in_app_iff; right; left; reflexivity|]. destruct (add_id u c) as [-> ->]. split; [exact A|]. destruct (add_nodup u c B C) as [B' C']. split; [exact B'|]. split; [exact C'|]. split; [apply add_sides; exact D|]. exists c. apply lists_add. right. reflexivity.
      * apply I2. apply in_app_iff. right. right. exact Hv.
    + intros id' c'. cbn [In]. rewrite <- I3. split.
      * intros (v & Hv & Hid & L). apply in_app_iff in Hv. destruct Hv as [Hv|[<-|Hv]].
        -- right. exists v. split; [apply in_app_iff; left; exact Hv|auto].
        -- rewrite (proj1 (add_id u c)) in Hid. apply lists_add in L. destruct L as [L| ->]; [right; exists u; split; [apply in_app_iff; right; left; reflexivity|auto]|left; congruence].
        -- right. exists v. split; [apply in_app_iff; right; right; exact Hv|auto].
      * intros [E|(v & Hv & Hid & L)].
        -- injection E as <- <-. exists (unit_add u c). split; [apply in_app_iff; right; left; reflexivity|]. split; [rewrite (proj1 (add_id u c)); exact Hi|]. apply lists_add. right. reflexivity.
        -- apply in_app_iff in Hv. destruct Hv as [Hv|[<-|Hv]].
           ++ exists v. split; [apply in_app_iff; left; exact Hv|auto].
           ++ exists (unit_add u c). split; [apply in_app_iff; right; left; reflexivity|]. split; [rewrite (proj1 (add_id u c)); exact Hid|]. apply lists_add. left. exact L.
           ++ exists v. split; [apply in_app_iff; right; right; exact Hv|auto].
  - set (u := {| pu_id := id; pu_n := n; pu_in := []; pu_out := [] |}) in *.
    assert (Eu : forall c', lists (unit_add u c) c' <-> c' = c) by (intros c'; rewrite lists_add; unfold lists, u; cbn [pu_in pu_out]; destruct (rc_out c'); cbn [In]; tauto).
    split.
    + rewrite map_app. cbn [map]. rewrite (proj1 (add_id u c)). cbn [pu_id u]. apply NoDup_rev in I1. rewrite <- (rev_involutive (map pu_id us ++ [_])). apply NoDup_rev. rewrite rev_app_distr. cbn. constructor; [rewrite <- in_rev; exact N|exact I1].
    + intros v Hv. apply in_app_iff in Hv. destruct Hv as [Hv|[<-|[]]]; [apply I2; exact Hv|]. destruct (add_id u c) as [-> ->]. split; [exact M|].
      destruct (add_nodup u c) as [A B]; [constructor|constructor|]. split; [exact A|]. split; [exact B|]. split; [apply add_sides; split; intros ? []|]. exists c. apply Eu. reflexivity.
    + intros id' c'. cbn [In]. rewrite <- I3. split.
      * intros (v & Hv & Hid & L). apply in_app_iff in Hv. destruct Hv as [Hv|[<-|[]]]; [right; exists v; auto|]. left. rewrite (proj1 (add_id u c)) in Hid. cbn in Hid. apply Eu in L. congruence.
      * intros [E|(v & Hv & Hid & L)]; [|exists v; split; [apply in_app_iff; left; exact Hv|auto]].
        injection E as <- <-. exists (unit_add u c). split; [apply in_app_iff; right; left; reflexivity|]. split; [apply (proj1 (add_id u c))|]. apply Eu. reflexivity.
Qed.

(** The entries one after the other. *)
Fixpoint run (us : list punit) (l : list (rchan * pent)) : outcome (list punit) :=
  match l with
  | [] => Ok us
  | (c, x) :: r => do id <- source_of x; do us' <- put_channel make us id c; run us' r
  end.
Definition items (nm : nat) (io : bool) (d : idict pent) : list (rchan * pent) :=
  map (fun kx => ({| rc_mod := nm; rc_out := io; rc_start := fst (fst kx); rc_end := snd (fst kx) |}, snd kx)) d.
Definition side_items (m : pmod) (io : bool) : list (rchan * pent) :=
  match mod_side m io with Some d => items (pm_name m) io d | None => [] end.
Definition steps (ms : list pmod) : list (rchan * pent) := flat_map (fun m => side_items m false ++ side_items m true) ms.
Lemma in_steps ms c x : In (c, x) (steps ms) <-> holds ms c x.
Proof.
  unfold steps, holds. rewrite in_flat_map. split.
  - intros (m & Hm & H). rewrite in_app_iff in H.
    assert (X : exists io, In (c, x) (side_items m io)) by (destruct H; eauto). clear H. destruct X as (io & H). unfold side_items in H. destruct (mod_side m io) as [d|] eqn:E; [|destruct H].
    unfold items in H. apply in_map_iff in H. destruct H as ([[s e] y] & Heq & Hy). injection Heq as <- <-. exists m, d. cbn. auto.
  - intros (m & d & Hm & Hn & Hd & Hx). exists m. split; [exact Hm|]. apply in_app_iff. destruct c as [nm io s e]. cbn in *. subst nm.
    assert (K : In ({| rc_mod := pm_name m; rc_out := io; rc_start := s; rc_end := e |}, x) (side_items m io)).
    { unfold side_items. rewrite Hd. unfold items. apply in_map_iff. exists ((s, e), x). auto. }
    destruct io; [right|left]; exact K.
Qed.
Lemma run_app us a b : run us (a ++ b) = do us' <- run us a; run us' b.
Proof.
  revert us. induction a as [|[c x] a IH]; intros us; cbn [run app]; [reflexivity|]. destruct (source_of x) as [i|]; cbn [bind]; [|reflexivity]. destruct (put_channel make us i c); cbn [bind]; [apply IH|reflexivity].
Qed.
Lemma items_run nm io d : forall us, process_items make nm io us d = run us (items nm io d).
Proof.
  induction d as [|[[s e] x] d IH]; intros us; cbn; [reflexivity|]. destruct (source_of x) as [i|]; cbn; [|reflexivity]. destruct (put_channel make us i _); cbn; [apply IH|reflexivity].
Qed.
Lemma modules_run : forall ms us, (forall m io, In m ms -> mod_side m io <> None) -> process_modules make us ms = run us (steps ms).
Proof.
  induction ms as [|m ms IH]; intros us H; cbn [process_modules steps flat_map]; [reflexivity|].
  pose proof (H m false (or_introl eq_refl)) as A. pose proof (H m true (or_introl eq_refl)) as B. unfold side_items. cbn in A, B. unfold mod_side.
  destruct (pm_in m) as [i|] eqn:Ei; [|congruence]. destruct (pm_out m) as [o|] eqn:Eo; [|congruence]. unfold process_container. rewrite !run_app, items_run. destruct (run us (items (pm_name m) false i)) as [us1|]; cbn [bind]; [|reflexivity].
  rewrite items_run. destruct (run us1 (items (pm_name m) true o)) as [us2|]; cbn [bind]; [|reflexivity]. apply IH. intros m' io' Hm. apply H. right. exact Hm.
Qed.
Lemma modules_sides : forall ms us us', process_modules make us ms = Ok us' -> forall m io, In m ms -> mod_side m io <> None.
Proof.
  induction ms as [|m ms IH]; intros us us' H m' io Hm; [destruct Hm|]. cbn [process_modules] in H.
  destruct (process_container make (pm_name m) false us (pm_in m)) as [us1|] eqn:E1; [|discriminate]. cbn [bind] in H.
  destruct (process_container make (pm_name m) true us1 (pm_out m)) as [us2|] eqn:E2; [|discriminate]. cbn [bind] in H.
  destruct Hm as [<-|Hm]; [|exact (IH _ _ H m' io Hm)]. unfold mod_side. destruct io; intros K; rewrite K in *; discriminate.
Qed.
Lemma source_iff x id : source_of x = Ok id <-> stands x id.
Proof.
  unfold stands. destruct x as [i|[|i [|j l]]]; cbn; split; intros H; try (injection H as <-; auto; fail); try discriminate H; destruct H as [H|H]; try discriminate H; congruence.
Qed.
Lemma run_inv : forall l us us' done, uinv done us -> run us l = Ok us' ->
  exists done', uinv done' us' /\ (forall id c, In (id, c) done' <-> In (id, c) done \/ exists x, In (c, x) l /\ stands x id) /\
    (forall c x, In (c, x) l -> exists id n, stands x id /\ make id = Ok n).
Proof.
  induction l as [|[c x] l IH]; intros us us' done I H; cbn [run] in H.
  - apply Ok_inj in H. subst us'. exists done. split; [exact I|]. split; [intros id c; split; [auto|intros [K|(x & [] & _)]; exact K]|intros c x []].
  - destruct (source_of x) as [id|] eqn:E; [|discriminate]. cbn [bind] in H. destruct (put_channel make us id c) as [us1|] eqn:E1; [|discriminate]. cbn [bind] in H.
    pose proof (put_inv _ _ _ _ _ I E1) as I1. destruct (IH _ _ _ I1 H) as (done' & I' & D & G). exists done'. split; [exact I'|]. apply source_iff in E. split.
    + intros id' c'. rewrite D. cbn [In]. split.
      * intros [[K|K]|(y & Hy & S)]; [injection K as <- <-; right; exists x; auto|left; exact K|right; exists y; auto].
      * intros [K|(y & [K|Hy] & S)]; [left; right; exact K|injection K as <- <-; left; left|right; exists y; auto].
        apply source_iff in E, S. congruence.
    + intros c' x' [K|K]; [|exact (G _ _ K)]. injection K as <- <-. exists id.
      destruct (ui_list _ _ I1 id c) as [_ L]. destruct (L (or_introl eq_refl)) as (u & Hu & Hi & _). destruct (ui_unit _ _ I1 u Hu) as [M _]. rewrite Hi in M. exists (pu_n u). split; assumption.
Qed.
Lemma run_ok : forall l us, (forall c x, In (c, x) l -> exists id n, stands x id /\ make id = Ok n) -> exists us', run us l = Ok us'.
Proof.
  induction l as [|[c x] l IH]; intros us H; cbn [run]; [eexists; reflexivity|].
  destruct (H c x (or_introl eq_refl)) as (id & n & S & M). apply source_iff in S. rewrite S. cbn [bind]. destruct (put_ok us id c n M) as (us1 & ->). cbn [bind]. apply IH. intros c' x' K. apply (H c' x'). right. exact K.
Qed.
Lemma inv_nil : uinv [] [].
Proof. split; [constructor|intros u []|]. intros id c. split; [intros (u & [] & _)|intros []]. Qed.
End Units.

(** Units can be found exactly if every container is there and every entry has one channel mutable
    that the unit class accepts; then there is one unit per channel mutable in use, and it lists
    exactly the ranges where the mutable is used. *)
Theorem C114_units make ms :
  ((exists us, init_from_predefined_model make ms = Ok us) <->
     (forall m io, In m ms -> mod_side m io <> None) /\
     (forall c x, holds ms c x -> exists id n, stands x id /\ make id = Ok n)) /\
  (forall us, init_from_predefined_model make ms = Ok us ->
     NoDup (map pu_id us) /\
     (forall u, In u us -> make (pu_id u) = Ok (pu_n u) /\ NoDup (pu_in u) /\ NoDup (pu_out u) /\ sides_right u /\ exists c, lists u c) /\
     (forall id c, (exists u, In u us /\ pu_id u = id /\ lists u c) <-> (exists x, holds ms c x /\ stands x id))).
Proof.
  unfold init_from_predefined_model. split; [split|].
  - intros (us & H). pose proof (modules_sides make _ _ _ H) as HS. split; [exact HS|]. rewrite (modules_run make ms [] HS) in H.
    destruct (run_inv make _ _ _ _ (inv_nil make) H) as (done & _ & _ & G). intros c x K. apply in_steps in K. exact (G c x K).
  - intros [HS HG]. rewrite (modules_run make ms [] HS). apply run_ok. intros c x K. apply in_steps in K. exact (HG c x K).
  - intros us H. pose proof (modules_sides make _ _ _ H) as HS. rewrite (modules_run make ms [] HS) in H.
    destruct (run_inv make _ _ _ _ (inv_nil make) H) as (done & [I1 I2 I3] & D & _). split; [exact I1|]. split; [exact I2|]. intros id c. rewrite I3, D. cbn [In]. split.
    + intros [[]|(x & Hx & S)]. exists x. rewrite <- in_steps. auto.
    + intros (x & Hx & S). right. exists x. rewrite in_steps. auto.
Qed.
Print Assumptions C114_units.

(** unit_predefined reaches the first unit only. *)
Theorem C114_flag_partial given us :
  map fst (set_predefined given us) = us /\
  map snd (set_predefined given us) = match us with [] => [] | _ :: r => match given with Some b => b | None => false end :: repeat false (length r) end.
Proof.
  assert (N : forall l, map snd (set_predefined None l) = repeat false (length l)) by (induction l as [|x l IH]; cbn; [reflexivity|f_equal; exact IH]).
  split; [|destruct us as [|u r]; cbn; [reflexivity|rewrite N; reflexivity]]. revert given. induction us as [|u r IH]; intros given; cbn; [reflexivity|]. rewrite IH. reflexivity.
Qed.
Print Assumptions C114_flag_partial.
Theorem C114_flag_refuted : ~ C114_flag_claim.
Proof.
  intros H. set (u := {| pu_id := 0; pu_n := 1; pu_in := []; pu_out := [] |}). specialize (H [u; u] u false). assert (false = true); [|congruence]. apply H. right. left. reflexivity.
Qed.
Print Assumptions C114_flag_refuted.

(** A convolution, and one whose inputs are a quarter of a second mutable (as in the squeeze and
    excitation layers of mutable_register.py:55-80). *)
Definition ex_mods (w : Z) : list pmod :=
  [{| pm_name := 1; pm_in := Some []; pm_out := Some [((0, 16), PMut 5)] |};
   {| pm_name := 2; pm_in := Some [((0, 16), PMut 5)]; pm_out := Some [((0, 32), PMut 6)] |};
   {| pm_name := 3; pm_in := Some [((0, 32), PMut 6)]; pm_out := Some [((0, w), PDer [6%nat])] |}].
Definition ex_make (id : nat) : outcome Z := match id with 5%nat => Ok 16 | 6%nat => Ok 32 | _ => Raise AttributeError end.
Lemma ex_plain w : plain (ex_mods w).
Proof.
  split; [cbn; repeat constructor; cbn; intuition discriminate|]. intros m io d H E. cbn in H. repeat (destruct H as [<-|H]; [destruct io; injection E as <-; cbn; repeat constructor; cbn; intuition|]). destruct H.
Qed.
Example C114_case : exists us, init_from_predefined_model ex_make (ex_mods 64) = Ok us /\ map pu_id us = [5%nat; 6%nat] /\
  map (fun u => (length (pu_in u), length (pu_out u))) us = [(1, 1); (1, 2)]%nat /\ prepare_predefined (ex_mods 64) (set_predefined (Some true) us) = Ok (ex_mods 64).
Proof. eexists. split; [vm_compute; reflexivity|]. split; [reflexivity|]. split; [reflexivity|]. vm_compute. reflexivity. Qed.
Theorem C114_prepared_refuted : ~ C114_prepared_claim.
Proof.
  intros H. assert (P : forall id n, ex_make id = Ok n -> 0 < n).
  { intros id n. do 7 (destruct id as [|id]; [cbn; intros [=]; lia|]). discriminate. }
  destruct (init_from_predefined_model ex_make (ex_mods 8)) as [us|] eqn:E; [|vm_compute in E; discriminate].
  specialize (H ex_make (ex_mods 8) us (ex_plain 8) P E). vm_compute in E. apply Ok_inj in E. subst us. vm_compute in H. discriminate H.
Qed.
Print Assumptions C114_prepared_refuted.

Lemma pent_at_in : forall d rg x, NoDup (keys d) -> In (rg, x) d -> pent_at d rg = Some x.
Proof.
  induction d as [|[k v] d IH]; intros rg x N H; [destruct H|]. cbn in N. inversion N as [|? ? N1 N2]; subst. cbn [pent_at].
  assert (RE : forall a b, range_eqb a b = true <-> a = b) by (intros [a1 a2] [b1 b2]; unfold range_eqb; cbn; rewrite andb_true_iff, !Z.eqb_eq; split; [intros [-> ->]; reflexivity|intros [= -> ->]; auto]).
  destruct H as [[= -> ->]|H]; [rewrite (proj2 (RE rg rg) eq_refl); reflexivity|].
  destruct (range_eqb rg k) eqn:E; [|apply IH; assumption]. apply RE in E. subst k. exfalso. apply N1. unfold keys. apply in_map_iff. exists (rg, x). auto.
Qed.
Lemma contains_in : forall (d : idict pent) rg x, In (rg, x) d -> contains d rg = true.
Proof.
  intros d [s e] x H. unfold contains. replace (existsb (range_eqb (s, e)) (keys d)) with true; [reflexivity|]. symmetry. apply existsb_exists. exists (s, e). split; [apply in_map_iff; exists ((s, e), x); auto|].
  unfold range_eqb. cbn. rewrite !Z.eqb_refl. reflexivity.
Qed.
Lemma stands_from x id : stands x id -> comes_from x id = true.
Proof. intros [-> | ->]; cbn; rewrite Nat.eqb_refl; reflexivity. Qed.
Lemma preregister_one : forall ms id n c x, plain ms -> holds ms c x -> stands x id -> 0 < n <= rc_end c - rc_start c -> preregister_channel ms id n c = Ok ms.
Proof.
  induction ms as [|m ms IH]; intros id n c x [N K] (m' & d & Hm & Hn & Hd & Hx) S W; [destruct Hm|]. cbn [preregister_channel]. cbn in N. inversion N as [|? ? N1 N2]; subst.
  destruct (Nat.eqb (pm_name m) (rc_mod c)) eqn:E.
  - apply Nat.eqb_eq in E. assert (m' = m) as ->. { destruct Hm as [<-|Hm]; [reflexivity|]. exfalso. apply N1. apply in_map_iff. exists m'. split; [congruence|exact Hm]. }
    unfold register_on. rewrite Hd. assert (P : exists r, pick_ratio (rc_end c - rc_start c) n = Ok r).
    { unfold pick_ratio. destruct (rc_end c - rc_start c =? n) eqn:E1; [eexists; reflexivity|]. destruct (n <? rc_end c - rc_start c) eqn:E2; [|lia]. destruct (n =? 0) eqn:E3; [lia|]. destruct (_ mod n =? 0); eexists; reflexivity. }
    destruct P as (r & ->). cbn [bind]. rewrite (contains_in d _ x Hx), (pent_at_in d _ x (K m _ d (or_introl eq_refl) Hd) Hx), (stands_from x id S). reflexivity.
  - apply Nat.eqb_neq in E. assert (Hm' : In m' ms) by (destruct Hm as [<-|Hm]; [congruence|exact Hm]).
    rewrite (IH id n c x); [reflexivity| |exists m', d; auto|exact S|exact W]. split; [exact N2|]. intros m0 io0 d0 H0. apply K. right. exact H0.
Qed.
Lemma preregister_all ms id n cs : plain ms -> (forall c, In c cs -> exists x, holds ms c x /\ stands x id /\ 0 < n <= rc_end c - rc_start c) -> preregister_channels ms id n cs = Ok ms.
Proof.
  intros P. induction cs as [|c cs IH]; intros H; [reflexivity|]. cbn [preregister_channels]. destruct (H c (or_introl eq_refl)) as (x & A & B & C). rewrite (preregister_one ms id n c x P A B C). cbn [bind]. apply IH. intros c' Hc. apply H. right. exact Hc.
Qed.
(** When no range is narrower than its mutable, preparing changes no container, with or without
    unit_predefined. *)
Theorem C114_prepared_partial make ms us given :
  plain ms -> (forall id n, make id = Ok n -> 0 < n) -> init_from_predefined_model make ms = Ok us ->
  (forall c x id n, holds ms c x -> stands x id -> make id = Ok n -> n <= rc_end c - rc_start c) ->
  prepare_predefined ms (set_predefined given us) = Ok ms.
Proof.
  intros P M H W. destruct (C114_units make ms) as [_ U]. destruct (U us H) as (_ & A & L).
  assert (G : forall l given, incl l us -> prepare_predefined ms (set_predefined given l) = Ok ms); [|apply G; apply incl_refl].
  induction l as [|u l IH]; intros g I; [reflexivity|]. cbn [set_predefined prepare_predefined].
  assert (I' : incl l us) by (intros x Hx; apply I; right; exact Hx). specialize (I u (or_introl eq_refl)).
  assert (E : preregister_channels ms (pu_id u) (pu_n u) (pu_in u ++ pu_out u) = Ok ms).
  { apply preregister_all; [exact P|]. intros c Hc. destruct (A u I) as (Mu & _ & _ & [S1 S2] & _).
    assert (Lc : lists u c). { unfold lists. apply in_app_iff in Hc. destruct Hc as [Hc|Hc]; [rewrite (S1 c Hc)|rewrite (S2 c Hc)]; exact Hc. }
    destruct (proj1 (L (pu_id u) c)) as (x & Hx & Sx); [exists u; auto|]. exists x. split; [exact Hx|]. split; [exact Sx|]. split; [exact (M _ _ Mu)|exact (W c x _ _ Hx Sx Mu)]. }
  destruct (match g with Some b => b | None => false end); [apply IH; exact I'|]. rewrite E. cbn [bind]. apply IH. exact I'.
Qed.
Print Assumptions C114_prepared_partial.

(** A unit cannot be registered on a side of a module that has no container.  Where the range is free it gets the mutable itself if it is as wide as the
    mutable, and otherwise, if wider, one derived from it; what was there stays. *)
Theorem C114_register : forall m id n c,
  (mod_side m (rc_out c) = None -> register_on m id n c = Raise NotImplementedError) /\
  (forall d m', mod_side m (rc_out c) = Some d -> contains d (rc_start c, rc_end c) = false -> register_on m id n c = Ok m' ->
     n <= rc_end c - rc_start c /\
     exists d', mod_side m' (rc_out c) = Some d' /\ mod_side m' (negb (rc_out c)) = mod_side m (negb (rc_out c)) /\
       Permutation d' (((rc_start c, rc_end c), if rc_end c - rc_start c =? n then PMut id else PDer [id]) :: d)).
Proof.
  intros m id n c. unfold register_on. split; [intros ->; reflexivity |]. intros d m' -> C. rewrite C.
  unfold pick_ratio. destruct (Z.eqb_spec (rc_end c - rc_start c) n) as [W | W]; cbn [bind].
  - intro E. match type of E with bind ?a _ = _ => destruct a as [d' | e] eqn:D end; [| discriminate]. cbn [bind] in E. apply Ok_inj in E. subst m'.
    apply setitem_perm in D. split; [lia |]. exists d'. unfold mod_side, with_side. destruct (rc_out c); cbn; auto.
  - destruct (Z.ltb_spec n (rc_end c - rc_start c)) as [L | L]; [| discriminate]. destruct (n =? 0); [discriminate |]. intro E. split; [lia |].
    destruct ((rc_end c - rc_start c) mod n =? 0); cbn [bind] in E;
      (match type of E with bind ?a _ = _ => destruct a as [d' | e] eqn:D end; [| discriminate]; cbn [bind] in E; apply Ok_inj in E; subst m';
       apply setitem_perm in D; exists d'; unfold mod_side, with_side; destruct (rc_out c); cbn; auto).
Qed.
Example C114_register_case :
  let c := {| rc_mod := 0%nat; rc_out := true; rc_start := 0; rc_end := 8 |} in
  let m := {| pm_name := 0%nat; pm_in := None; pm_out := Some [] |} in
  register_on m 5 8 c = Ok {| pm_name := 0%nat; pm_in := None; pm_out := Some [((0, 8), PMut 5)] |} /\
  register_on m 5 4 c = Ok {| pm_name := 0%nat; pm_in := None; pm_out := Some [((0, 8), PDer [5%nat])] |}.
Proof. split; reflexivity. Qed.
Print Assumptions C114_register.
