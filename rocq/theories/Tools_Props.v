(** Measured latencies (C206), positions in epochs (C207) and drawn feature maps (C208). *)
From Coq Require Import String Ascii QArith Qabs Lqa.
From Verif Require Import Prelude Gptq_Model Onnx_Model Engine_Model Deploy_Model Deploy2_Props Engine_Props Tools_Model.
Local Open Scope string_scope.
Local Open Scope list_scope.
Local Open Scope Z_scope.

(** ** C206 *)
(** *** Specification *)
Definition zrange (a b : Z) : list Z := map (fun k => a + Z.of_nat k) (seq 0 (Z.to_nat (b - a))).
(** The passes that are made are 1, 2, ... below max_iter; those before num_warmup are not measured. *)
Definition measured (max_iter num_warmup : Z) : list Z := filter (fun i => num_warmup <=? i) (zrange 1 max_iter).
Definition total (el : Z -> Q) (l : list Z) : Q := fold_right Qplus 0%Q (map el l).
(** Mean time of a measured pass in milliseconds. *)
Definition mean_ms (max_iter num_warmup : Z) (el : Z -> Q) : Q := (1000 * (total el (measured max_iter num_warmup) / inject_Z (Z.of_nat (length (measured max_iter num_warmup)))))%Q.
Definition average (l : list Q) : Q := (fold_right Qplus 0 l / inject_Z (Z.of_nat (length l)))%Q.
(** The latency is the mean time of the measured passes (and of the repetitions), to one decimal, in the unit that is named. *)
Definition C206_claim : Prop := forall els max_iter num_warmup log_interval s unit v u, 0 <= num_warmup -> (forall el i, In el els -> 0 < el i)%Q ->
  latency true els max_iter num_warmup log_interval s unit = Ok (v, u) -> (Qabs (v - average (map (mean_ms max_iter num_warmup) els)) <= 1 # 20)%Q.
Definition C206_unit_claim : Prop := forall el max_iter num_warmup log_interval v, 1 <= num_warmup -> (forall i, 0 < el i)%Q ->
  latency true [el] max_iter num_warmup log_interval true "s" = Ok (v, Some "s") -> (Qabs (v - mean_ms max_iter num_warmup el / 1000) <= 1 # 20)%Q.
(** Without warming up one pass more is counted than is made. *)
Theorem C206_warmup_refuted : ~ C206_claim.
Proof.
  intros H. specialize (H [fun _ => 1%Q] 2 0 100 false "ms" _ None ltac:(lia) ltac:(intros el i [<-|[]]; reflexivity) eq_refl). vm_compute in H. apply H. reflexivity.
Qed.
(** The unit is only written behind the milliseconds. *)
Theorem C206_unit_refuted : ~ C206_unit_claim.
Proof.
  intros H. specialize (H (fun _ => 1%Q) 3 1 100 _ ltac:(lia) ltac:(intros; reflexivity) eq_refl). vm_compute in H. apply H. reflexivity.
Qed.

(** *** Lemmas *)
Lemma zrange_nil a b : b <= a -> zrange a b = [].
Proof. intros H. unfold zrange. replace (Z.to_nat (b - a)) with 0%nat by lia. reflexivity. Qed.
Lemma zrange_cons a b : a < b -> zrange a b = a :: zrange (a + 1) b.
Proof.
  intros H. unfold zrange. replace (Z.to_nat (b - a)) with (S (Z.to_nat (b - (a + 1)))) by lia. cbn [seq map]. f_equal; [lia|]. rewrite <- seq_shift, map_map. apply map_ext. intros k. lia.
Qed.
Lemma measured_length w : forall n a b, Z.to_nat (b - a) = n -> a <= w <= b -> length (filter (fun i => w <=? i) (zrange a b)) = Z.to_nat (b - w).
Proof.
  induction n as [|n IH]; intros a b E H.
  - rewrite zrange_nil by lia. cbn. lia.
  - rewrite zrange_cons by lia. cbn [filter]. destruct (Z.leb_spec w a) as [L|L].
    + assert (a = w) by lia. subst a. cbn [length]. assert (A : forall l, (forall i, In i l -> w <= i) -> filter (fun i => w <=? i) l = l).
      { induction l as [|x l IHl]; intros X; [reflexivity|]. cbn [filter]. destruct (Z.leb_spec w x) as [|Y]; [f_equal; apply IHl; intros; apply X; right; assumption|]. specialize (X x (or_introl eq_refl)). lia. }
      rewrite A; [unfold zrange; rewrite map_length, seq_length; lia|]. intros i I0. unfold zrange in I0. apply in_map_iff in I0 as (k & <- & _). lia.
    + rewrite (IH (a + 1) b); lia.
Qed.
Lemma qeqb_false x : (0 < x)%Q -> Qeq_bool x 0 = false.
Proof. intros H. destruct (Qeq_bool x 0) eqn:E; [|reflexivity]. apply Qeq_bool_eq in E. lra. Qed.
Lemma total_cons el i l : (total el (i :: l) == el i + total el l)%Q.
Proof. reflexivity. Qed.
Lemma passes_spec el mi nw li : forall n i pure fps f, n = Z.to_nat (mi - i) -> i < mi -> passes el mi nw li n i pure fps = Ok f ->
  exists t, (t == pure + total el (filter (fun i => nw <=? i) (zrange i mi)))%Q /\ (f == inject_Z (mi - nw) / t)%Q /\ ~ (t == 0)%Q.
Proof.
  induction n as [|n IH]; intros i pure fps f E L H; [lia|]. cbn [passes] in H. rewrite zrange_cons by exact L. cbn [filter].
  destruct (nw <=? i).
  - set (pure' := (pure + el i)%Q) in *. destruct (li =? 0); [discriminate H|].
    assert (P : exists fps', (if i + 1 =? mi then if Qeq_bool pure' 0 then Raise ZeroDivisionError else Ok (inject_Z (i + 1 - nw) / pure')%Q else passes el mi nw li n (i + 1) pure' fps') = Ok f).
    { destruct (_ mod _ =? 0); [destruct (Qeq_bool pure' 0) eqn:QQ; [discriminate H|]|]; cbn [bind fst snd] in H; rewrite ?QQ in H; eexists; exact H. }
    clear H. destruct P as (fps' & H). destruct (Z.eqb_spec (i + 1) mi) as [EQ|NE].
    + destruct (Qeq_bool pure' 0) eqn:Q0; [discriminate H|]. apply Ok_inj in H. subst f. exists pure'. rewrite zrange_nil by lia. cbn [filter]. split; [rewrite total_cons; unfold total; cbn [map fold_right]; unfold pure'; ring|]. split; [rewrite EQ; reflexivity|]. apply Qeq_bool_neq. exact Q0.
    + destruct (IH (i + 1) _ _ _ ltac:(lia) ltac:(lia) H) as (t & A & B). exists t. split; [rewrite A, total_cons; unfold pure'; ring|exact B].
  - cbn [bind fst snd] in H. destruct (Z.eqb_spec (i + 1) mi) as [EQ|NE].
    + destruct (Qeq_bool pure 0) eqn:Q0; [discriminate H|]. apply Ok_inj in H. subst f. exists pure. rewrite zrange_nil by lia. cbn [filter]. split; [unfold total; cbn; ring|]. split; [rewrite EQ; reflexivity|]. apply Qeq_bool_neq. exact Q0.
    + destruct (IH (i + 1) _ _ _ ltac:(lia) ltac:(lia) H) as (t & A & B). exists t. auto.
Qed.
Lemma round1_near x : (Qabs (round1 x - x) <= 1 # 20)%Q.
Proof.
  unfold round1. destruct (rnd_near (x * 10)) as (A & B & _). set (r := inject_Z (rnd (x * 10))) in *. clearbody r. assert (E : (r / 10 == r * (1 # 10))%Q) by reflexivity. apply Qabs_Qle_condition. split; lra.
Qed.
Lemma once_spec el mi nw li f : 1 <= nw -> latency_once true el mi nw li = Ok f -> forall v, per_img f = Ok v -> (Qabs (v - mean_ms mi nw el) <= 1 # 20)%Q.
Proof.
  intros NW H v V. unfold latency_once in H. unfold per_img in V. destruct (Qeq_bool f 0) eqn:F; [discriminate V|]. apply Ok_inj in V. subst v.
  destruct (Z_lt_le_dec 1 mi) as [M|M].
  - destruct (passes_spec el mi nw li _ 1 0%Q 0%Q f eq_refl M H) as (t & A & B & C). fold (measured mi nw) in A. destruct (Z_lt_le_dec nw mi) as [N|N].
    + assert (L : length (measured mi nw) = Z.to_nat (mi - nw)) by (apply (measured_length nw _ 1 mi eq_refl); lia). unfold mean_ms. rewrite L, Z2Nat.id by lia.
      assert (P : ~ (inject_Z (mi - nw) == 0)%Q) by (unfold Qeq; cbn; lia).
      assert (E : (1000 * (total el (measured mi nw) / inject_Z (mi - nw)) == 1000 / f)%Q). { rewrite B. assert (T : (total el (measured mi nw) == t)%Q) by lra. rewrite T. field. split; assumption. }
      rewrite E. apply round1_near.
    + exfalso. assert (Z0 : filter (fun i => nw <=? i) (zrange 1 mi) = []).
      { destruct (filter _ _) as [|x l] eqn:X; [reflexivity|]. assert (I0 : In x (filter (fun i => nw <=? i) (zrange 1 mi))) by (rewrite X; left; reflexivity). apply filter_In in I0 as [I0 Y]. apply Z.leb_le in Y. unfold zrange in I0. apply in_map_iff in I0 as (k & <- & K). apply in_seq in K. lia. }
      unfold measured in A. rewrite Z0 in A. apply C. rewrite A. reflexivity.
  - replace (Z.to_nat (mi - 1)) with 0%nat in H by lia. cbn in H. apply Ok_inj in H. subst f. discriminate F.
Qed.
Lemma fold_plus l : forall a, (fold_left Qplus l a == a + fold_right Qplus 0 l)%Q.
Proof. induction l as [|x l IH]; intros a; cbn [fold_left fold_right]; [ring|]. rewrite IH. ring. Qed.
Lemma near_average {A} (f : A -> Q) : forall l vs, Forall2 (fun x v => (Qabs (v - f x) <= 1 # 20)%Q) l vs -> (Qabs (fold_right Qplus 0 vs - fold_right Qplus 0 (map f l)) <= inject_Z (Z.of_nat (length l)) * (1 # 20))%Q.
Proof.
  induction l as [|x l IH]; intros vs H; inversion H as [|a v l' vs' H1 H2]; subst; cbn [map fold_right length].
  - vm_compute. congruence.
  - specialize (IH _ H2). rewrite Nat2Z.inj_succ. unfold Z.succ. rewrite inject_Z_plus. change (inject_Z 1) with 1%Q. apply Qabs_Qle_condition in IH, H1. apply Qabs_Qle_condition. lra.
Qed.
(** *** Theorems *)
(** With at least one pass of warming up the latency is the mean in milliseconds to one decimal. *)
Theorem C206_mean_partial : forall els max_iter num_warmup log_interval s unit v u, 1 <= num_warmup ->
  latency true els max_iter num_warmup log_interval s unit = Ok (v, u) -> (Qabs (v - average (map (mean_ms max_iter num_warmup) els)) <= 1 # 20)%Q /\ u = if s then Some unit else None.
Proof.
  intros els mi nw li s unit v u NW H. unfold latency in H. destruct (assert_ _) eqn:AS; [|discriminate H]. cbn [bind] in H. destruct (mapM _ els) as [fps|] eqn:M; [|discriminate H]. cbn [bind] in H.
  destruct (per_img (hd 0%Q fps)) as [first|] eqn:P; [|discriminate H]. cbn [bind] in H.
  assert (F : Forall2 (fun el f => latency_once true el mi nw li = Ok f) els fps).
  { clear - M. revert fps M. induction els as [|e els IH]; intros fps M; cbn [mapM] in M; [apply Ok_inj in M; subst; constructor|]. destruct (latency_once true e mi nw li) as [f|] eqn:E; [|discriminate M]. cbn [bind] in M. destruct (mapM _ els) as [fs|] eqn:R; [|discriminate M]. cbn [bind] in M. apply Ok_inj in M. subst fps. constructor; [exact E|apply IH; reflexivity]. }
  destruct (Nat.ltb_spec 1 (length els)) as [L|L].
  - destruct (mapM per_img fps) as [ts|] eqn:T; [|discriminate H]. cbn [bind] in H. apply Ok_inj in H. injection H as <- <-. split; [|reflexivity].
    assert (G : Forall2 (fun el t => (Qabs (t - mean_ms mi nw el) <= 1 # 20)%Q) els ts).
    { clear - F T NW. revert ts T. induction F as [|el f els fps E F IH]; intros ts T; cbn [mapM] in T; [apply Ok_inj in T; subst; constructor|]. destruct (per_img f) as [t|] eqn:P; [|discriminate T]. cbn [bind] in T. destruct (mapM per_img fps) as [ts'|]; [|discriminate T]. cbn [bind] in T. apply Ok_inj in T. subst ts. constructor; [apply (once_spec el mi nw li f NW E t P)|apply IH; reflexivity]. }
    pose proof (near_average _ _ _ G) as B. assert (LT : length ts = length els) by (clear - G; induction G; cbn; congruence). unfold mean, average. rewrite fold_plus, map_length, LT. set (n := inject_Z (Z.of_nat (length els))) in *. assert (N : (0 < n)%Q) by (unfold n; change 0%Q with (inject_Z 0); rewrite <- Zlt_Qlt; lia).
    clearbody n. set (sa := fold_right Qplus 0%Q ts) in *. set (sb := fold_right Qplus 0%Q (map (mean_ms mi nw) els)) in *. clearbody sa sb.
    apply Qabs_Qle_condition in B. apply Qabs_Qle_condition. assert (E : ((0 + sa) / n - sb / n == (sa - sb) / n)%Q) by (field; lra). rewrite E. split; [apply Qle_shift_div_l|apply Qle_shift_div_r]; try assumption; lra.
  - destruct els as [|el [|e2 els]]; [discriminate AS| |cbn in L; lia]. cbn [bind] in H. apply Ok_inj in H. injection H as <- <-. split; [|reflexivity]. inversion F as [|x1 x2 x3 x4 E F1]; subst. cbn [hd] in P. pose proof (once_spec el mi nw li _ NW E _ P) as X.
    unfold average. cbn [map fold_right length]. change (inject_Z (Z.of_nat 1)) with 1%Q. assert (Y : ((mean_ms mi nw el + 0) / 1 == mean_ms mi nw el)%Q) by field. rewrite Y. exact X.
Qed.
(** It is returned whenever some pass is measured (and all passes take time), and only then. *)
Lemma passes_ok el mi nw li : (forall i, 0 < el i)%Q -> li <> 0 -> 1 <= nw < mi -> forall n i pure fps, n = Z.to_nat (mi - i) -> i < mi -> (0 <= pure)%Q -> (nw < i -> (0 < pure)%Q) -> exists f, passes el mi nw li n i pure fps = Ok f /\ (0 < f)%Q.
Proof.
  intros POS LI NM. induction n as [|n IH]; intros i pure fps E L P0 P1; [lia|]. cbn [passes]. destruct (Z.leb_spec nw i) as [W|W].
  - set (pure' := (pure + el i)%Q). assert (PP : (0 < pure')%Q) by (unfold pure'; specialize (POS i); lra). rewrite (proj2 (Z.eqb_neq li 0) LI), (qeqb_false _ PP).
    assert (G : forall fps', exists f, (if i + 1 =? mi then Ok (inject_Z (i + 1 - nw) / pure')%Q else passes el mi nw li n (i + 1) pure' fps') = Ok f /\ (0 < f)%Q).
    { intros fps'. destruct (Z.eqb_spec (i + 1) mi) as [EQ|NE]; [eexists; split; [reflexivity|]|apply IH; try lia; [lra|intros; exact PP]]. apply Qlt_shift_div_l; [exact PP|]. setoid_replace (0 * pure')%Q with (inject_Z 0) by ring. rewrite <- Zlt_Qlt. lia. }
    destruct (_ mod _ =? 0); cbn [bind fst snd]; rewrite ?(qeqb_false _ PP); apply G.
  - cbn [bind fst snd]. destruct (Z.eqb_spec (i + 1) mi) as [EQ|NE]; [lia|]. apply IH; try lia; try assumption.
Qed.
Lemma passes_zero el mi nw li : mi <= nw -> forall n i fps, n = Z.to_nat (mi - i) -> i < mi -> passes el mi nw li n i 0 fps = Raise ZeroDivisionError.
Proof.
  intros NM. induction n as [|n IH]; intros i fps E L; [lia|]. cbn [passes]. destruct (Z.leb_spec nw i) as [W|W]; [lia|]. cbn [bind fst snd]. destruct (Z.eqb_spec (i + 1) mi); [reflexivity|]. apply IH; lia.
Qed.
Theorem C206_returned : forall els max_iter num_warmup log_interval s unit, 1 <= num_warmup -> log_interval <> 0 -> els <> [] -> (forall el i, In el els -> 0 < el i)%Q ->
  if num_warmup <? max_iter then exists v u, latency true els max_iter num_warmup log_interval s unit = Ok (v, u) else latency true els max_iter num_warmup log_interval s unit = Raise ZeroDivisionError.
Proof.
  intros els mi nw li s unit NW LI NE POS. unfold latency. destruct (Z.ltb_spec nw mi) as [L|L].
  - assert (M : forall ls, incl ls els -> exists fps, mapM (fun el => latency_once true el mi nw li) ls = Ok fps /\ Forall (fun f => 0 < f)%Q fps /\ length fps = length ls).
    { induction ls as [|e ls IH]; intros IN; [exists []; repeat split; constructor|]. destruct IH as (fps & A & B & C); [intros x X; apply IN; right; exact X|]. cbn [mapM]. destruct (passes_ok e mi nw li (fun i => POS e i (IN e (or_introl eq_refl))) LI ltac:(lia) (Z.to_nat (mi - 1)) 1 0 0 ltac:(lia) ltac:(lia) ltac:(lra) ltac:(intros; lia)) as (f & F & FP).
      unfold latency_once at 1. rewrite F, A. cbn [bind]. exists (f :: fps). repeat split; [constructor; assumption|cbn; lia]. }
    destruct (M els (incl_refl _)) as (fps & A & B & C). destruct els as [|e els]; [congruence|]. cbn [length Nat.eqb negb assert_ bind]. rewrite A. cbn [bind]. destruct fps as [|f fps]; [discriminate C|]. inversion B as [|x y F1 F2]; subst. cbn [hd]. unfold per_img at 1. rewrite (qeqb_false _ F1). cbn [bind].
    destruct (1 <? _)%nat; cbn [bind]; [|eauto]. assert (P : exists ts, mapM per_img (f :: fps) = Ok ts).
    { clear - B. revert B. generalize (f :: fps). intros l0. induction l0 as [|g l IH]; intros B; [eexists; reflexivity|]. inversion B as [|x y G1 G2]; subst. destruct (IH G2) as (ts & T). cbn [mapM]. unfold per_img at 1. rewrite (qeqb_false _ G1), T. cbn [bind]. eauto. }
    destruct P as (ts & T). rewrite T. cbn [bind]. eauto.
  - destruct els as [|e els]; [congruence|]. cbn [length Nat.eqb negb assert_ bind]. destruct (Z_lt_le_dec 1 mi) as [M|M].
    + cbn [mapM]. unfold latency_once at 1. rewrite (passes_zero e mi nw li L _ 1 0 ltac:(reflexivity) M). reflexivity.
    + assert (E : forall ls, mapM (fun el => latency_once true el mi nw li) ls = Ok (map (fun _ => 0%Q) ls)). { induction ls as [|x ls IH]; [reflexivity|]. cbn [mapM map]. unfold latency_once at 1. replace (Z.to_nat (mi - 1)) with 0%nat by lia. cbn [passes bind]. rewrite IH. reflexivity. }
      rewrite E. reflexivity.
Qed.
(** Passes of 9, 7, 4 and 6 seconds, two of them measured, twice. *)
Example C206_example : let el i := if i =? 1 then 9%Q else if i =? 2 then 7%Q else if i =? 3 then 4%Q else 6%Q in
  exists v, latency true [el; el] 5 3 100 true "ms" = Ok (v, Some "ms") /\ (v == 5000)%Q /\ (mean_ms 5 3 el == 5000)%Q.
Proof. eexists. split; [reflexivity|]. split; vm_compute; reflexivity. Qed.

(** ** C207 *)
(** With [n] iterations in each epoch the position in the epoch and the length of epochs are what they are. *)
Theorem C207_position : forall info n epochs e j, get info "max_iters" = Some (n * epochs) -> get info "max_epochs" = Some epochs -> get info "iter" = Some (e * n + j) -> 0 < epochs -> 0 <= j < n ->
  iter_by_epoch info = Ok j /\ iter_pre_epoch info = Ok n.
Proof.
  intros info n epochs e j A B C E J. assert (P : iter_pre_epoch info = Ok n). { unfold iter_pre_epoch, get_info. rewrite A, B. cbn [bind]. rewrite (proj2 (Z.eqb_neq epochs 0)) by lia. f_equal. replace (- (n * epochs)) with ((- n) * epochs) by lia. rewrite Z.div_mul by lia. lia. }
  split; [|exact P]. unfold iter_by_epoch. rewrite P. cbn [bind]. unfold get_info. rewrite C. cbn [bind]. rewrite (proj2 (Z.eqb_neq n 0)) by lia. f_equal. rewrite Z.add_comm, Z.mod_add by lia. apply Z.mod_small. exact J.
Qed.
(** Counters that are not there raise. *)
Theorem C207_missing : forall info, ((exists v, iter_by_epoch info = Ok v) -> has info "iter" = true /\ has info "max_iters" = true /\ has info "max_epochs" = true) /\
  (has info "iter" = true -> has info "max_iters" = true -> has info "max_epochs" = true -> iter_by_epoch info <> Raise KeyError).
Proof.
  intros info. unfold iter_by_epoch, iter_pre_epoch, get_info, has. split.
  - intros [v H]. destruct (get info "max_iters") as [a|]; [|discriminate H]. destruct (get info "max_epochs") as [b|]; [|discriminate H]. cbn [bind] in H. destruct (b =? 0); [discriminate H|]. cbn [bind] in H. destruct (get info "iter"); [auto|discriminate H].
  - destruct (get info "iter") as [c|]; [|discriminate]. destruct (get info "max_iters") as [a|]; [|discriminate]. destruct (get info "max_epochs") as [b|]; [|discriminate]. cbn [bind]. intros _ _ _. destruct (b =? 0); [discriminate|]. cbn [bind]. destruct (_ =? 0); discriminate.
Qed.
Example C207_example : iter_by_epoch [("iter", 25); ("max_iters", 100); ("max_epochs", 10)] = Ok 5 /\ iter_by_epoch [("iter", 25)] = Raise KeyError.
Proof. split; reflexivity. Qed.

(** ** C208 *)
(** Every image is saved in the directory of the run under its own name. *)
Definition C208_claim : Prop := forall work_dir timestamp dir stages data_idx feats f name step, In (f, name, step) (vis_run work_dir timestamp (Some dir, 0%nat) stages data_idx feats) ->
  f = Some (join (join (join work_dir timestamp) dir) (name ++ ".jpg")).
(** With a relative work_dir (the default) the directory gets deeper with each epoch. *)
Theorem C208_nested_refuted : ~ C208_claim.
Proof.
  intros H. specialize (H "work_dirs/kd" "now" "vis" [BeforeRun; Epoch 0] [0] [("fpn", 1%nat)] _ _ _ (or_intror (or_introl eq_refl))). vm_compute in H. discriminate H.
Qed.
Lemma abs_join a b : is_abs a = true -> is_abs (join a b) = true.
Proof. intros H. unfold join. destruct (is_abs b) eqn:B; [exact B|]. destruct a as [|c a]; [discriminate H|]. destruct (ends_slash _); exact H. Qed.
Lemma join_abs a b : is_abs b = true -> join a b = b.
Proof. unfold join. intros ->. reflexivity. Qed.
Theorem C208_directory_partial : forall work_dir timestamp dir stages data_idx feats f name step, is_abs work_dir = true \/ is_abs dir = true ->
  In (f, name, step) (vis_run work_dir timestamp (Some dir, 0%nat) stages data_idx feats) -> f = Some (join (join (join work_dir timestamp) dir) (name ++ ".jpg")).
Proof.
  intros wd ts dir stages data feats f name step AB. assert (D : is_abs (join (join wd ts) dir) = true). { destruct AB as [A|A]; [apply abs_join, abs_join, A|rewrite join_abs by exact A; exact A]. }
  assert (G : forall d k, join (join wd ts) d = join (join wd ts) dir -> In (f, name, step) (vis_run wd ts (Some d, k) stages data feats) -> f = Some (join (join (join wd ts) dir) (name ++ ".jpg"))); [|apply G; reflexivity].
  induction stages as [|s r IH]; intros d k E H; [destruct H|]. cbn [vis_run] in H. apply in_app_or in H as [H|H].
  - unfold visualize in H. cbn [snd fst option_map] in H. apply in_map_iff in H as ([n nm] & H & _). injection H as <- <- _. cbn [snd]. rewrite E. reflexivity.
  - unfold visualize in H. cbn [fst option_map] in H. eapply IH; [|exact H]. rewrite E. apply join_abs. exact D.
Qed.
(** Names are never given twice. *)
Lemma sep_inj c : forall p q a b, no_char c p -> no_char c q -> (p ++ String c a = q ++ String c b)%string -> p = q /\ a = b.
Proof.
  induction p as [|x p IH]; intros [|y q] a b Hp Hq E; cbn in *.
  - injection E as E. auto.
  - injection E as E _. destruct Hq. congruence.
  - injection E as E _. destruct Hp. congruence.
  - injection E as -> E. destruct (IH q a b) as [-> ->]; [apply Hp|apply Hq|exact E|auto].
Qed.
Lemma decimal_no c : (nat_of_ascii c < 48 \/ 58 <= nat_of_ascii c)%nat -> forall n, no_char c (decimal n).
Proof. intros H n. apply digits_no_char0. apply not_digit. exact H. Qed.
Lemma dec_us n : no_char "_" (decimal n).
Proof. apply decimal_no. right. apply Nat.leb_le. reflexivity. Qed.
Lemma dec_minus n : no_char "-" (decimal n).
Proof. apply decimal_no. left. apply Nat.ltb_lt. reflexivity. Qed.
Lemma str_Z_us z : no_char "_" (str_Z z).
Proof. unfold str_Z. destruct (z <? 0); [|apply dec_us]. cbn. split; [discriminate|apply dec_us]. Qed.
Lemma str_Z_inj a b : str_Z a = str_Z b -> a = b.
Proof.
  unfold str_Z. destruct (Z.ltb_spec a 0), (Z.ltb_spec b 0); intros E.
  - injection E as E. apply decimal_inj in E. lia.
  - pose proof (dec_minus (Z.to_nat b)) as D. rewrite <- E in D. cbn in D. tauto.
  - pose proof (dec_minus (Z.to_nat a)) as D. rewrite E in D. cbn in D. tauto.
  - apply decimal_inj in E. lia.
Qed.
Lemma append_assoc a b c : ((a ++ b) ++ c = a ++ (b ++ c))%string.
Proof. induction a as [|x a IH]; cbn; [reflexivity|]. rewrite IH. reflexivity. Qed.
(** The last separator. *)
Lemma no_char_in c : forall s, no_char c s <-> ~ In c (list_ascii_of_string s).
Proof. induction s as [|x s IH]; cbn; [tauto|]. rewrite IH. tauto. Qed.
Lemma loa_app a b : list_ascii_of_string (a ++ b) = list_ascii_of_string a ++ list_ascii_of_string b.
Proof. induction a as [|x a IH]; cbn; [reflexivity|]. rewrite IH. reflexivity. Qed.
Lemma loa_inj a b : list_ascii_of_string a = list_ascii_of_string b -> a = b.
Proof. intros H. rewrite <- (string_of_list_ascii_of_string a), <- (string_of_list_ascii_of_string b), H. reflexivity. Qed.
Lemma last_inj c : forall a b p q, no_char c p -> no_char c q -> (a ++ String c p = b ++ String c q)%string -> a = b /\ p = q.
Proof.
  intros a b p q P0 Q0 E. apply (f_equal list_ascii_of_string) in E. rewrite !loa_app in E. cbn [list_ascii_of_string] in E. apply (f_equal (@rev ascii)) in E. rewrite !rev_app_distr in E. cbn [rev] in E. rewrite <- !app_assoc in E. cbn [app] in E.
  assert (G : forall (x y u v : list ascii), ~ In c x -> ~ In c y -> x ++ c :: u = y ++ c :: v -> x = y /\ u = v).
  { induction x as [|x0 x IH]; intros [|y0 y] u v X Y Z0; cbn in *.
    - injection Z0 as Z0. auto.
    - injection Z0 as -> _. tauto.
    - injection Z0 as -> _. tauto.
    - injection Z0 as -> Z0. destruct (IH y u v) as [-> ->]; tauto. }
  apply G in E as [E1 E2].
  - apply (f_equal (@rev ascii)) in E1, E2. rewrite !rev_involutive in E1, E2. apply loa_inj in E1, E2. auto.
  - intros X. apply in_rev in X. apply no_char_in in P0. auto.
  - intros X. apply in_rev in X. apply no_char_in in Q0. auto.
Qed.
Lemma drawn_inj s i n k s' i' n' k' : drawn_name s i n k = drawn_name s' i' n' k' -> s = s' /\ i = i' /\ n = n' /\ k = k'.
Proof.
  unfold drawn_name. intros E.
  assert (T : forall i i' n n' k k', (("_data_idx_" ++ str_Z i ++ "_" ++ n ++ "_" ++ decimal k)%string = ("_data_idx_" ++ str_Z i' ++ "_" ++ n' ++ "_" ++ decimal k')%string) -> i = i' /\ n = n' /\ k = k').
  { clear. intros i i' n n' k k' E. cbn [append] in E. injection E as E. apply sep_inj in E as [E1 E2]; try apply str_Z_us. apply str_Z_inj in E1. apply last_inj in E2 as [E2 E3]; try apply dec_us. apply decimal_inj in E3. auto. }
  destruct s as [|e], s' as [|e']; cbn [stage_name] in E.
  - cbn [append] in E. injection E as E. destruct (T i i' n n' k k') as (-> & -> & ->); [cbn [append]; rewrite E; reflexivity|]. auto.
  - cbn [append] in E. discriminate E.
  - cbn [append] in E. discriminate E.
  - cbn [append] in E. injection E as E. change ("_data_idx_" ++ str_Z i ++ "_" ++ n ++ "_" ++ decimal k)%string with (String "_" ("data_idx_" ++ str_Z i ++ "_" ++ n ++ "_" ++ decimal k)%string) in E.
    apply sep_inj in E as [E1 E2]; try apply dec_us. apply decimal_inj in E1. subst e'. destruct (T i i' n n' k k') as (-> & -> & ->); [cbn [append] in *; rewrite E2; reflexivity|]. auto.
Qed.
Lemma NoDup_flat {A B} (f : A -> list B) : forall l, NoDup l -> (forall x, In x l -> NoDup (f x)) -> (forall x y z, In x l -> In y l -> In z (f x) -> In z (f y) -> x = y) -> NoDup (flat_map f l).
Proof.
  induction l as [|a l IH]; intros ND F I0; [constructor|]. inversion ND as [|x y NI ND']; subst. cbn [flat_map]. assert (R : NoDup (flat_map f l)). { apply IH; [exact ND'|intros x X; apply F; right; exact X|]. intros x y z X Y. apply I0; right; assumption. }
  specialize (F a (or_introl eq_refl)). assert (D : forall z, In z (f a) -> ~ In z (flat_map f l)). { intros z Z0 Z1. apply in_flat_map in Z1 as (y & Y & Z1). apply NI. rewrite (I0 a y z (or_introl eq_refl) (or_intror Y) Z0 Z1). exact Y. }
  clear - F R D. induction (f a) as [|b m IHm]; [exact R|]. inversion F as [|x y NB NF]; subst. cbn [app]. constructor; [|apply IHm; [exact NF|intros z Z0; apply D; right; exact Z0]]. intros X. apply in_app_or in X as [X|X]; [auto|]. exact (D b (or_introl eq_refl) X).
Qed.
(** The images drawn in one stage. *)
Definition all_names (s : stage) (data_idx : list Z) (feats : list (string * nat)) : list string := flat_map (fun idx => flat_map (fun f => map (drawn_name s idx (fst f)) (seq 0 (snd f))) feats) data_idx.
Lemma in_all s data feats z : In z (all_names s data feats) -> exists idx f k, In idx data /\ In f feats /\ z = drawn_name s idx (fst f) k.
Proof. intros H. apply in_flat_map in H as (idx & I0 & H). apply in_flat_map in H as (f & F & H). apply in_map_iff in H as (k & <- & _). exists idx, f, k. auto. Qed.
Lemma fst_inj {A B} (l : list (A * B)) x y : NoDup (map fst l) -> In x l -> In y l -> fst x = fst y -> x = y.
Proof.
  induction l as [|a l IH]; intros ND X Y E; [destruct X|]. inversion ND as [|p q NI ND']; subst. destruct X as [->|X], Y as [->|Y]; auto.
  - exfalso. apply NI. rewrite E. apply in_map. exact Y.
  - exfalso. apply NI. rewrite <- E. apply in_map. exact X.
Qed.
Lemma nodup_all s data feats : NoDup data -> NoDup (map fst feats) -> NoDup (all_names s data feats).
Proof.
  intros D F. apply NoDup_flat; [exact D| |].
  - intros idx _. apply NoDup_flat; [eapply NoDup_map_inv; exact F| |].
    + intros f _. apply FinFun.Injective_map_NoDup; [|apply seq_NoDup]. intros a b E. apply drawn_inj in E. tauto.
    + intros f g z If Ig A B. apply in_map_iff in A as (k & <- & _). apply in_map_iff in B as (k' & E & _). apply drawn_inj in E as (_ & _ & E & _). eapply fst_inj; eauto.
  - intros x y z _ _ A B. apply in_flat_map in A as (f & _ & A). apply in_map_iff in A as (k & <- & _). apply in_flat_map in B as (g & _ & B). apply in_map_iff in B as (k' & E & _). apply drawn_inj in E. symmetry. tauto.
Qed.
Lemma vis_names wd ts st s data feats : map (fun x => snd (fst x)) (snd (visualize wd ts st s data feats)) = all_names s data feats.
Proof.
  unfold visualize. cbn [snd]. fold (all_names s data feats). rewrite map_map. cbn [fst snd]. generalize (all_names s data feats). intros l. generalize 0%nat. induction l as [|a l IH]; intros k; [reflexivity|]. cbn [length seq combine map snd]. f_equal. apply IH.
Qed.
Lemma vis_steps wd ts st s data feats : map snd (snd (visualize wd ts st s data feats)) = seq (snd st) (length (all_names s data feats)).
Proof.
  unfold visualize. cbn [snd fst]. fold (all_names s data feats). rewrite map_map. cbn [fst snd]. generalize (all_names s data feats). intros l. transitivity (seq (snd st + 0) (length l)); [|f_equal; lia]. generalize 0%nat. induction l as [|a l IH]; intros k; [reflexivity|]. cbn [length seq combine map fst]. f_equal. rewrite IH. f_equal. lia.
Qed.
Theorem C208_names : forall work_dir timestamp st stages data_idx feats, NoDup stages -> NoDup data_idx -> NoDup (map fst feats) ->
  NoDup (map (fun x => snd (fst x)) (vis_run work_dir timestamp st stages data_idx feats)).
Proof.
  intros wd ts st stages data feats S0 D F. assert (E : forall st, map (fun x => snd (fst x)) (vis_run wd ts st stages data feats) = flat_map (fun s => all_names s data feats) stages).
  { clear. induction stages as [|s r IH]; intros st; [reflexivity|]. cbn [vis_run flat_map]. rewrite map_app, vis_names, IH. reflexivity. }
  rewrite E. apply NoDup_flat; [exact S0|intros; apply nodup_all; assumption|]. intros x y z _ _ A B. apply in_all in A as (i & f & k & _ & _ & ->). apply in_all in B as (i' & f' & k' & _ & _ & B). apply drawn_inj in B. tauto.
Qed.
(** Steps are counted. *)
Theorem C208_steps : forall work_dir timestamp dir stages data_idx feats, let r := vis_run work_dir timestamp (dir, 0%nat) stages data_idx feats in map snd r = seq 0 (length r).
Proof.
  intros wd ts dir stages data feats. cbv zeta. generalize 0%nat. revert dir. induction stages as [|s r IH]; intros dir k; [reflexivity|]. cbn [vis_run]. rewrite map_app, vis_steps, app_length. cbn [snd].
  assert (L : length (snd (visualize wd ts (dir, k) s data feats)) = length (all_names s data feats)). { rewrite <- (vis_names wd ts (dir, k) s data feats), map_length. reflexivity. }
  rewrite L, seq_app. f_equal. unfold visualize. cbn [fst snd]. fold (all_names s data feats). apply IH.
Qed.
(** Nothing is drawn unless it is enabled; an interval of 0 raises. *)
Theorem C208_due : forall enabled interval epoch b, due enabled interval epoch = Ok b -> (b = true <-> enabled = true /\ exists k, epoch = k * interval).
Proof.
  intros [] interval epoch b; unfold due; [|intros H; apply Ok_inj in H; subst b; split; [discriminate|intros []; discriminate]]. destruct (Z.eqb_spec interval 0) as [|N]; [discriminate|]. intros H. apply Ok_inj in H. subst b. rewrite Z.eqb_eq. split.
  - intros E. split; [reflexivity|]. exists (epoch / interval). rewrite Z.mul_comm. pose proof (Z.div_mod epoch interval N). lia.
  - intros [_ [k ->]]. apply Z.mod_mul. exact N.
Qed.
Example C208_example : vis_run "/w" "t" (Some "vis", 0%nat) [BeforeRun; Epoch 12] [0] [("fpn", 2%nat)] =
  [(Some "/w/t/vis/before_run_data_idx_0_fpn_0.jpg", "before_run_data_idx_0_fpn_0", 0%nat); (Some "/w/t/vis/before_run_data_idx_0_fpn_1.jpg", "before_run_data_idx_0_fpn_1", 1%nat);
   (Some "/w/t/vis/epoch_12_data_idx_0_fpn_0.jpg", "epoch_12_data_idx_0_fpn_0", 2%nat); (Some "/w/t/vis/epoch_12_data_idx_0_fpn_1.jpg", "epoch_12_data_idx_0_fpn_1", 3%nat)] /\
  due true 2 4 = Ok true.
Proof. split; reflexivity. Qed.

Print Assumptions C206_warmup_refuted.
Print Assumptions C206_unit_refuted.
Print Assumptions C206_mean_partial.
Print Assumptions C206_returned.
Print Assumptions C207_position.
Print Assumptions C207_missing.
Print Assumptions C208_nested_refuted.
Print Assumptions C208_directory_partial.
Print Assumptions C208_names.
Print Assumptions C208_steps.
Print Assumptions C208_due.

(** The iterations of an epoch are the fewest with which the epochs hold all iterations. *)
Theorem C207_ceil : forall info a b n, get info "max_iters" = Some a -> get info "max_epochs" = Some b -> 0 < b -> iter_pre_epoch info = Ok n -> (n - 1) * b < a <= n * b.
Proof.
  intros info a b n A B C E. unfold iter_pre_epoch, get_info in E. rewrite A, B in E. cbn [bind] in E. rewrite (proj2 (Z.eqb_neq b 0)) in E by lia. apply Ok_inj in E. subst n.
  pose proof (Z.div_mod (- a) b ltac:(lia)) as D. pose proof (Z.mod_pos_bound (- a) b C) as M. nia.
Qed.
Example C207_ceil_example : iter_pre_epoch [("max_iters", 10); ("max_epochs", 4)] = Ok 3.
Proof. reflexivity. Qed.
Print Assumptions C207_ceil.
