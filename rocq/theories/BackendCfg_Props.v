(** What the quantization backends' operator tables say: C232-C236. *)
From Coq Require Import FinFun.
From Verif Require Import Prelude BackendCfg_Model.

Lemma pat_eqb_true : forall a b, pat_eqb a b = true <-> a = b.
Proof.
  induction a as [s | s p IH]; intros [t | t q]; cbn; try (split; discriminate).
  - rewrite String.eqb_eq. split; [intros ->; reflexivity | intros E; injection E; auto].
  - rewrite andb_true_iff, String.eqb_eq, IH. split; [intros [-> ->]; reflexivity | intros E; injection E; auto].
Qed.
Lemma pat_dec : forall a b : pat, {a = b} + {a <> b}.
Proof. intros a b. destruct (pat_eqb a b) eqn:E; [left; apply pat_eqb_true; exact E | right; intros ->]. assert (pat_eqb b b = true) by (apply pat_eqb_true; reflexivity). congruence. Qed.
Lemma pat_eqb_refl : forall a, pat_eqb a a = true. Proof. intro a. apply pat_eqb_true. reflexivity. Qed.
Lemma pat_eqb_no : forall a b, a <> b -> pat_eqb a b = false.
Proof. intros a b N. destruct (pat_eqb a b) eqn:E; [apply pat_eqb_true in E; contradiction | reflexivity]. Qed.

Lemma in_by : forall p l, existsb (pat_eqb p) l = true -> In p l.
Proof. intros p l H. apply existsb_exists in H. destruct H as (x & X & Y). apply pat_eqb_true in Y. subst x. exact X. Qed.

Lemma look_set : forall t c p, look (set_config t c) p = if pat_eqb p (c_pat c) then Some c else look t p.
Proof.
  induction t as [| (q, d) r IH]; intros c p; cbn.
  - reflexivity.
  - destruct (pat_eqb (c_pat c) q) eqn:E; cbn.
    + apply pat_eqb_true in E. rewrite <- E. destruct (pat_eqb p (c_pat c)); reflexivity.
    + destruct (pat_eqb p q) eqn:F.
      * apply pat_eqb_true in F. subst q. rewrite pat_eqb_no; [reflexivity |]. intros ->. rewrite pat_eqb_refl in E. discriminate.
      * apply IH.
Qed.

(** ** C232: which config is in effect *)
(** The last config set for a pattern. *)
Definition in_effect (cs : list cfg) (p : pat) (c : cfg) : Prop :=
  exists before after, cs = before ++ c :: after /\ c_pat c = p /\ (forall d, In d after -> c_pat d <> p).

Fixpoint last_of (p : pat) (cs : list cfg) (o : option cfg) : option cfg :=
  match cs with [] => o | c :: r => last_of p r (if pat_eqb p (c_pat c) then Some c else o) end.
Lemma look_last : forall cs t p, look (set_configs t cs) p = last_of p cs (look t p).
Proof. induction cs as [| c r IH]; intros t p; [reflexivity |]. cbn. unfold set_configs in IH. rewrite IH, look_set. reflexivity. Qed.
Lemma last_none : forall cs p o, (forall d, In d cs -> c_pat d <> p) -> last_of p cs o = o.
Proof.
  induction cs as [| c r IH]; intros p o H; [reflexivity |]. cbn. rewrite pat_eqb_no.
  - apply IH. intros d D. apply H. right. exact D.
  - intros E. apply (H c); [left; reflexivity | congruence].
Qed.
Lemma last_app : forall a b p o, last_of p (a ++ b) o = last_of p b (last_of p a o).
Proof. induction a as [| c r IH]; intros b p o; [reflexivity | apply IH]. Qed.
Lemma last_effect : forall cs p o, match last_of p cs o with
  | Some c => in_effect cs p c \/ (o = Some c /\ forall d, In d cs -> c_pat d <> p)
  | None => o = None /\ forall d, In d cs -> c_pat d <> p end.
Proof.
  induction cs as [| c r IH]; intros p o.
  - cbn. destruct o; [right |]; (split; [reflexivity | intros d []]).
  - cbn. specialize (IH p (if pat_eqb p (c_pat c) then Some c else o)).
    destruct (pat_eqb p (c_pat c)) eqn:E.
    + apply pat_eqb_true in E. destruct (last_of p r (Some c)) as [e |].
      * left. destruct IH as [(b & a & -> & P & N) | [F N]].
        -- exists (c :: b), a. split; [reflexivity | split; assumption].
        -- injection F as <-. exists [], r. split; [reflexivity | split; [symmetry; exact E | exact N]].
      * destruct IH as [F _]. discriminate.
    + assert (NE : c_pat c <> p) by (intros F; rewrite F, pat_eqb_refl in E; discriminate).
      destruct (last_of p r o) as [e |].
      * destruct IH as [(b & a & -> & P & N) | [F N]].
        -- left. exists (c :: b), a. split; [reflexivity | split; assumption].
        -- right. split; [exact F |]. intros d [<- | D]; [exact NE | exact (N d D)].
      * destruct IH as [F N]. split; [exact F |]. intros d [<- | D]; [exact NE | exact (N d D)].
Qed.

(** Setting a list of configs leaves, for every pattern, the last config with that pattern in
    effect, and nothing for the patterns that occur in no config. *)
Theorem C232_last : forall cs p c, look (set_configs [] cs) p = Some c <-> in_effect cs p c.
Proof.
  intros cs p c. rewrite look_last. cbn [look]. split.
  - intros E. pose proof (last_effect cs p None) as H. rewrite E in H. destruct H as [H | [H _]]; [exact H | discriminate].
  - intros (b & a & -> & P & N). rewrite last_app. cbn [last_of]. rewrite <- P, pat_eqb_refl.
    apply last_none. intros d D. rewrite P. exact (N d D).
Qed.
Theorem C232_absent : forall cs p, look (set_configs [] cs) p = None <-> (forall c, In c cs -> c_pat c <> p).
Proof.
  intros cs p. rewrite look_last. cbn [look]. split.
  - intros E. pose proof (last_effect cs p None) as H. rewrite E in H. exact (proj2 H).
  - intros H. apply last_none. exact H.
Qed.
(** Groups of configs without a common pattern can be set in any order. *)
Theorem C232_swap : forall a b cs ds p,
  (forall c d, In c a -> In d b -> c_pat c <> c_pat d) ->
  look (set_configs [] (cs ++ a ++ b ++ ds)) p = look (set_configs [] (cs ++ b ++ a ++ ds)) p.
Proof.
  intros a b cs ds p H. rewrite !look_last, !last_app. cbn [look]. f_equal.
  generalize (last_of p cs None). intro o.
  destruct (in_dec pat_dec p (map c_pat a)) as [I | I].
  - assert (N : forall d, In d b -> c_pat d <> p).
    { intros d D E. apply in_map_iff in I. destruct I as (c & P & C). apply (H c d C D). congruence. }
    rewrite !(last_none b) by exact N. reflexivity.
  - assert (N : forall c, In c a -> c_pat c <> p) by (intros c C E; apply I; rewrite <- E; apply in_map; exact C).
    rewrite !(last_none a) by exact N. reflexivity.
Qed.

(** How often a pattern is set. *)
Definition times (p : pat) (cs : list cfg) : nat := List.length (filter (fun c => pat_eqb p (c_pat c)) cs).
Definition dims : list string := ["1d"; "2d"; "3d"]%string.
Definition doubled : list pat := flat_map (fun n => [One (fused_relu_of n); One (relu_qat_of n)]) dims.
Lemma times_count : forall p cs, times p cs = count_occ pat_dec (map c_pat cs) p.
Proof.
  intros p cs. unfold times. induction cs as [| c r IH]; [reflexivity |]. cbn [filter map count_occ].
  destruct (pat_dec (c_pat c) p) as [E | E].
  - rewrite <- E at 1. rewrite pat_eqb_refl. cbn [List.length]. rewrite IH. reflexivity.
  - rewrite pat_eqb_no by congruence. exact IH.
Qed.
Fixpoint once_but (ex : list pat) (l : list pat) : bool :=
  match l with
  | [] => true
  | p :: r => (existsb (pat_eqb p) ex || negb (existsb (pat_eqb p) r)) && once_but ex r
  end.
Lemma once_but_ok : forall ex l p, once_but ex l = true -> ~ In p ex -> (count_occ pat_dec l p <= 1)%nat.
Proof.
  induction l as [| q r IH]; intros p O N; [cbn; lia |]. cbn in O. apply andb_prop in O. destruct O as [A B].
  cbn [count_occ]. destruct (pat_dec q p) as [-> | E]; [| apply IH; assumption].
  apply orb_prop in A. destruct A as [A | A].
  - apply existsb_exists in A. destruct A as (x & X & Y). apply pat_eqb_true in Y. subst x. contradiction.
  - apply negb_true_iff in A.
    assert (Z0 : count_occ pat_dec r p = 0%nat).
    { apply count_occ_not_In. intros I. assert (existsb (pat_eqb p) r = true); [| congruence].
      apply existsb_exists. exists p. split; [exact I | apply pat_eqb_refl]. }
    lia.
Qed.
(** Patterns of the native table apart from the fixed-parameter operators. *)
Definition others : list pat := map c_pat (native_list []).
Lemma native_split : forall ops, exists a b, native_list ops = a ++ fixed_configs ops [weighted_quint8] ++ b /\ native_list [] = a ++ b.
Proof.
  intro ops. unfold native_list.
  exists (conv_configs [weighted_quint8] ++ linear_configs [weighted_quint8; dynamic_int8; dynamic_float16]
          ++ binary_configs [weighted_quint8] ++ [cat_config [default_quint8]] ++ default_configs [default_quint8]).
  exists (share_configs [default_quint8] ++ bn_configs [default_quint8] ++ ln_configs [input_output_only]
          ++ rnn_configs [dynamic_int8; dynamic_float16] ++ embedding_configs [weight_only_quint8; weight_only_quint4x2]).
  split; [rewrite <- !app_assoc; reflexivity |]. change (fixed_configs [] [weighted_quint8]) with (@nil cfg).
  rewrite app_nil_l, <- !app_assoc. reflexivity.
Qed.
Lemma fixed_pats : forall ops ds, map c_pat (fixed_configs ops ds) = map One ops.
Proof. intros. unfold fixed_configs. rewrite map_map. reflexivity. Qed.
Lemma count_one : forall (l : list string) p, NoDup l -> (count_occ pat_dec (map One l) p <= 1)%nat.
Proof.
  intros l p N. assert (M : NoDup (map One l)) by (apply Injective_map_NoDup; [intros x y E; injection E; auto | exact N]).
  apply (proj1 (NoDup_count_occ pat_dec _)) with (x := p) in M. exact M.
Qed.

(** In every backend a pattern is set at most once, except for the fused convolution + ReLU
    modules and their QAT counterparts. *)
Theorem C232_once : forall ops p, ~ In p doubled ->
  (times p academic_list <= 1)%nat /\ (times p tensorrt_list <= 1)%nat /\ (times p openvino_list <= 1)%nat /\
  (NoDup ops -> (forall s, In s ops -> ~ In (One s) others) -> (times p (native_list ops) <= 1)%nat).
Proof.
  intros ops p N. rewrite !times_count. repeat split.
  - apply (once_but_ok doubled); [vm_compute; reflexivity | exact N].
  - apply (once_but_ok doubled); [vm_compute; reflexivity | exact N].
  - apply (once_but_ok doubled); [vm_compute; reflexivity | exact N].
  - intros D F. destruct (native_split ops) as (a & b & E & G).
    assert (O : (count_occ pat_dec (map c_pat (native_list [])) p <= 1)%nat)
      by (apply (once_but_ok doubled); [vm_compute; reflexivity | exact N]).
    rewrite E, !map_app, !count_occ_app, fixed_pats. rewrite G, map_app, count_occ_app in O.
    pose proof (count_one ops p D) as C1.
    destruct (in_dec pat_dec p (map One ops)) as [I | I].
    + apply in_map_iff in I. destruct I as (s & <- & I). specialize (F s I). unfold others in F. rewrite G, map_app in F.
      assert (count_occ pat_dec (map c_pat a) (One s) = 0%nat) by (apply count_occ_not_In; intros J; apply F; apply in_or_app; left; exact J).
      assert (count_occ pat_dec (map c_pat b) (One s) = 0%nat) by (apply count_occ_not_In; intros J; apply F; apply in_or_app; right; exact J).
      lia.
    + rewrite (proj1 (count_occ_not_In pat_dec _ _) I). lia.
Qed.
Example C232_example :
  times (One "nni.ConvReLU2d") academic_list = 2%nat /\ times (One "nn.Conv2d") academic_list = 1%nat /\
  NoDup ["nn.Sigmoid"; ".tanh"]%string /\ (forall s, In s ["nn.Sigmoid"; ".tanh"]%string -> ~ In (One s) others) /\
  times (One "nn.Sigmoid") (native_list ["nn.Sigmoid"; ".tanh"]%string) = 1%nat.
Proof.
  split; [vm_compute; reflexivity |]. split; [vm_compute; reflexivity |]. split.
  - repeat constructor; cbn; intuition discriminate.
  - split; [| vm_compute; reflexivity].
    intros s I J. assert (existsb (pat_eqb (One s)) others = true).
    { apply existsb_exists. exists (One s). split; [exact J | apply pat_eqb_refl]. }
    destruct I as [<- | [<- | []]]; vm_compute in H; discriminate.
Qed.

(** ** C233: the modules a config names have configs themselves *)
Definition pats_of (t : table) : list cfg := map snd t.
Lemma look_in : forall t p c, look t p = Some c -> In c (pats_of t).
Proof.
  induction t as [| (q, d) r IH]; intros p c; [discriminate |]. cbn. destruct (pat_eqb p q); [intros E; injection E as ->; left; reflexivity |].
  intros E. right. exact (IH p c E).
Qed.
(** Decision procedure for one config. *)
Definition some_ref (o : option cfg) : bool := match o with Some d => match c_ref d with Some _ => true | None => false end | None => false end.
Definition ostr_eqb (a b : option string) : bool :=
  match a, b with Some x, Some y => String.eqb x y | None, None => true | _, _ => false end.
Definition qat_ok (t : table) (c : cfg) : bool :=
  match c_qat c with
  | None => true
  | Some q => match look t (One q) with
      | None => false
      | Some d => match c_root d, c_ref d with
          | Some r, Some f => match look t (One r) with
              | Some e => ostr_eqb (c_ref e) (Some f) && ostr_eqb (c_root e) (Some r) && match c_fused d with None => true | _ => false end
              | None => false end
          | _, _ => false end end end.
Definition fused_ok (t : table) (c : cfg) : bool :=
  match c_fused c with None => true | Some f => match look t (One f) with Some d => match c_fused d with None => true | _ => false end | None => false end end.
Lemma ostr_true : forall a b, ostr_eqb a b = true -> a = b.
Proof. intros [a |] [b |]; cbn; try discriminate; [intros E; apply String.eqb_eq in E; congruence | reflexivity]. Qed.

(** The QAT module a config names has a config, which names the floating point module it came
    from and the quantized module it becomes; the floating point module's own config says the
    same. *)
Definition leads_back (t : table) : Prop := forall p c q, look t p = Some c -> c_qat c = Some q ->
  exists d r f e, look t (One q) = Some d /\ c_root d = Some r /\ c_ref d = Some f /\
    look t (One r) = Some e /\ c_root e = Some r /\ c_ref e = Some f.
(** The module a fusion produces has a config, and is not fused again. *)
Definition fused_known (t : table) : Prop := forall p c f, look t p = Some c -> c_fused c = Some f ->
  exists d, look t (One f) = Some d /\ c_fused d = None.
Lemma leads_of : forall t, forallb (qat_ok t) (pats_of t) = true -> leads_back t.
Proof.
  intros t H p c q L Q. rewrite forallb_forall in H. specialize (H c (look_in t p c L)). unfold qat_ok in H. rewrite Q in H.
  destruct (look t (One q)) as [d |]; [| discriminate]. destruct (c_root d) as [r |] eqn:R; [| discriminate].
  destruct (c_ref d) as [f |] eqn:F; [| discriminate]. destruct (look t (One r)) as [e |] eqn:E; [| discriminate].
  apply andb_prop in H. destruct H as [H _]. apply andb_prop in H. destruct H as [A B].
  exists d, r, f, e. repeat split; auto; apply ostr_true; assumption.
Qed.
Lemma fused_of : forall t, forallb (fused_ok t) (pats_of t) = true -> fused_known t.
Proof.
  intros t H p c f L Q. rewrite forallb_forall in H. specialize (H c (look_in t p c L)). unfold fused_ok in H. rewrite Q in H.
  destruct (look t (One f)) as [d |]; [| discriminate]. exists d. split; [reflexivity |]. destruct (c_fused d); [discriminate | reflexivity].
Qed.

Theorem C233_static : leads_back academic /\ leads_back tensorrt /\ leads_back openvino /\
  fused_known academic /\ fused_known tensorrt /\ fused_known openvino.
Proof. repeat split; (apply leads_of || apply fused_of); vm_compute; reflexivity. Qed.

Lemma native_look : forall ops p, ~ In p (map One ops) -> look (native ops) p = look (native []) p.
Proof.
  intros ops p N. unfold native. rewrite !look_last. cbn [look]. destruct (native_split ops) as (a & b & E & G).
  rewrite E, G, !last_app. f_equal. apply last_none. intros d D F. apply N. rewrite <- (fixed_pats ops [weighted_quint8]), <- F.
  apply in_map. exact D.
Qed.
Lemma native_fixed : forall ops s, In s ops -> ~ In (One s) others ->
  look (native ops) (One s) = Some (set_dtypes [weighted_quint8] (new (One s))).
Proof.
  intros ops s I N. unfold native. rewrite look_last. cbn [look]. destruct (native_split ops) as (a & b & E & G).
  unfold others in N. rewrite G, map_app in N.
  rewrite E, !last_app. rewrite (last_none b) by (intros d D F; apply N; rewrite <- F; apply in_or_app; right; apply in_map; exact D).
  rewrite (last_none a) by (intros d D F; apply N; rewrite <- F; apply in_or_app; left; apply in_map; exact D).
  clear -I. generalize (@None cfg). induction ops as [| x r IH]; [destruct I |]. intro o. cbn [fixed_configs map last_of].
  destruct (in_dec string_dec s r) as [J | J].
  - apply (IH J).
  - destruct I as [-> | I]; [| contradiction]. cbn [c_pat set_dtypes set_obs new]. rewrite pat_eqb_refl.
    apply last_none. intros d D F. apply in_map_iff in D. destruct D as (x & <- & X). cbn in F. injection F as ->. contradiction.
Qed.
Lemma pats_in : forall cs p c, look (set_configs [] cs) p = Some c -> In p (map c_pat cs).
Proof. intros cs p c H. apply C232_last in H. destruct H as (b & a & -> & <- & _). apply in_map, in_or_app. right. left. reflexivity. Qed.
Lemma pat_others : forall p c, look (native []) p = Some c -> In p others.
Proof. exact (pats_in (native_list [])). Qed.
(** The native backend, whatever the fixed-parameter operators of torch are, as long as no
    other part of the table mentions them. *)
Theorem C233_native : forall ops, (forall s, In s ops -> ~ In (One s) others) ->
  leads_back (native ops) /\ fused_known (native ops) /\
  (forall s, In s ops -> exists c, look (native ops) (One s) = Some c /\ c_obs c = Different /\ c_dtypes c = [weighted_quint8] /\
                          c_root c = None /\ c_qat c = None /\ c_fused c = None).
Proof.
  intros ops F.
  assert (L0 : leads_back (native [])) by (apply leads_of; vm_compute; reflexivity).
  assert (F0 : fused_known (native [])) by (apply fused_of; vm_compute; reflexivity).
  assert (K : forall p c, look (native []) p = Some c -> look (native ops) p = Some c).
  { intros p c H. rewrite native_look; [exact H |]. intros I. apply in_map_iff in I. destruct I as (s & <- & I).
    exact (F s I (pat_others _ _ H)). }
  assert (B : forall p c, look (native ops) p = Some c -> look (native []) p = Some c \/ (c_qat c = None /\ c_fused c = None)).
  { intros p c H. destruct (in_dec pat_dec p (map One ops)) as [I | I].
    - right. apply in_map_iff in I. destruct I as (s & <- & I). rewrite (native_fixed ops s I (F s I)) in H. injection H as <-. split; reflexivity.
    - left. rewrite <- (native_look ops p I). exact H. }
  split; [| split].
  - intros p c q H Q. destruct (B p c H) as [H0 | [E _]]; [| congruence].
    destruct (L0 p c q H0 Q) as (d & r & f & e & A1 & A2 & A3 & A4 & A5 & A6). exists d, r, f, e. repeat split; auto.
  - intros p c f H Q. destruct (B p c H) as [H0 | [_ E]]; [| congruence].
    destruct (F0 p c f H0 Q) as (d & A & A2). exists d. auto.
  - intros s I. eexists. split; [exact (native_fixed ops s I (F s I)) |]. repeat split.
Qed.
Example C233_example :
  exists c d, look academic (Two "nn.ReLU" (Two "nn.BatchNorm2d" (One "nn.Conv2d"))) = Some c /\ c_fused c = Some "nni.ConvBnReLU2d"%string /\
  look academic (One "nni.ConvBnReLU2d") = Some d /\ c_qat d = Some "nniqat.ConvBnReLU2d"%string /\
  exists e, look academic (One "nniqat.ConvBnReLU2d") = Some e /\ c_root e = Some "nn.Conv2d"%string /\ c_ref e = Some "nnqr.Conv2d"%string.
Proof. vm_compute. repeat (eexists || split). Qed.

(** The modules met along a convolution's way from floating point to quantized, for each
    dimension: fusion, QAT, reference; all for the dtype configs the table was made with. *)
Theorem C233_conv : forall ds n, In n dims ->
  let t := set_configs [] (conv_configs ds) in
  (forall act, act = "nn.ReLU"%string \/ act = "F.relu"%string -> exists c, look t (Two act (One ("nn.Conv" ++ n)%string)) = Some c /\
     c_fused c = Some ("nni.ConvReLU" ++ n)%string /\ c_dtypes c = ds) /\
  (exists c, look t (Two ("nn.BatchNorm" ++ n) (One ("nn.Conv" ++ n)))%string = Some c /\ c_fused c = Some ("nni.ConvBn" ++ n)%string /\ c_dtypes c = ds) /\
  (forall act, act = "nn.ReLU"%string \/ act = "F.relu"%string -> exists c, look t (Two act (Two ("nn.BatchNorm" ++ n) (One ("nn.Conv" ++ n))))%string = Some c /\
     c_fused c = Some ("nni.ConvBnReLU" ++ n)%string /\ c_dtypes c = ds) /\
  (forall k, In k [""; "ReLU"; "Bn"; "BnReLU"]%string ->
     exists c d, look t (One ((if String.eqb k "" then "nn." else "nni.") ++ "Conv" ++ k ++ n)%string) = Some c /\
       c_qat c = Some ((if String.eqb k "" then "nnqat." else "nniqat.") ++ "Conv" ++ k ++ n)%string /\ c_dtypes c = ds /\
       look t (One ((if String.eqb k "" then "nnqat." else "nniqat.") ++ "Conv" ++ k ++ n)%string) = Some d /\
       c_root d = Some ("nn.Conv" ++ n)%string /\ c_ref d = Some ("nnqr.Conv" ++ n)%string /\ c_dtypes d = ds) /\
  (exists c, look t (One ("nn.ConvTranspose" ++ n)%string) = Some c /\ c_root c = Some ("nn.ConvTranspose" ++ n)%string /\
     c_ref c = Some ("nnqr.ConvTranspose" ++ n)%string /\ c_dtypes c = ds) /\
  (exists c, look t (One ("F.conv" ++ n)%string) = Some c /\ c_index c = [("weight", 1); ("bias", 2)]%string /\ c_dtypes c = ds).
Proof.
  intros ds n I. cbn [dims In] in I. destruct I as [<- | [<- | [<- | []]]]; repeat split;
    try (intros act [-> | ->]); try (intros k K; cbn [In] in K; destruct K as [<- | [<- | [<- | [<- | []]]]]);
    vm_compute; repeat (eexists || split).
Qed.

(** ** C234: what an earlier config said about a pattern is lost when the pattern is set again *)
(** The full claim: the root module and the reference module declared for a pattern are those
    in effect. *)
Definition keeps (cs : list cfg) (c : cfg) : Prop := forall r, c_root c = Some r ->
  exists d, look (set_configs [] cs) (c_pat c) = Some d /\ c_root d = Some r.
Definition C234_claim : Prop := forall c, In c academic_list -> keeps academic_list c.
(** It fails for the fused convolution + ReLU modules: their second config has no root
    module. *)
Theorem C234_root_kept_refuted : ~ C234_claim.
Proof.
  intros H. specialize (H (set_qat "nniqat.ConvReLU2d" (set_ref "nnqr.Conv2d" (set_root "nn.Conv2d"
    (set_dtypes [weighted_quint8] (set_obs Different (new (One "nni.ConvReLU2d")))))))).
  assert (I : In (set_qat "nniqat.ConvReLU2d" (set_ref "nnqr.Conv2d" (set_root "nn.Conv2d"
    (set_dtypes [weighted_quint8] (set_obs Different (new (One "nni.ConvReLU2d"))))))) academic_list)
    by (vm_compute; do 25 right; left; reflexivity).
  destruct (H I "nn.Conv2d"%string eq_refl) as (d & L & R). clear H I.
  vm_compute in L. apply (f_equal (fun o => match o with Some x => c_root x | None => None end)) in L. cbn in L. rewrite R in L. discriminate.
Qed.
(** In every backend each fused convolution + ReLU is left without root and reference module
    but with its QAT module, and everything declared for any other pattern is in effect. *)
Definition relu_fusions : list pat := map (fun n => One ("nni.ConvReLU" ++ n)%string) dims.
Definition keep_ok (t : table) (c : cfg) : bool :=
  existsb (pat_eqb (c_pat c)) relu_fusions ||
  match look t (c_pat c) with
  | Some d => ostr_eqb (c_root c) (c_root d) && ostr_eqb (c_qat c) (c_qat d) && ostr_eqb (c_ref c) (c_ref d) && ostr_eqb (c_fused c) (c_fused d)
              && match c_obs c, c_obs d with Different, Different | Share, Share => true | _, _ => false end
  | None => false end.
Definition same_but_dtypes (c d : cfg) : Prop :=
  c_root d = c_root c /\ c_qat d = c_qat c /\ c_ref d = c_ref c /\ c_fused d = c_fused c /\ c_obs d = c_obs c.
Lemma keep_of : forall cs, forallb (keep_ok (set_configs [] cs)) cs = true ->
  forall c, In c cs -> ~ In (c_pat c) relu_fusions -> exists d, look (set_configs [] cs) (c_pat c) = Some d /\ same_but_dtypes c d.
Proof.
  intros cs H c I N. rewrite forallb_forall in H. specialize (H c I). unfold keep_ok in H. apply orb_prop in H. destruct H as [H | H].
  - apply existsb_exists in H. destruct H as (x & X & Y). apply pat_eqb_true in Y. subst x. contradiction.
  - destruct (look (set_configs [] cs) (c_pat c)) as [d |]; [| discriminate]. exists d. split; [reflexivity |].
    repeat (apply andb_prop in H; destruct H as [H ?]). repeat split; try (symmetry; apply ostr_true; assumption).
    destruct (c_obs c), (c_obs d); try reflexivity; discriminate.
Qed.
Theorem C234_root_kept_partial : forall cs, In cs [academic_list; tensorrt_list; openvino_list; native_list []] ->
  (forall c, In c cs -> ~ In (c_pat c) relu_fusions -> exists d, look (set_configs [] cs) (c_pat c) = Some d /\ same_but_dtypes c d) /\
  (forall n, In n dims -> exists d, look (set_configs [] cs) (One ("nni.ConvReLU" ++ n)%string) = Some d /\
     c_root d = None /\ c_ref d = None /\ c_qat d = Some ("nniqat.ConvReLU" ++ n)%string).
Proof.
  intros cs I. cbn [In] in I.
  destruct I as [<- | [<- | [<- | [<- | []]]]]; (split; [apply keep_of; vm_compute; reflexivity |]);
    intros n D; cbn [dims In] in D; destruct D as [<- | [<- | [<- | []]]]; vm_compute; repeat (eexists || split).
Qed.
Example C234_example :
  exists c d, look academic (One "nni.LinearReLU") = Some c /\ c_root c = Some "nn.Linear"%string /\
  look academic (One "nni.ConvReLU1d") = Some d /\ c_root d = None.
Proof. vm_compute. repeat (eexists || split). Qed.

(** ** C235: whose output shares the observer of its input *)
Definition sharers : list pat := One "torch.cat"%string :: map One share_ops.
Definition share_ok (c : cfg) : bool :=
  Bool.eqb (existsb (pat_eqb (c_pat c)) sharers) match c_obs c with Share => true | Different => false end.
Lemma look_pat : forall cs p c, look (set_configs [] cs) p = Some c -> c_pat c = p /\ In c cs.
Proof.
  intros cs p c H. apply C232_last in H. destruct H as (b & a & -> & P & _). split; [exact P |]. apply in_or_app. right. left. reflexivity.
Qed.
Lemma share_of : forall cs, forallb share_ok cs = true -> forall p c, look (set_configs [] cs) p = Some c -> (c_obs c = Share <-> In p sharers).
Proof.
  intros cs H p c L. destruct (look_pat cs p c L) as [<- I]. rewrite forallb_forall in H. specialize (H c I). unfold share_ok in H.
  apply Bool.eqb_prop in H. split.
  - intros E. rewrite E in H. apply existsb_exists in H. destruct H as (x & X & Y). apply pat_eqb_true in Y. subst x. exact X.
  - intros J. assert (E : existsb (pat_eqb (c_pat c)) sharers = true) by (apply existsb_exists; eexists; split; [exact J | apply pat_eqb_refl]).
    rewrite E in H. destruct (c_obs c); [discriminate | reflexivity].
Qed.
(** In OpenVINO and native exactly concatenation and the listed operators share, and all of
    them are in the table; the other two backends share nowhere.  [1] of the arguments of an
    addition or multiplication being a tensor makes it share too. *)
Theorem C235_share : forall ops, (forall s, In s ops -> ~ In (One s) others) ->
  (forall p c, look openvino p = Some c -> (c_obs c = Share <-> In p sharers)) /\
  (forall p c, look (native ops) p = Some c -> (c_obs c = Share <-> In p sharers)) /\
  (forall p, In p sharers -> (exists c, look openvino p = Some c /\ c_dtypes c = [default_quint8]) /\
                             (exists c, look (native ops) p = Some c /\ c_dtypes c = [default_quint8])) /\
  (forall p c, look academic p = Some c -> c_obs c = Different) /\
  (forall p c, look tensorrt p = Some c -> c_obs c = Different).
Proof.
  intros ops F.
  assert (SO : forall p, In p sharers -> In p others).
  { assert (Q : forallb (fun p => existsb (pat_eqb p) others) sharers = true) by (vm_compute; reflexivity).
    intros p I. rewrite forallb_forall in Q. specialize (Q p I). apply existsb_exists in Q. destruct Q as (x & X & Y).
    apply pat_eqb_true in Y. subst x. exact X. }
  assert (NO : forall p, In p others -> ~ In p (map One ops)).
  { intros p I J. apply in_map_iff in J. destruct J as (s & <- & J). exact (F s J I). }
  split; [apply share_of; vm_compute; reflexivity |]. split; [| split].
  - intros p c L. destruct (in_dec pat_dec p (map One ops)) as [I | I].
    + apply in_map_iff in I. destruct I as (s & <- & I). rewrite (native_fixed ops s I (F s I)) in L. injection L as <-.
      cbn. split; [discriminate |]. intros J. exfalso. exact (F s I (SO _ J)).
    + rewrite (native_look ops p I) in L. revert p c L I.
      assert (Q := share_of (native_list [])). unfold native. intros p c L _. apply Q; [vm_compute; reflexivity | exact L].
  - intros p I. split.
    + assert (Q : forallb (fun p => match look openvino p with Some c => match c_dtypes c with [d] => String.eqb (d_in d) "quint8" && String.eqb (d_out d) "quint8" && negb (d_dynamic d) && match d_weight d, d_bias d with None, None => true | _, _ => false end | _ => false end | None => false end) sharers = true) by (vm_compute; reflexivity).
      rewrite forallb_forall in Q. specialize (Q p I). destruct (look openvino p) as [c |]; [| discriminate]. exists c. split; [reflexivity |].
      destruct (c_dtypes c) as [| d [| ]]; try discriminate. repeat (apply andb_prop in Q; destruct Q as [Q ?]).
      unfold default_quint8. destruct d as [x y [w |] [b |] z]; cbn in *; try discriminate. apply String.eqb_eq in Q. apply String.eqb_eq in H1.
      apply negb_true_iff in H0. subst. reflexivity.
    + rewrite (native_look ops p (NO p (SO p I))).
      assert (Q : forallb (fun p => match look (native []) p with Some c => match c_dtypes c with [d] => String.eqb (d_in d) "quint8" && String.eqb (d_out d) "quint8" && negb (d_dynamic d) && match d_weight d, d_bias d with None, None => true | _, _ => false end | _ => false end | None => false end) sharers = true) by (vm_compute; reflexivity).
      rewrite forallb_forall in Q. specialize (Q p I). destruct (look (native []) p) as [c |]; [| discriminate]. exists c. split; [reflexivity |].
      destruct (c_dtypes c) as [| d [| ]]; try discriminate. repeat (apply andb_prop in Q; destruct Q as [Q ?]).
      unfold default_quint8. destruct d as [x y [w |] [b |] z]; cbn in *; try discriminate. apply String.eqb_eq in Q. apply String.eqb_eq in H1.
      apply negb_true_iff in H0. subst. reflexivity.
  - assert (G : forall cs, forallb (fun c => match c_obs c with Different => true | Share => false end) cs = true ->
      forall p c, look (set_configs [] cs) p = Some c -> c_obs c = Different).
    { intros cs H p c L. destruct (look_pat cs p c L) as [_ I]. rewrite forallb_forall in H. specialize (H c I). destruct (c_obs c); [reflexivity | discriminate]. }
    split; apply G; vm_compute; reflexivity.
Qed.
(** The additions and multiplications, alone or followed by a ReLU of any of the three kinds. *)
Theorem C235_binary : forall ops op act, (forall s, In s ops -> ~ In (One s) others) ->
  In op ["operator.add"; "torch.add"; "operator.mul"; "torch.mul"]%string -> In act ["nn.ReLU"; "F.relu"; "torch.relu"]%string ->
  forall p, p = One op \/ p = Two act (One op) ->
  (exists c, look openvino p = Some c /\ c_args c = [(0, Different); (1, Share); (2, Different)]) /\
  (exists c, look (native ops) p = Some c /\ c_args c = [(0, Different); (1, Share); (2, Different)]).
Proof.
  intros ops op act F O A p P. assert (I : In p others).
  { cbn [In] in O, A. destruct O as [<- | [<- | [<- | [<- | []]]]]; destruct A as [<- | [<- | [<- | []]]]; destruct P as [-> | ->]; apply in_by; vm_compute; reflexivity. }
  rewrite native_look by (intros J; apply in_map_iff in J; destruct J as (s & <- & J); exact (F s J I)). clear I F.
  cbn [In] in O, A. destruct O as [<- | [<- | [<- | [<- | []]]]]; destruct A as [<- | [<- | [<- | []]]]; destruct P as [-> | ->];
    vm_compute; repeat (eexists || split).
Qed.
Example C235_example :
  (exists c, look openvino (One "F.relu") = Some c /\ c_obs c = Share) /\
  (exists c, look openvino (Two "F.relu" (One "nn.Conv2d")) = Some c /\ c_obs c = Different) /\
  look academic (One "F.relu") = None.
Proof. vm_compute. repeat (eexists || split). Qed.

(** ** C236: which torch versions have backend tables *)
(** Released versions [a.b.c]: exactly 1.13.0 and 1.13.1; the four names are always there. *)
Theorem C236_release : forall a b c ops, let m := backend_configs [a; b; c; 0; 0; 0] ops in
  map fst m = ["academic"; "native"; "tensorrt"; "openvino"]%string /\
  ((exists t, In ("native"%string, Some t) m) <-> (a = 1 /\ b = 13 /\ (c = 0 \/ c = 1))) /\
  ((exists k t, In (k, Some t) m) -> m = [("academic", Some academic); ("native", Some (native ops)); ("tensorrt", Some tensorrt); ("openvino", Some openvino)]%string).
Proof.
  intros a b c ops m. subst m. unfold backend_configs. cbn [tuple_leb].
  assert (E : ((1 <? a) || ((1 =? a) && ((13 <? b) || ((13 =? b) && ((0 <? c) || ((0 =? c) && ((0 <? 0) || ((0 =? 0) && ((0 <? 0) || ((0 =? 0) && ((0 <? 0) || ((0 =? 0) && true)))))))))))) &&
              ((a <? 1) || ((a =? 1) && ((b <? 13) || ((b =? 13) && ((c <? 1) || ((c =? 1) && ((0 <? 0) || ((0 =? 0) && ((0 <? 0) || ((0 =? 0) && ((0 <? 0) || ((0 =? 0) && true))))))))))))
            = (a =? 1) && (b =? 13) && ((c =? 0) || (c =? 1))).
  { change (0 <? 0) with false. change (0 =? 0) with true. cbn [orb andb].
    destruct (Z.lt_trichotomy a 1) as [A | [-> | A]].
    - replace (1 <? a) with false by lia. replace (1 =? a) with false by lia. replace (a =? 1) with false by lia. reflexivity.
    - change (1 <? 1) with false. change (1 =? 1) with true. cbn [orb andb].
      destruct (Z.lt_trichotomy b 13) as [B | [-> | B]].
      + replace (13 <? b) with false by lia. replace (13 =? b) with false by lia. replace (b =? 13) with false by lia. reflexivity.
      + change (13 <? 13) with false. change (13 =? 13) with true. cbn [orb andb].
        rewrite !andb_true_r. destruct (Z.ltb_spec 0 c), (Z.eqb_spec 0 c), (Z.ltb_spec c 1), (Z.eqb_spec c 1), (Z.eqb_spec c 0); cbn; try reflexivity; lia.
      + replace (b <? 13) with false by lia. replace (b =? 13) with false by lia. rewrite andb_false_r. reflexivity.
    - replace (a <? 1) with false by lia. replace (a =? 1) with false by lia. rewrite andb_false_r. reflexivity. }
  rewrite E. clear E. destruct ((a =? 1) && (b =? 13) && ((c =? 0) || (c =? 1))) eqn:K.
  - split; [reflexivity |]. split; [| reflexivity]. split; [intros _ | intros _; eexists; right; left; reflexivity].
    apply andb_prop in K. destruct K as [K C]. apply andb_prop in K. destruct K as [A B]. apply orb_prop in C. lia.
  - split; [reflexivity |]. split; [split |].
    + intros (t & T). cbn [In] in T. destruct T as [T | [T | [T | [T | []]]]]; discriminate T.
    + intros (-> & -> & C). exfalso. destruct C as [-> | ->]; discriminate K.
    + intros (k & t & T). cbn [In] in T. destruct T as [T | [T | [T | [T | []]]]]; discriminate T.
Qed.
(** A pre-release of 1.13.0 (whose tuple has a negative fifth component) and any version after
    1.13.1 have none. *)
Theorem C236_outside : forall v ops, (exists k j, k < 0 /\ v = [1; 13; 0; 0; k; j]) \/ (exists c r, v = 1 :: 13 :: c :: r /\ 1 < c) ->
  forall n o, In (n, o) (backend_configs v ops) -> o = None.
Proof.
  intros v ops H n o I. unfold backend_configs in I.
  assert (E : tuple_leb [1; 13; 0; 0; 0; 0] v && tuple_leb v [1; 13; 1; 0; 0; 0] = false).
  { destruct H as [(k & j & K & ->) | (c & r & -> & C)]; cbn [tuple_leb].
    - replace (0 <? k) with false by (symmetry; apply Z.ltb_ge; lia). replace (0 =? k) with false by (symmetry; apply Z.eqb_neq; lia). reflexivity.
    - replace (c <? 1) with false by (symmetry; apply Z.ltb_ge; lia). replace (c =? 1) with false by (symmetry; apply Z.eqb_neq; lia).
      change (1 <? 1) with false. change (13 <? 13) with false. cbn [orb andb]. rewrite !andb_false_r. reflexivity. }
  rewrite E in I. cbn [In] in I. destruct I as [I | [I | [I | [I | []]]]]; injection I as _ <-; reflexivity.
Qed.
Example C236_example :
  (exists t, In ("openvino"%string, Some t) (backend_configs [1; 13; 1; 0; 0; 0] [])) /\
  map snd (backend_configs [1; 13; 0; 0; -1; 2] []) = [None; None; None; None] /\
  map snd (backend_configs [2; 0; 0; 0; 0; 0] []) = [None; None; None; None].
Proof. split; [eexists; vm_compute; do 3 right; left; reflexivity | split; reflexivity]. Qed.
Print Assumptions C232_last.
Print Assumptions C232_absent.
Print Assumptions C232_swap.
Print Assumptions C232_once.
Print Assumptions C233_static.
Print Assumptions C233_native.
Print Assumptions C233_conv.
Print Assumptions C234_root_kept_refuted.
Print Assumptions C234_root_kept_partial.
Print Assumptions C235_share.
Print Assumptions C235_binary.
Print Assumptions C236_release.
Print Assumptions C236_outside.
