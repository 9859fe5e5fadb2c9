(** C240, C241, C242: classification heads and the searchable classifier. *)
From Coq Require Import Ascii.
From Verif Require Import Prelude Evolution_Model Evolution_Props Recorder_Model Distill_Props Engine_Model Engine_Props Heads_Model.
Open Scope Z_scope.

(** * C240: the head of a distilled vision transformer *)
Section C240.
  Variable T : Type.
  Variable apply : layer -> T -> T.
  (** ** Specification *)
  Definition token (hidden : option nat) (x : T) : T :=
    match hidden with None => x | Some _ => apply LAct (apply LPre x) end.
  Definition calls_of (l : layer) (log : list (layer * T * T)) : list (T * T) :=
    flat_map (fun e => match e with (l', x, y) => match l, l' with LPre, LPre | LAct, LAct | LHead, LHead | LHeadDist, LHeadDist => [(x, y)] | _, _ => [] end end) log.
  (** The score is the head's for the class token of the last stage; the head and the distillation
      head are called once each, on the class token and on the distillation token. *)
Theorem C240_score hidden stages p c d :
    exists log, forward T apply hidden (stages ++ [[p; c; d]]) = Ok (apply LHead (token hidden c), log) /\
      calls_of LHead log = [(token hidden c, apply LHead (token hidden c))] /\
      calls_of LHeadDist log = [(token hidden d, apply LHeadDist (token hidden d))] /\
      calls_of LPre log = match hidden with None => [] | Some _ => [(c, apply LPre c); (d, apply LPre d)] end.
  Proof. unfold forward, pre_logits. rewrite rev_app_distr. cbn [rev app]. destruct hidden; eexists; repeat split. Qed.
  (** The last stage must have three tokens. *)
Theorem C240_refused hidden feats :
    (feats = [] -> forward T apply hidden feats = Raise IndexError) /\
    (forall stages last, feats = stages ++ [last] -> List.length last <> 3%nat -> forward T apply hidden feats = Raise ValueError) /\
    (forall e, forward T apply hidden feats = Raise e -> feats = [] \/ exists stages last, feats = stages ++ [last] /\ List.length last <> 3%nat).
  Proof.
    split; [intros ->; reflexivity|]. split.
    - intros stages last -> L. unfold forward, pre_logits. rewrite rev_app_distr. cbn [rev app]. destruct last as [|a [|b [|c [|x r]]]]; try reflexivity. contradiction L; reflexivity.
    - intros e H. destruct feats as [|f r] using rev_ind; [left; reflexivity|]. right. exists r, f. split; [reflexivity|]. intros L.
      destruct f as [|a [|b [|c [|x f]]]]; try discriminate L. unfold forward, pre_logits in H. rewrite rev_app_distr in H. cbn [rev app] in H. destruct hidden; discriminate.
  Qed.
End C240.
(** Numbers for tensors: the score 5 comes from the class token, 9 from the distillation token is
    only recorded. *)
Example C240_example :
  let ap l x := match l with LPre => x + 10 | LAct => x * 2 | LHead => x + 1 | LHeadDist => x - 1 end in
  forward Z ap None [[7]; [1; 4; 10]] = Ok (5, [(LHead, 4, 5); (LHeadDist, 10, 9)]) /\
  calls_of Z LHeadDist [(LHead, 4, 5); (LHeadDist, 10, 9)] = [(10, 9)] /\
  forward Z ap (Some 8%nat) [[1; 4; 10]] = Ok (29, [(LPre, 4, 14); (LAct, 14, 28); (LPre, 10, 20); (LAct, 20, 40); (LHead, 28, 29); (LHeadDist, 40, 39)]) /\
  forward Z ap None [[1; 4; 10]; [4; 10]] = Raise ValueError.
Proof. repeat split. Qed.

Lemma snoc_nodup {A} (l : list A) x : NoDup l -> ~ In x l -> NoDup (l ++ [x]).
Proof. induction l as [|a l IH]; intros N H; cbn [app]; [constructor; [intros []|constructor]|]. inversion N; subst. constructor; [rewrite in_app_iff; intros [X|[X|[]]]; [contradiction|apply H; left; auto]|]. apply IH; [assumption|]. intros X. apply H. right. exact X. Qed.
(** * C241: the head of a searched DARTS network *)
Section C241.
  Variable aux_linear : string -> string.
  Variable aux_loss : string -> target -> string.
  Variable accuracy : string -> target -> Z -> string.
  Variable digits : Z -> string.
  (** ** Specification *)
  Definition labelled (ds : list sample) : Prop := exists d r, ds = d :: r /\ s_score d = None.
  Definition scored (ds : list sample) (l : list string) : Prop := ds <> [] /\ map s_score ds = map Some l.
  Definition seen (ds : list sample) (t : target) : Prop :=
    (labelled ds /\ t = Labels (map s_label ds)) \/ exists l, scored ds l /\ t = Scores l.
  Notation loss := (darts_loss aux_linear aux_loss accuracy digits).

  Lemma unpack_seen ds t : unpack ds = Ok t <-> seen ds t.
  Proof.
    unfold unpack, seen, labelled, scored. destruct ds as [|d r]; [split; [discriminate|intros [[(? & ? & X & _) _]|(l & [X _] & _)]; congruence]|].
    assert (M : forall ds l, mapM (fun s => match s_score s with Some v => Ok v | None => Raise AttributeError end) ds = Ok l <-> map s_score ds = map Some l).
    { clear. induction ds as [|d r IH]; intros l; cbn [mapM map]; [destruct l; split; intros H; try discriminate; reflexivity|].
      destruct (s_score d) as [v|] eqn:E; cbn [bind]; [|split; [discriminate|destruct l; discriminate]].
      destruct (mapM _ r) as [l'|] eqn:E2; cbn [bind].
      - pose proof (proj1 (IH l') eq_refl) as R. split; [intros H; apply Ok_inj in H; subst; cbn; rewrite R; reflexivity|]. destruct l as [|x l]; [discriminate|]. cbn. intros H. inversion H; subst. apply IH in H2. apply Ok_inj in H2. subst. reflexivity.
      - split; [discriminate|]. destruct l as [|x l]; [discriminate|]. cbn. intros H. inversion H; subst. apply IH in H2. discriminate. }
    destruct (s_score d) as [v|] eqn:E.
    - destruct (mapM _ (d :: r)) as [l|] eqn:Em; cbn [bind].
      + split.
        * intros H. apply Ok_inj in H. subst. right. exists l. split; [split; [discriminate|apply M, Em]|reflexivity].
        * intros [[(d' & r' & X & Y) _]|(l' & [_ X] & ->)]; [inversion X; subst; congruence|]. apply M in X. congruence.
      + split; [discriminate|]. intros [[(d' & r' & X & Y) _]|(l' & [_ X] & ->)]; [inversion X; subst; congruence|]. apply M in X. congruence.
    - split.
      + intros H. apply Ok_inj in H. subst. left. split; [eauto|reflexivity].
      + intros [[_ ->]|(l' & [_ X] & ->)]; [reflexivity|]. destruct l'; cbn in X; rewrite ?E in X; discriminate.
  Qed.
  Lemma accs_get sc t ks : forall d k,
    dget (fold_left (fun d k => dput d ("accuracy_top-" ++ digits k)%string (accuracy sc t k)) ks d) k =
    match find (fun z => String.eqb ("accuracy_top-" ++ digits z) k) (rev ks) with Some z => Some (accuracy sc t z) | None => dget d k end.
  Proof.
    induction ks as [|z ks IH] using rev_ind; intros d k; [reflexivity|]. rewrite fold_left_app, rev_app_distr. cbn [fold_left rev app find]. rewrite dget_dput.
    destruct (String.eqb _ _); [reflexivity|]. apply IH.
  Qed.
  Lemma accs_nodup sc t ks : forall d, NoDup (map fst d) -> NoDup (map fst (fold_left (fun d k => dput d ("accuracy_top-" ++ digits k)%string (accuracy sc t k)) ks d)).
  Proof.
    induction ks as [|z ks IH]; intros d N; [exact N|]. cbn [fold_left]. apply IH. rewrite dput_keys. destruct (existsb _ _) eqn:E; [exact N|].
    apply snoc_nodup; [exact N|]. intros X. apply not_true_iff_false in E. apply E. apply existsb_exists. eexists. split; [exact X|apply String.eqb_refl].
  Qed.
  Lemma app_inj_l p a b : (p ++ a = p ++ b)%string -> a = b.
  Proof. induction p as [|c p IH]; cbn; intros H; [exact H|]. inversion H. auto. Qed.
  Lemma aux_nodup cal topk sc ds aux : get_aux_loss aux_loss accuracy digits cal topk sc ds = Ok aux -> NoDup (map fst aux).
  Proof.
    unfold get_aux_loss. destruct (unpack ds) as [t|]; [|discriminate]. cbn [bind]. destruct cal.
    - destruct (assert_ _) as [?|]; [|discriminate]. cbn [bind]. intros H. apply Ok_inj in H. subst. apply accs_nodup. constructor; [intros []|constructor].
    - intros H. apply Ok_inj in H. subst. constructor; [intros []|constructor].
  Qed.
  Lemma loss_inv cal topk main feats ds losses : loss cal topk main feats ds = Ok losses ->
    exists ml f r aux, main = Ok ml /\ feats = f :: r /\ get_aux_loss aux_loss accuracy digits cal topk (aux_linear f) ds = Ok aux /\
      losses = dupdate ml (add_prefix "aux_head." aux).
  Proof.
    unfold darts_loss. destruct main as [ml|]; [|discriminate]. cbn [bind]. destruct feats as [|f r]; [discriminate|]. cbn [bind].
    destruct (get_aux_loss _ _ _ _ _ _ _) as [aux|] eqn:E; [|discriminate]. cbn [bind]. intros H. apply Ok_inj in H. subst. exists ml, f, r, aux. auto.
  Qed.

  (** What the base class reports is reported unchanged, under whatever name without the prefix. *)
Theorem C241_main cal topk main feats ds losses :
    loss cal topk main feats ds = Ok losses ->
    exists ml, main = Ok ml /\ forall k, (forall x, k <> "aux_head.." ++ x)%string -> dget losses k = dget ml k.
  Proof.
    intros H. destruct (loss_inv _ _ _ _ _ _ H) as (ml & f & r & aux & -> & -> & A & ->). exists ml. split; [reflexivity|]. intros k N.
    apply update_prefix_other; [eapply aux_nodup, A|]. intros a E. apply (N a). exact E.
  Qed.
  (** The auxiliary loss is that of the first feature, for the labels, or the scores if the first
      sample has one. *)
Theorem C241_aux cal topk main f feats ds losses :
    loss cal topk main (f :: feats) ds = Ok losses ->
    exists t, seen ds t /\ dget losses "aux_head..loss" = Some (aux_loss (aux_linear f) t).
  Proof.
    intros H. destruct (loss_inv _ _ _ _ _ _ H) as (ml & f' & r & aux & -> & E & A & ->). inversion E; subst f' r. pose proof (aux_nodup _ _ _ _ _ A) as N.
    change "aux_head..loss"%string with ("aux_head." ++ "." ++ "loss")%string. rewrite update_prefix by exact N. unfold get_aux_loss in A. destruct (unpack ds) as [t|] eqn:U; [|discriminate]. cbn [bind] in A. exists t. split; [apply unpack_seen, U|]. destruct cal.
    - destruct (assert_ _) as [?|]; [|discriminate]. cbn [bind] in A. apply Ok_inj in A. subst aux. rewrite accs_get. destruct (find _ _) as [z|] eqn:Ef; [apply find_some in Ef; destruct Ef as [_ Ef]; cbn in Ef; discriminate|]. reflexivity.
    - apply Ok_inj in A. subst aux. reflexivity.
  Qed.
  (** With accuracies on, each asked one is reported; with accuracies off, none. *)
Theorem C241_accuracy cal topk main f feats ds losses k :
    (forall a b, digits a = digits b -> a = b) -> loss cal topk main (f :: feats) ds = Ok losses ->
    dget losses ("aux_head..accuracy_top-" ++ digits k) =
      (if cal && existsb (Z.eqb k) topk then Some (accuracy (aux_linear f) (Labels (map s_label ds)) k)
       else match main with Ok ml => dget ml ("aux_head..accuracy_top-" ++ digits k) | Raise _ => None end).
  Proof.
    intros I H. destruct (loss_inv _ _ _ _ _ _ H) as (ml & f' & r & aux & -> & E & A & ->). inversion E; subst f' r. pose proof (aux_nodup _ _ _ _ _ A) as N.
    change ("aux_head..accuracy_top-" ++ digits k)%string with ("aux_head." ++ "." ++ ("accuracy_top-" ++ digits k))%string. rewrite update_prefix by exact N. unfold get_aux_loss in A. destruct (unpack ds) as [t|] eqn:U; [|discriminate]. cbn [bind] in A. destruct cal; cbn [andb].
    - destruct t as [l|l]; [discriminate|]. cbn [assert_ bind] in A. apply Ok_inj in A. subst aux. rewrite accs_get.
      assert (L : l = map s_label ds) by (apply unpack_seen in U; destruct U as [[_ U]|(l' & _ & U)]; [inversion U; reflexivity|discriminate]). subst l.
      destruct (existsb (Z.eqb k) topk) eqn:Ex.
      + apply existsb_exists in Ex. destruct Ex as (k' & K1 & K2). apply Z.eqb_eq in K2. subst k'. destruct (find _ _) as [z|] eqn:Ef.
        * apply find_some in Ef. destruct Ef as [_ Ef]. apply String.eqb_eq in Ef. apply app_inj_l, I in Ef. subst. reflexivity.
        * exfalso. pose proof (find_none _ _ Ef k) as X. rewrite <- in_rev in X. specialize (X K1). rewrite String.eqb_refl in X. discriminate.
      + destruct (find _ _) as [z|] eqn:Ef; [|reflexivity]. exfalso. apply find_some in Ef. destruct Ef as [Z1 Ef]. rewrite <- in_rev in Z1. apply String.eqb_eq in Ef. apply app_inj_l, I in Ef. subst z.
        apply not_true_iff_false in Ex. apply Ex. apply existsb_exists. exists k. split; [exact Z1|apply Z.eqb_refl].
    - apply Ok_inj in A. subst aux. reflexivity.
  Qed.
  (** When it is refused. *)
Theorem C241_refused cal topk ml feats ds :
    (exists losses, loss cal topk (Ok ml) feats ds = Ok losses) <->
    feats <> [] /\ (labelled ds \/ (cal = false /\ exists l, scored ds l)).
  Proof.
    unfold darts_loss. cbn [bind]. destruct feats as [|f r]; cbn [bind]; [split; [intros [? X]; discriminate|intros [X _]; congruence]|].
    unfold get_aux_loss. destruct (unpack ds) as [t|] eqn:U; cbn [bind].
    - apply unpack_seen in U. destruct U as [[L ->]|(l & L & ->)].
      + split; [intros _; split; [discriminate|left; exact L]|]. intros _. destruct cal; cbn [assert_ bind]; eauto.
      + destruct cal; cbn [assert_ bind].
        * split; [intros [? X]; discriminate|]. intros [_ [(d & r' & -> & X)|[X _]]]; [|discriminate]. destruct L as [_ L]. destruct l; cbn in L; rewrite ?X in L; discriminate.
        * split; [intros _; split; [discriminate|right; eauto]|eauto].
    - split; [intros [? X]; discriminate|]. intros [_ [L|[_ [l L]]]].
      + assert (seen ds (Labels (map s_label ds))) as X by (left; auto). apply unpack_seen in X. congruence.
      + assert (seen ds (Scores l)) as X by (right; eauto). apply unpack_seen in X. congruence.
  Qed.
End C241.
(** Auxiliary losses are reported under 'aux_head.' and their name. *)
Definition C241_claim : Prop :=
  forall aux_linear aux_loss accuracy digits main f feats ds losses,
    darts_loss aux_linear aux_loss accuracy digits false [] (Ok main) (f :: feats) ds = Ok losses ->
    exists v, dget losses "aux_head.loss" = Some v.
(** The name has two dots. *)
Theorem C241_name_refuted : ~ C241_claim.
Proof.
  intros H. destruct (H (fun x => x) (fun x _ => x) (fun x _ _ => x) (fun _ => ""%string) [("loss", "1")]%string "2"%string [] [{| s_score := None; s_label := "0"%string |}] _ eq_refl) as [v V]. vm_compute in V. discriminate.
Qed.
Example C241_example :
  let ds := [{| s_score := None; s_label := "3"%string |}; {| s_score := None; s_label := "4"%string |}] in
  darts_loss (fun x => ("aux " ++ x)%string) (fun x t => ("loss of " ++ x)%string) (fun x _ k => x) (fun k => decimal (Z.to_nat k)) true [1; 5] (Ok [("loss", "m")]%string) ["f0"; "f1"]%string ds =
    Ok [("loss", "m"); ("aux_head..loss", "loss of aux f0"); ("aux_head..accuracy_top-1", "aux f0"); ("aux_head..accuracy_top-5", "aux f0")]%string /\
  labelled ds /\ ~ labelled [{| s_score := Some "x"%string; s_label := ""%string |}].
Proof. cbv zeta. split; [vm_compute; reflexivity|]. split; [do 2 eexists; split; reflexivity|]. intros (d & r & E & X). inversion E; subst. discriminate. Qed.

(** * C242: the searchable classifier *)
Section C242.
  Variable V : Type.
  Variable value_of : string -> string -> outcome V.
  Variable accepts : string -> V -> outcome unit.
  (** ** Specification *)
  Definition two_parts (s c a : string) : Prop := s = (c ++ "." ++ a)%string /\ no_char "." c /\ no_char "." a.
  Definition joined (item : string * string) (made : string * V) : Prop :=
    fst made = fst item /\ exists c a, two_parts (snd item) c a /\ value_of c a = Ok (snd made) /\ accepts (fst item) (snd made) = Ok tt.
  Lemma split_parts s : forall l, split "." s = l -> Forall (no_char ".") l.
  Proof.
    induction s as [|c s IH]; intros l <-; cbn [split]; [repeat constructor|]. destruct (Ascii.eqb_spec c "."); [constructor; [exact I|apply IH; reflexivity]|].
    specialize (IH _ eq_refl). destruct (split "." s) as [|h t]; [repeat constructor; exact n|]. inversion IH; subst. constructor; [cbn; auto|assumption].
  Qed.
  Lemma split_two s c a : split "." s = [c; a] <-> two_parts s c a.
  Proof.
    unfold two_parts. split.
    - intros H. pose proof (split_parts s _ H) as F. inversion F as [|? ? F1 F2]; subst. inversion F2 as [|? ? F3 F4]; subst. split; [|auto]. clear F F1 F2 F3 F4. revert c H. induction s as [|x s IH]; intros c H; cbn [split] in H; [discriminate|].
      destruct (Ascii.eqb_spec x ".").
      + subst. injection H as <- Hs. clear IH. revert a Hs. induction s as [|y s IH]; intros a E; cbn [split] in E; [inversion E; reflexivity|]. destruct (Ascii.eqb_spec y "."); [inversion E; subst; destruct (split_cons "." s) as (h & t & X); congruence|].
        destruct (split "." s) as [|h [|h2 t]] eqn:Es; inversion E; subst; [destruct (split_cons "." s) as (h & t & X); congruence|]. specialize (IH h eq_refl). cbn in IH. inversion IH; subst. reflexivity.
      + destruct (split "." s) as [|h t] eqn:Es; [discriminate|]. inversion H; subst. rewrite (IH h eq_refl). reflexivity.
    - intros (-> & Nc & Na). change (c ++ "." ++ a)%string with (c ++ String "." a)%string. rewrite split_app, split_no, split_no by assumption. reflexivity.
  Qed.
  Lemma connect_made items : forall made, exists new, connect V value_of accepts items made = (made ++ new, snd (connect V value_of accepts items [])) /\ fst (connect V value_of accepts items []) = new.
  Proof.
    induction items as [|[kh vh] items IH]; intros made; cbn [connect]; [exists []; rewrite app_nil_r; auto|].
    destruct (split "." vh) as [|c [|a [|x r]]]; try (exists []; rewrite app_nil_r; auto; fail). destruct (value_of c a) as [v|]; [|exists []; rewrite app_nil_r; auto]. destruct (accepts kh v); [|exists []; rewrite app_nil_r; auto].
    destruct (IH (made ++ [(kh, v)])) as (n1 & E1 & F1). destruct (IH ([] ++ [(kh, v)])) as (n2 & E2 & F2). rewrite E1, E2. cbn [fst snd]. exists ((kh, v) :: n1). rewrite <- app_assoc. split; [reflexivity|]. cbn [app]. congruence.
  Qed.
  (** The head is connected, in order, to the named values; every name has a component and an
      attribute. *)
Theorem C242_connect items made :
    connect_head V value_of accepts true (Some items) = (made, Ok tt) <-> Forall2 joined items made.
  Proof.
    cbn [connect_head]. revert made. induction items as [|[kh vh] items IH]; intros made; cbn [connect].
    - split; [intros H; inversion H; constructor|]. intros H. inversion H. reflexivity.
    - split.
      + intros H. destruct (split "." vh) as [|c [|a [|x r]]] eqn:Es; try discriminate H. destruct (value_of c a) as [v|] eqn:Ev; [|discriminate]. destruct (accepts kh v) as [[]|] eqn:Ea; [|discriminate].
        destruct (connect_made items ([] ++ [(kh, v)])) as (n & E & F). rewrite E in H. injection H as H1 H2. subst made. cbn [app]. constructor.
        * split; [reflexivity|]. exists c, a. split; [apply split_two, Es|]. auto.
        * apply IH. destruct (connect V value_of accepts items []) as [m o]. cbn in *. subst. reflexivity.
      + intros H. inversion H as [|? [k v] ? r J F]; subst. destruct J as (J1 & c & a & J2 & J3 & J4). cbn [fst snd] in *. subst k. apply split_two in J2. rewrite J2, J3, J4.
        destruct (connect_made items ([] ++ [(kh, v)])) as (n & E & F'). rewrite E. apply IH in F. rewrite F in *. cbn [fst snd] in *. subst n. reflexivity.
  Qed.
  (** If something cannot be connected, everything before it has been, and nothing after. *)
Theorem C242_failure items made e :
    connect_head V value_of accepts true (Some items) = (made, Raise e) ->
    exists before kh vh after, items = before ++ (kh, vh) :: after /\ Forall2 joined before made /\
      (((forall c a, ~ two_parts vh c a) /\ e = ValueError) \/
       exists c a, two_parts vh c a /\ (value_of c a = Raise e \/ exists v, value_of c a = Ok v /\ accepts kh v = Raise e)).
  Proof.
    cbn [connect_head]. revert made. induction items as [|[kh vh] items IH]; intros made H; cbn [connect] in H; [discriminate|].
    destruct (split "." vh) as [|c [|a [|x r]]] eqn:Es.
    - inversion H; subst. exists [], kh, vh, items. repeat split; [constructor|]. left. split; [|reflexivity]. intros c a X. apply split_two in X. congruence.
    - inversion H; subst. exists [], kh, vh, items. repeat split; [constructor|]. left. split; [|reflexivity]. intros c' a X. apply split_two in X. congruence.
    - destruct (value_of c a) as [v|] eqn:Ev.
      + destruct (accepts kh v) as [[]|] eqn:Ea.
        * destruct (connect_made items ([] ++ [(kh, v)])) as (n & E & F). rewrite E in H. injection H as H1 H2. subst made.
          destruct (IH n) as (b & k & w & af & -> & F2 & C); [destruct (connect V value_of accepts items []); cbn in *; subst; reflexivity|].
          exists ((kh, vh) :: b), k, w, af. split; [reflexivity|]. split; [|exact C]. cbn [app]. constructor; [|exact F2]. split; [reflexivity|]. exists c, a. split; [apply split_two, Es|]. auto.
        * inversion H; subst. exists [], kh, vh, items. repeat split; [constructor|]. right. exists c, a. split; [apply split_two, Es|]. right. eauto.
      + inversion H; subst. exists [], kh, vh, items. repeat split; [constructor|]. right. exists c, a. split; [apply split_two, Es|]. auto.
    - inversion H; subst. exists [], kh, vh, items. repeat split; [constructor|]. left. split; [|reflexivity]. intros c' a' X. apply split_two in X. congruence.
  Qed.
  (** Without a head nothing is looked at, not even a wrong name. *)
Theorem C242_no_head items : connect_head V value_of accepts false items = ([], Ok tt) /\ connect_head V value_of accepts true None = ([], Ok tt).
  Proof. split; reflexivity. Qed.
End C242.
(** The sizes that can be searched are the given ones, and the first must be a list; the name of the
    mutable is 'input_shape' unless given. *)
Theorem C242_resizer c r :
  (build_resizer c = Ok r <->
   exists x l, rc_sizes c = Some (ASize x :: l) /\ snd r = ASize x :: l /\
     (rc_alias c = Some (fst r) \/ (rc_alias c = None /\ fst r = "input_shape"%string))) /\
  (build_resizer c = Raise IndexError <-> rc_sizes c = Some []) /\
  (build_resizer c = Raise AssertionError <-> rc_sizes c = None \/ exists l, rc_sizes c = Some (AOther :: l)).
Proof.
  destruct c as [al sz], r as [a l]. unfold build_resizer. cbn [rc_alias rc_sizes fst snd]. destruct sz as [[|[x|] sz]|].
  - split; [split; [discriminate|intros (x & l' & H & _); discriminate]|]. split; [split; reflexivity|]. split; [discriminate|]. intros [H|[l' H]]; discriminate.
  - split; [|split; [split; discriminate|split; [discriminate|intros [H|[l' H]]; discriminate]]]. split.
    + intros H. apply Ok_inj in H. inversion H; subst. exists x, sz. split; [reflexivity|]. split; [reflexivity|]. destruct al; auto.
    + intros (y & l' & H & -> & E). injection H as -> ->. destruct E as [E|[E ->]]; rewrite E; reflexivity.
  - split; [split; [discriminate|intros (x & l' & H & _); discriminate]|]. split; [split; discriminate|]. split; [intros _; right; eauto|reflexivity].
  - split; [split; [discriminate|intros (x & l' & H & _); discriminate]|]. split; [split; discriminate|]. split; [intros _; left; reflexivity|reflexivity].
Qed.
(** A test sees the input as it is, whatever the resizer; features see it resized unless told
    otherwise, and without a resizer as it is. *)
Theorem C242_inputs (I F R : Type) (base_feat : I -> string -> F) (head_test : F -> R) (f : I -> I) x stage :
  simple_test I F R base_feat head_test (Some f) x = simple_test I F R base_feat head_test None x /\
  simple_test I F R base_feat head_test None x = head_test (base_feat x "neck"%string) /\
  extract_feat I F base_feat (Some f) x stage true = base_feat (f x) stage /\
  extract_feat I F base_feat (Some f) x stage false = base_feat x stage /\
  forall b, extract_feat I F base_feat None x stage b = base_feat x stage.
Proof. repeat split. Qed.
Example C242_example :
  let value_of c a := if String.eqb c "backbone" then if String.eqb a "last_mutable" then Ok 7 else Raise AttributeError else Raise AttributeError in
  let accepts k (v : Z) := if String.eqb k "connect_with_backbone" then Ok tt else Raise AttributeError in
  connect_head Z value_of accepts true (Some [("connect_with_backbone", "backbone.last_mutable")]%string) = ([("connect_with_backbone"%string, 7)], Ok tt) /\
  connect_head Z value_of accepts true (Some [("connect_with_backbone", "backbone.last_mutable"); ("x", "backbone.a.b")]%string) = ([("connect_with_backbone"%string, 7)], Raise ValueError) /\
  connect_head Z value_of accepts true (Some [("x", "backbone")]%string) = ([], Raise ValueError) /\
  build_resizer {| rc_alias := None; rc_sizes := Some [ASize [224; 224]; ASize [192; 192]] |} = Ok ("input_shape"%string, [ASize [224; 224]; ASize [192; 192]]) /\
  simple_test Z Z Z (fun x _ => x + 1) (fun y => y) (Some (fun x => x * 2)) 5 = 6 /\ extract_feat Z Z (fun x _ => x + 1) (Some (fun x => x * 2)) 5 "neck"%string true = 11.
Proof. repeat split. Qed.
Print Assumptions C240_score.
Print Assumptions C240_refused.
Print Assumptions C241_main.
Print Assumptions C241_aux.
Print Assumptions C241_accuracy.
Print Assumptions C241_refused.
Print Assumptions C241_name_refuted.
Print Assumptions C242_connect.
Print Assumptions C242_failure.
Print Assumptions C242_no_head.
Print Assumptions C242_resizer.
Print Assumptions C242_inputs.
