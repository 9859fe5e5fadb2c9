(** Model of mmrazor/models/architectures/heads/{deit_head,darts_subnet_head}.py and of
    mmrazor/models/architectures/classifiers/image.py. *)
From Coq Require Import Ascii.
From Verif Require Import Prelude Evolution_Model Recorder_Model Engine_Model.
Open Scope Z_scope.

(** * deit_head.py *)
(** The layers that a forward pass calls. *)
Inductive layer : Type := LPre | LAct | LHead | LHeadDist.
Section Deit.
  Variable T : Type.
  (** What a layer computes. *)
  Variable apply : layer -> T -> T.
  (** A value together with the layer calls made so far: layer, input, output. *)
  Definition call (l : layer) (x : T) (log : list (layer * T * T)) : T * list (layer * T * T) :=
    (apply l x, log ++ [(l, x, apply l x)]).
  (** deit_head.py:44-59, [pre_logits]. *)
  Definition pre_logits (hidden : option nat) (feats : list (list T)) : outcome (T * T * list (layer * T * T)) :=
    match rev feats with
    | [] => Raise IndexError
    | [_; cls; dist] :: _ =>
        match hidden with
        | None => Ok (cls, dist, [])
        | Some _ =>
            let (c1, l1) := call LPre cls [] in
            let (c2, l2) := call LAct c1 l1 in
            let (d1, l3) := call LPre dist l2 in
            let (d2, l4) := call LAct d1 l3 in
            Ok (c2, d2, l4)
        end
    | _ :: _ => Raise ValueError
    end.
  (** deit_head.py:61-69, [forward]. *)
  Definition forward (hidden : option nat) (feats : list (list T)) : outcome (T * list (layer * T * T)) :=
    do r <- pre_logits hidden feats;
    let '(c, d, log) := r in
    let (score, log1) := call LHead c log in
    let (_, log2) := call LHeadDist d log1 in
    Ok (score, log2).
End Deit.

(** * darts_subnet_head.py *)
(** A data sample: its one-hot score, if it has one, else its label.  Loss values, scores and
    accuracies are opaque strings. *)
Record sample : Type := { s_score : option string; s_label : string }.
(** What the loss module and the accuracy see: the stacked scores or labels. *)
Inductive target : Type := Scores (l : list string) | Labels (l : list string).
Section Darts.
  Variable aux_linear : string -> string.
  Variable aux_loss : string -> target -> string.
  Variable accuracy : string -> target -> Z -> string.
  Variable digits : Z -> string.
  Variable cal_acc : bool.
  Variable topk : list Z.
  (** darts_subnet_head.py:38-44: the first sample decides; a sample without the field raises. *)
  Definition unpack (ds : list sample) : outcome target :=
    match ds with
    | [] => Raise IndexError
    | d :: _ =>
        match s_score d with
        | Some _ => do l <- mapM (fun s => match s_score s with Some v => Ok v | None => Raise AttributeError end) ds; Ok (Scores l)
        | None => Ok (Labels (map s_label ds))
        end
    end.
  (** darts_subnet_head.py:35-60, [_get_aux_loss]; labels have one dimension, scores two. *)
  Definition get_aux_loss (score : string) (ds : list sample) : outcome subnet :=
    do t <- unpack ds;
    let losses := [("loss"%string, aux_loss score t)] in
    if cal_acc then
      do _ <- assert_ (match t with Labels _ => true | Scores _ => false end);
      Ok (fold_left (fun d k => dput d ("accuracy_top-" ++ digits k)%string (accuracy score t k)) topk losses)
    else Ok losses.
  (** darts_subnet_head.py:29-33 and 62-83, [loss]; [main] is the result of the base class. *)
  Definition darts_loss (main : outcome subnet) (feats : list string) (ds : list sample) : outcome subnet :=
    do losses <- main;
    do f <- (match feats with [] => Raise IndexError | f :: _ => Ok f end);
    do aux <- get_aux_loss (aux_linear f) ds;
    Ok (dupdate losses (add_prefix "aux_head." aux)).
End Darts.

(** * classifiers/image.py *)
Section Classifier.
  Variable V : Type.
  (** getattr(getattr(self, component), attr); whether the head has the method and takes the value. *)
  Variable value_of : string -> string -> outcome V.
  Variable accepts : string -> V -> outcome unit.
  (** image.py:55-59: the calls made on the head, and the outcome. *)
  Fixpoint connect (items : list (string * string)) (made : list (string * V)) : list (string * V) * outcome unit :=
    match items with
    | [] => (made, Ok tt)
    | (kh, vh) :: r =>
        match split "."%char vh with
        | [component; attr] =>
            match value_of component attr with
            | Raise e => (made, Raise e)
            | Ok v => match accepts kh v with
                      | Raise e => (made, Raise e)
                      | Ok _ => connect r (made ++ [(kh, v)])
                      end
            end
        | _ => (made, Raise ValueError)
        end
    end.
  Definition connect_head (with_head : bool) (items : option (list (string * string))) : list (string * V) * outcome unit :=
    match with_head, items with
    | true, Some l => connect l []
    | _, _ => ([], Ok tt)
    end.

  (** image.py:78-97: alias and values of the mutable; an element of input_sizes is a list or not. *)
  Inductive entry : Type := ASize (l : list Z) | AOther.
  Record resizer_cfg : Type := { rc_alias : option string; rc_sizes : option (list entry) }.
  Definition build_resizer (c : resizer_cfg) : outcome (string * list entry) :=
    let alias := match rc_alias c with Some a => a | None => "input_shape"%string end in
    match rc_sizes c with
    | None => Raise AssertionError
    | Some [] => Raise IndexError
    | Some (ASize x :: r) => Ok (alias, ASize x :: r)
    | Some (AOther :: _) => Raise AssertionError
    end.

  Variable I F R : Type.
  Variable base_feat : I -> string -> F.
  Variable head_test : F -> R.
  (** image.py:68-76, [extract_feat]; [resizer] is what the input resizer does. *)
  Definition extract_feat (resizer : option (I -> I)) (x : I) (stage : string) (use : bool) : F :=
    base_feat (match resizer with Some f => if use then f x else x | None => x end) stage.
  (** image.py:99-104, [simple_test]. *)
  Definition simple_test (resizer : option (I -> I)) (x : I) : R :=
    head_test (extract_feat resizer x "neck"%string false).
End Classifier.
