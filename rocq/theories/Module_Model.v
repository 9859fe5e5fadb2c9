(** Model of mmrazor/models/mutables/mutable_module/{one_shot,diff}_mutable_module.py. *)
From Verif Require Import Prelude.

Section Modules.
(** Inputs, outputs; [add]/[zero] are the tensor addition used by Python's [sum];
    [scale p y] is [prob * module(x)].  Candidate operations are arbitrary functions. *)
Variables X Y : Type.
Variable add : Y -> Y -> Y.
Variable zero : Y.
Variable scale : Q -> Y -> Y.

(** nn.ModuleDict: an insertion-ordered dictionary of candidate operations. *)
Definition cands : Type := list (string * (X -> Y)).
Definition lookup (name : string) (cs : cands) : option (X -> Y) :=
  match find (fun p => String.eqb (fst p) name) cs with Some p => Some (snd p) | None => None end.
(** [ModuleDict.pop(c)] of a present key. *)
Definition pop (name : string) (cs : cands) : cands :=
  filter (fun p => negb (String.eqb (fst p) name)) cs.
Definition names (cs : cands) : list string := map fst cs.
Definition str_in (x : string) (l : list string) : bool := existsb (String.eqb x) l.
(** Python [sum(outputs)]. *)
Definition sum_ (l : list Y) : Y := fold_left add l zero.

(** ** OneShotMutableOP *)

(** one_shot_mutable_module.py:138-150 and mutable_module.py:60-69. *)
Record oneshot_op : Type :=
  { o_cands : cands; o_chosen : option string; o_fixed : bool; o_choice : option string }.
Definition new_oneshot_op (cs : cands) : oneshot_op :=
  {| o_cands := cs; o_chosen := None; o_fixed := false; o_choice := None |}.

(** one_shot_mutable_module.py:29-53 with 180-219: [forward]. *)
Definition oneshot_forward (o : oneshot_op) (x : X) : outcome Y :=
  if o_fixed o then
    (* forward_fixed, line 190 *)
    match o_chosen o with
    | None => Raise KeyError
    | Some c => match lookup c (o_cands o) with Some f => Ok (f x) | None => Raise KeyError end
    end
  else
    match o_choice o with
    | None => Ok (sum_ (map (fun p => snd p x) (o_cands o)))        (* forward_all *)
    | Some c => (* forward_choice, line 203 *)
        match lookup c (o_cands o) with Some f => Ok (f x) | None => Raise AssertionError end
    end.

(** mutable_module.py:66-69, setter (no check). *)
Definition oneshot_set_choice (o : oneshot_op) (c : option string) : oneshot_op :=
  {| o_cands := o_cands o; o_chosen := o_chosen o; o_fixed := o_fixed o; o_choice := c |}.

(** one_shot_mutable_module.py:221-239, [fix_chosen]. *)
Definition oneshot_fix (o : oneshot_op) (chosen : string) : oneshot_op * outcome unit :=
  if o_fixed o then (o, Raise AttributeError)
  else
    let cs := fold_left (fun cs c => if String.eqb c chosen then cs else pop c cs)
                        (names (o_cands o)) (o_cands o) in
    ({| o_cands := cs; o_chosen := Some chosen; o_fixed := true; o_choice := o_choice o |}, Ok tt).

(** one_shot_mutable_module.py:289-292, the check of [choice_probs] in
    OneShotProbMutableOP ([eps] = 2^-52; sums computed exactly). *)
Definition probs_ok (probs : list Q) : bool :=
  negb (Qle_bool (1 # 4503599627370496) (fold_left Qplus probs 0 - 1)%Q).

(** ** DiffMutableOP *)

(** diff_mutable_module.py:110-129.  [d_chosen] is the list stored by [fix_chosen]. *)
Record diff_op : Type := { d_cands : cands; d_chosen : option (list string); d_fixed : bool }.

(** diff_mutable_module.py:207-229, [fix_chosen] (a single string is a one-element list). *)
Definition diff_fix (o : diff_op) (chosen : list string) : diff_op * outcome unit :=
  if d_fixed o then (o, Raise AttributeError)
  else
    let cs := fold_left (fun cs c => if str_in c chosen then cs else pop c cs)
                        (names (d_cands o)) (d_cands o) in
    ({| d_cands := cs; d_chosen := Some chosen; d_fixed := true |}, Ok tt).

(** diff_mutable_module.py:155-165, [forward_fixed]. *)
Definition diff_forward_fixed (o : diff_op) (x : X) : outcome Y :=
  match d_chosen o with
  | None => Raise AttributeError
  | Some ch =>
      do ys <- mapM (fun c => match lookup c (d_cands o) with
                              | Some f => Ok (f x) | None => Raise KeyError end) ch;
      Ok (sum_ ys)
  end.

(** diff_mutable_module.py:167-190, [forward_arch_param] for given probabilities. *)
Definition diff_forward_arch (o : diff_op) (probs : list Q) (x : X) : Y :=
  sum_ (flat_map (fun pm => if Qle_bool (fst pm) 0 then []
                            else [scale (fst pm) (snd (snd pm) x)])
                 (combine probs (d_cands o))).

(** ** OneHotMutableOP: the threshold rule of forward_arch_param,
    diff_mutable_module.py:312-318.  [top2] is [torch.topk(probs, 2)[0]] and raises for
    fewer than two probabilities.  On success [index] is the boolean tensor [True], so
    that [self.choices[index]] is [self.choices[1]]. *)
Fixpoint qinsert (x : Q) (l : list Q) : list Q :=
  match l with
  | [] => [x]
  | y :: r => if Qle_bool y x then x :: l else y :: qinsert x r
  end.
Definition qsort_desc (l : list Q) : list Q := fold_right qinsert [] l.
Definition top2 (probs : list Q) : outcome (Q * Q) :=
  match qsort_desc probs with
  | a :: b :: _ => Ok (a, b)
  | _ => Raise RuntimeError
  end.
Definition onehot_maybe_fix (o : diff_op) (threshold : Q) (probs : list Q)
  : outcome diff_op :=
  if d_fixed o then Ok o
  else
    do t <- top2 probs;
    let '(a, b) := t in
    if Qle_bool threshold (a - b) then
      match nth_error (names (d_cands o)) 1 with
      | None => Raise IndexError
      | Some c => let '(o', r) := diff_fix o [c] in do _ <- r; Ok o'
      end
    else Ok o.

(** ** DiffChoiceRoute *)

(** diff_mutable_module.py:378-394. *)
Record route : Type :=
  { r_cands : cands; r_unfixed : list string; r_chosen : option (list string); r_fixed : bool }.
Definition new_route (edges : cands) : route :=
  {| r_cands := edges; r_unfixed := []; r_chosen := None; r_fixed := false |}.

(** diff_mutable_module.py:491-511, [fix_chosen]: [_unfixed_choices] is overwritten
    (line 499) before the fixed check. *)
Definition route_fix (o : route) (chosen : list string) : route * outcome unit :=
  let o1 := {| r_cands := r_cands o; r_unfixed := names (r_cands o);
               r_chosen := r_chosen o; r_fixed := r_fixed o |} in
  if r_fixed o1 then (o1, Raise AttributeError)
  else
    let cs := fold_left (fun cs c => if str_in c chosen then cs else pop c cs)
                        (names (r_cands o1)) (r_cands o1) in
    ({| r_cands := cs; r_unfixed := r_unfixed o1; r_chosen := Some chosen; r_fixed := true |}, Ok tt).

(** diff_mutable_module.py:425-443, [forward_fixed]. *)
Definition route_forward_fixed (o : route) (xs : list X) : outcome Y :=
  match r_chosen o with
  | None => Raise AssertionError
  | Some ch =>
      do ys <- mapM (fun cx => match lookup (fst cx) (r_cands o) with
                               | Some f => Ok (f (snd cx)) | None => Raise KeyError end)
                    (filter (fun cx => str_in (fst cx) ch) (combine (r_unfixed o) xs));
      Ok (sum_ ys)
  end.

(** diff_mutable_module.py:471-489, [forward_all]. *)
Definition route_forward_all (o : route) (xs : list X) : outcome Y :=
  if Nat.eqb (length xs) (length (r_cands o))
  then Ok (sum_ (map (fun p => snd (fst p) (snd p)) (combine (r_cands o) xs)))
  else Raise AssertionError.

(** diff_mutable_module.py:527-532, [sample_choice]; [order] is
    [argsort(-arch_param)]. *)
Definition route_sample (o : route) (num_chosen : nat) (order : list nat) : list string :=
  flat_map (fun i => match nth_error (names (r_cands o)) i with Some c => [c] | None => [] end)
           (firstn num_chosen order).
End Modules.

Arguments o_cands {X Y}. Arguments o_chosen {X Y}. Arguments o_fixed {X Y}. Arguments o_choice {X Y}.
Arguments d_cands {X Y}. Arguments d_chosen {X Y}. Arguments d_fixed {X Y}.
Arguments r_cands {X Y}. Arguments r_unfixed {X Y}. Arguments r_chosen {X Y}. Arguments r_fixed {X Y}.
Arguments lookup {X Y}. Arguments pop {X Y}. Arguments names {X Y}. Arguments sum_ {Y}.
Arguments new_oneshot_op {X Y}. Arguments oneshot_set_choice {X Y}. Arguments oneshot_fix {X Y}.
Arguments oneshot_forward {X Y}. Arguments diff_fix {X Y}. Arguments diff_forward_fixed {X Y}.
Arguments diff_forward_arch {X Y}. Arguments onehot_maybe_fix {X Y}.
Arguments new_route {X Y}. Arguments route_fix {X Y}. Arguments route_forward_fixed {X Y}.
Arguments route_forward_all {X Y}. Arguments route_sample {X Y}.
