(** Model of mmrazor/engine/runner/evolution_search_loop.py and
    mmrazor/engine/runner/utils/genetic.py. *)
From Verif Require Import Prelude Candidates_Model.

(** A subnet: the dictionary from search-group keys to choices. *)
Definition subnet : Type := list (string * string).
(** Python dictionary assignment: an existing key keeps its position. *)
Fixpoint dput (d : subnet) (k v : string) : subnet :=
  match d with
  | [] => [(k, v)]
  | (k0, v0) :: r => if String.eqb k0 k then (k0, v) :: r else (k0, v0) :: dput r k v
  end.
(** genetic.py:25-31.  [coin k] is the random number drawn when key [k] is reached. *)
Definition crossover (s1 s2 : subnet) (coin : string -> Q) (prob : Q) : outcome subnet :=
  do _ <- assert_ (Qle_bool 0 prob && Qle_bool prob 1);
  Ok (fold_left (fun acc kv => if negb (Qle_bool prob (coin (fst kv)))
                               then dput acc (fst kv) (snd kv) else acc) s2 s1).

(** Results of the search steps; [Wait] means that the supplied (finite) list of random
    draws ran out while the code is still looping. *)
Inductive res (A : Type) : Type := Fin (a : A) | Exc (e : exn) | Wait.
Arguments Fin {A}. Arguments Exc {A}. Arguments Wait {A}.
Definition rbind {A B} (x : res A) (f : A -> res B) : res B :=
  match x with Fin a => f a | Exc e => Exc e | Wait => Wait end.
Definition lift {A} (x : outcome A) : res A := match x with Ok a => Fin a | Raise e => Exc e end.
Declare Scope res_scope.
Notation "'let!' x := e 'in' f" := (rbind e (fun x => f)) (at level 200, x pattern, right associativity).

(** One entry of the pool: subnet, score, recorded resources. *)
Record cand : Type := { c_net : subnet; c_score : Q; c_res : list (string * Q) }.

(** The random outcomes and evaluation results of one epoch. *)
Record einput : Type := {
  i_sample : list subnet;                                   (* sample_choices() results *)
  i_metric : nat -> option Q;                               (* evaluator; None: empty metrics *)
  i_mut : list (nat * subnet * (string -> Q));              (* random.choice, sample, coins *)
  i_cross : list (nat * nat * (string -> Q)) }.

Record estate : Type := { s_cands : list cand; s_top : list cand; s_epoch : Z }.
Record config : Type := {
  num_candidates : nat; top_k : nat; num_mutation : nat; num_crossover : nat;
  mutate_prob : Q; crossover_prob : Q; constraints : option (list (string * constraint)) }.

Section Loop.
Variable cfg : config.
Variable est : subnet -> list (string * Q).    (* the resource estimator *)
Variable round2 : Q -> Q.                      (* Python's round(., 2) *)

(** evolution_search_loop.py:390-403; results are [{}] without constraints (check.py:31). *)
Definition check (s : subnet) : outcome bool := check_resources (est s) (constraints cfg).
Definition resources_of (s : subnet) : list (string * Q) :=
  match constraints cfg with None => [] | Some _ => est s end.
(** A new entry: score -1 (candidate.py:119), resources of its check. *)
Definition new_cand (s : subnet) : cand :=
  {| c_net := s; c_score := -1; c_res := resources_of s |}.

(** evolution_search_loop.py:194-215 (rank 0; the resources are recorded right away). *)
Fixpoint sample_loop (cands : list cand) (draws : list subnet) : res (list cand) :=
  if (num_candidates cfg <=? length cands)%nat then Fin cands else
  match draws with
  | [] => Wait
  | s :: r =>
      let! ok := lift (check s) in
      sample_loop (if ok then cands ++ [new_cand s] else cands) r
  end.
(** evolution_search_loop.py:220-228; [subnets] asserts that the pool is not empty. *)
Fixpoint score_from (i : nat) (metric : nat -> option Q) (cands : list cand) : list cand :=
  match cands with
  | [] => []
  | c :: r => {| c_net := c_net c;
                 c_score := match metric i with Some m => round2 m | None => 0 end;
                 c_res := c_res c |} :: score_from (S i) metric r
  end.
Definition update_scores (metric : nat -> option Q) (cands : list cand) : outcome (list cand) :=
  match cands with [] => Raise AssertionError | _ => Ok (score_from 0 metric cands) end.
(** candidate.py:173-184 through evolution_search_loop.py:175. *)
Definition by_score (l : list cand) : list cand :=
  stable_sort (fun a b => negb (Qle_bool (c_score a) (c_score b))) l.

(** random.choice(top_k_candidates.subnets). *)
Definition pick (top : list cand) (i : nat) : res subnet :=
  match top with
  | [] => Exc AssertionError
  | _ => match nth_error top i with Some c => Fin (c_net c) | None => Wait end
  end.
(** evolution_search_loop.py:285-290 and 292-297. *)
Definition mutation (top : list cand) (d : nat * subnet * (string -> Q)) : res subnet :=
  let '(i, s2, coin) := d in
  let! s1 := pick top i in lift (crossover s1 s2 coin (mutate_prob cfg)).
Definition crossing (top : list cand) (d : nat * nat * (string -> Q)) : res subnet :=
  let '(i, j, coin) := d in
  let! s1 := pick top i in
  let! s2 := pick top j in lift (crossover s1 s2 coin (crossover_prob cfg)).
(** evolution_search_loop.py:237-259 / 261-283: [tries] is the remaining number of attempts. *)
Fixpoint gen_loop {D} (make : D -> res subnet) (want tries : nat) (acc : list cand) (draws : list D)
  : res (list cand) :=
  if (want <=? length acc)%nat then Fin acc else
  match tries with
  | O => Fin acc
  | S tries =>
      match draws with
      | [] => Wait
      | d :: r =>
          let! s := make d in
          let! ok := lift (check s) in
          gen_loop make want tries (if ok then acc ++ [new_cand s] else acc) r
      end
  end.

(** evolution_search_loop.py:155-192, [run_epoch]. *)
Definition run_epoch (s : estate) (i : einput) : res estate :=
  let! pool := sample_loop (s_cands s) (i_sample i) in
  let! scored := lift (update_scores (i_metric i) pool) in
  let top := firstn (top_k cfg) (by_score (scored ++ s_top s)) in
  let! muts := gen_loop (mutation top) (num_mutation cfg) (num_mutation cfg * 10) [] (i_mut i) in
  let! crosses := gen_loop (crossing top) (num_crossover cfg) (num_crossover cfg * 10) [] (i_cross i) in
  let! _ := lift (assert_ (length (muts ++ crosses) <=? num_candidates cfg)%nat) in
  Fin {| s_cands := muts ++ crosses; s_top := top; s_epoch := s_epoch s + 1 |}.
(** A sequence of epochs. *)
Fixpoint run_epochs (s : estate) (is_ : list einput) : res estate :=
  match is_ with [] => Fin s | i :: r => let! s' := run_epoch s i in run_epochs s' r end.
End Loop.

(** ** The outer loop with checkpoints (evolution_search_loop.py:137-153, 299-309, 362-388).
    The epoch body is abstract here: [step e p] is the population after epoch [e]. *)
Section Outer.
Context {P : Type} (step : Z -> P -> P).
Record searcher : Type := { o_epoch : Z; o_max : Z; o_pop : P; o_files : list (Z * P) }.
(** evolution_search_loop.py:369-388: write search_epoch_{_epoch}.pkl and remove
    search_epoch_{1 .. _epoch - max_keep}. *)
Definition save (max_keep : Z) (s : searcher) : searcher :=
  let written := filter (fun f => negb (fst f =? o_epoch s)) (o_files s) ++ [(o_epoch s, o_pop s)] in
  {| o_epoch := o_epoch s; o_max := o_max s; o_pop := o_pop s;
     o_files := if 0 <? max_keep
                then filter (fun f => negb ((1 <=? fst f) && (fst f <? o_epoch s + 1 - max_keep))) written
                else written |}.
Definition outer_epoch (s : searcher) : searcher :=
  {| o_epoch := o_epoch s + 1; o_max := o_max s; o_pop := step (o_epoch s) (o_pop s); o_files := o_files s |}.
(** evolution_search_loop.py:147-149; [fuel] bounds the number of iterations. *)
Fixpoint while_loop (fuel : nat) (max_keep : Z) (s : searcher) : searcher :=
  match fuel with
  | O => s
  | S fuel => if o_epoch s <? o_max s
              then while_loop fuel max_keep (save max_keep (outer_epoch s)) else s
  end.
Definition run (max_keep : Z) (s : searcher) : searcher :=
  while_loop (Z.to_nat (o_max s - o_epoch s)) max_keep s.
(** evolution_search_loop.py:302-306: every saved attribute is restored, including
    [_epoch], and [_max_epochs] is reduced by the restored epoch. *)
Definition resume (s : searcher) (ckpt : Z * P) : searcher :=
  {| o_epoch := fst ckpt; o_max := o_max s - fst ckpt; o_pop := snd ckpt; o_files := o_files s |}.
Definition fresh (max : Z) (p : P) : searcher :=
  {| o_epoch := 0; o_max := max; o_pop := p; o_files := [] |}.
End Outer.
