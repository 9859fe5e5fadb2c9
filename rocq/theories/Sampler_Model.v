(** Model of mmrazor/engine/runner/subnet_sampler_loop.py (GreedySamplerTrainLoop). *)
From Verif Require Import Prelude Candidates_Model.

Inductive schedule : Type := Linear | Consine.
Record sconf : Type := {
  sched : schedule; start_iter : Z; end_iter : Z; init_prob : Q; max_prob : Q }.

Section Schedule.
(** [cospi x] stands for [math.cos(math.pi * x)]; probabilities are exact rationals. *)
Variable cospi : Q -> Q.
(** subnet_sampler_loop.py:248-270, [update_cur_prob]. *)
Definition update_cur_prob (c : sconf) (cur_iter : Z) : outcome Q :=
  if end_iter c <? cur_iter then Ok (max_prob c)
  else if cur_iter <? start_iter c then Ok (init_prob c)
  else
    let all := end_iter c - start_iter c in
    let cur := cur_iter - start_iter c in
    if all =? 0 then Raise ZeroDivisionError else
    match sched c with
    | Linear => Ok ((max_prob c - init_prob c) / inject_Z all * inject_Z cur)%Q
    | Consine => Ok ((1 - init_prob c) * (1 # 2) * (1 + cospi (inject_Z cur / inject_Z all)) + init_prob c)%Q
    end.
End Schedule.

Section Pool.
Context {net : Type}.
(** A pool entry: subnet and score. *)
Definition entry : Type := (net * Q)%type.
Record sstate : Type := { p_cands : list entry; p_top : list entry }.
Variables (num_candidates top_k : nat).
Variable evaluate : nat -> net -> Q.      (* score of a subnet, may change with the iteration *)
(** subnet_sampler_loop.py:204-246, [sample_subnet]; [sampled] is what
    get_candidates_with_sample returns in this call (lines 224-225, 272-287). *)
Definition sample_subnet (iter : nat) (sampled : list net) (s : sstate) : outcome (net * sstate) :=
  do s' <-
    match p_top s with
    | _ :: _ => Ok s
    | [] =>
        let all := map fst (p_cands s) ++ sampled in
        match all with
        | [] => Raise AssertionError                      (* candidates.subnets *)
        | _ =>
            let scored := map (fun n => (n, evaluate iter n)) all in
            let sorted := stable_sort (fun a b => negb (Qle_bool (snd a) (snd b))) scored in
            let cands := firstn num_candidates sorted in
            Ok {| p_cands := cands; p_top := firstn top_k cands |}
        end
    end;
  match p_top s' with
  | [] => Raise IndexError                                (* top_k_candidates.scores[0] *)
  | e :: _ => Ok (fst e, s')
  end.
(** A run of iterations; the list of subnets trained. *)
Fixpoint sample_run (iter : nat) (samples : list (list net)) (s : sstate) : outcome (list net * sstate) :=
  match samples with
  | [] => Ok ([], s)
  | x :: r =>
      do ns <- sample_subnet iter x s;
      do rest <- sample_run (S iter) r (snd ns);
      Ok (fst ns :: fst rest, snd rest)
  end.
End Pool.
Arguments sstate : clear implicits.
