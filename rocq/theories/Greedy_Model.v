(** Model of mmrazor/engine/runner/autoslim_greedy_search_loop.py.
    A subnet is the list of channel-bin numbers of the units, in the (sorted) order of
    their names, which is the order in which the loop visits them (line 112). *)
From Verif Require Import Prelude Candidates_Model.

Section Greedy.
Variable est : list nat -> Q.      (* FLOPs of a subnet: check_subnet_resources(...)['flops'] *)
Variable score : list nat -> Q.    (* evaluation score of a subnet (lines 122-124) *)

(** autoslim_greedy_search_loop.py:112-120: the subnets with one bin less in one unit, for
    the units that have not reached one bin. *)
Fixpoint pruned (pre : list nat) (rest : list nat) : list (list nat) :=
  match rest with
  | [] => []
  | b :: r => (if Nat.eqb b 1 then [] else [pre ++ Nat.pred b :: r]) ++ pruned (pre ++ [b]) r
  end.
(** Lines 110, 121-130: a strictly better score replaces the best one. *)
Definition better (acc : option (Q * list nat)) (c : list nat) : option (Q * list nat) :=
  match acc with
  | None => Some (score c, c)
  | Some (s, b) => if negb (Qle_bool (score c) s) then Some (score c, c) else Some (s, b)
  end.
(** Lines 110-137. *)
Definition step (cur : list nat) : outcome (list nat) :=
  match fold_left better (pruned [] cur) None with
  | None => Raise RuntimeError
  | Some (_, b) => Ok b
  end.
(** A checkpoint (lines 177-192): current subnet (its FLOPs are [est] of it) and the
    subnets searched so far.  [log] collects every checkpoint written, in order. *)
Definition ckpt : Type := (list nat * list (list nat))%type.
(** Lines 109-147; [fuel] bounds the number of iterations. *)
Fixpoint shrink (fuel : nat) (target : Q) (searched : list (list nat)) (cur : list nat) (log : list ckpt)
  : outcome (list nat * list ckpt) :=
  if Qle_bool (est cur) target then Ok (cur, log) else
  match fuel with
  | O => Raise GenericException
  | S fuel => do b <- step cur; shrink fuel target searched b (log ++ [(b, searched)])
  end.
(** Lines 98-152; [resuming] is the truth value of [self.resume_from]. *)
Fixpoint run_targets (resuming : bool) (targets : list Q) (cur : list nat) (searched : list (list nat))
         (log : list ckpt) : outcome (list (list nat) * list ckpt) :=
  match targets with
  | [] => Ok (searched, log)
  | t :: r =>
      if resuming && Qle_bool (est cur) t then run_targets resuming r cur searched log
      else if Qle_bool (est cur) t then run_targets resuming r cur (searched ++ [cur]) log
      else
        do cl <- shrink (list_sum cur) t searched cur log;
        run_targets resuming r (fst cl) (searched ++ [fst cl]) (snd cl)
  end.
(** Line 55. *)
Definition sort_targets (ts : list Q) : list Q :=
  stable_sort (fun a b => negb (Qle_bool a b)) ts.
(** Lines 77-80, 88-89 and 91-152: a fresh search from the full subnet. *)
Definition search (targets : list Q) (max_bins : list nat) : outcome (list (list nat) * list ckpt) :=
  run_targets false (sort_targets targets) max_bins [] [].
(** Lines 95-96 and 214-218: the search continued from a checkpoint. *)
Definition resume_search (targets : list Q) (c : ckpt) : outcome (list (list nat) * list ckpt) :=
  run_targets true (sort_targets targets) (fst c) (snd c) [].
End Greedy.
