(** mmrazor/models/mutators/channel_mutator/dmcp_channel_mutator.py,
    mmrazor/models/algorithms/pruning/dmcp.py,
    mmrazor/models/architectures/dynamic_ops/bricks/dynamic_norm.py (DMCPBatchNorm2d) *)
From Coq Require Import Qminmax Qabs.
From Verif Require Import Prelude PyNum Engine_Model.
Open Scope Z_scope.

(** Float division in Python. *)
Definition py_div (a b : spec_float) : outcome spec_float :=
  match b with S754_zero _ => Raise ZeroDivisionError | _ => Ok (f64div a b) end.
(** _generate_arch_message, dmcp_channel_mutator.py 77-101: (group_size, num_groups, min_ch). *)
Definition arch_message (min_rate max_rate rate_offset : spec_float) (out : nat) : outcome (Z * Z * Z) :=
  do q <- py_div (f64mul rate_offset (f64_of_Z (Z.of_nat out))) max_rate;
  do group_size <- PyNum.py_int q;
  do r <- py_div (f64sub max_rate min_rate) rate_offset;
  do num_groups <- PyNum.py_int (f64add r (f64_lit 1 10000));
  let min_ch := Z.of_nat out - group_size * num_groups in
  do _ <- assert_ (0 <? min_ch);
  do _ <- assert_ (group_size * num_groups + min_ch =? Z.of_nat out);
  Ok (group_size, num_groups, min_ch).
(** prepare_arch_params, 56-68, for one unit: torch.zeros of a negative size raises. *)
Definition prepare_unit (min_rate max_rate rate_offset : spec_float) (out : nat) : outcome (Z * Z * Z * list Q) :=
  do m <- arch_message min_rate max_rate rate_offset out;
  let '(g, n, c) := m in
  if n <? 0 then Raise RuntimeError else Ok (g, n, c, repeat 0%Q (Z.to_nat n)).

(** * Sampling *)
(** 146-147: [expn] is the exponential function. *)
Definition condition (expn : Q -> Q) (arch : list Q) : list Q := map (fun a => expn (- Qmax a 0)%Q) arch.
(** 148-154, direct: [us] are the numbers drawn from random.uniform. *)
Fixpoint direct (group_size : Z) (acc : Z) (ps us : list Q) : Z :=
  match ps, us with
  | p :: ps, u :: us => if negb (Qle_bool u p) then acc else direct group_size (acc + group_size) ps us
  | _, _ => acc
  end.
(** torch.cumprod *)
Fixpoint cumprod_from (acc : Q) (ps : list Q) : list Q :=
  match ps with [] => [] | p :: ps => (acc * p)%Q :: cumprod_from (acc * p)%Q ps end.
Definition cumprod (ps : list Q) : list Q := cumprod_from 1%Q ps.
Definition qsum (l : list Q) : Q := fold_right Qplus 0%Q l.
Inductive smode := MMax | MMin | MRandom | MDirect | MExpected | MOther.
Inductive channels := Num (z : Z) | Tensor (q : Q).
(** _prune_by_arch, 122-161. [r]: the draw of random.randint. *)
Definition prune_by_arch (expn : Q -> Q) (attr : Z * Z * Z) (arch : list Q) (r : Z) (us : list Q) (mode : smode) : outcome channels :=
  let '(group_size, num_groups, min_ch) := attr in
  match mode with
  | MMax => Ok (Num (min_ch + group_size * num_groups))
  | MMin => Ok (Num min_ch)
  | MRandom => Ok (Num (min_ch + group_size * r))
  | _ =>
      if num_groups =? 0 then Ok (Num min_ch) else
      let ps := condition expn arch in
      match mode with
      | MDirect => Ok (Num (direct group_size min_ch ps us))
      | MExpected => Ok (Tensor (qsum (cumprod ps) * inject_Z group_size + inject_Z min_ch)%Q)
      | _ => Raise NotImplementedError
      end
  end.

(** * DMCPBatchNorm2d.forward_arch_param, dynamic_norm.py 452-475: one value per channel *)
(** The lists are the channels of the normalized input; a view that does not fit is a
    RuntimeError, a division by a group size of 0 a ZeroDivisionError. *)
Definition forward_arch_param (expn : Q -> Q) (x : list Q) (arch : list Q) (attr : Z * Z * Z) : outcome (list Q) :=
  let '(group_size, num_groups, min_ch) := attr in
  if (num_groups =? 0) || (Z.of_nat (length x) =? min_ch) then Ok x else
  let prob := cumprod (condition expn arch) in
  let rest := skipn (Z.to_nat min_ch) x in
  if group_size =? 0 then Raise ZeroDivisionError else
  let n := Z.of_nat (length rest) / group_size in
  if negb (n * group_size =? Z.of_nat (length rest)) then Raise RuntimeError else
  if Z.of_nat (length prob) <? n then Raise RuntimeError else
  Ok (firstn (Z.to_nat min_ch) x ++ map (fun p : nat * Q => (snd p * nth (fst p / Z.to_nat group_size) prob 0)%Q) (combine (seq 0 (length rest)) rest)).

(** * dmcp.py *)
(** _compute_flops_loss, 246-284; [target] in MFLOPs; None is a result that is not a finite
    number. [ln] is used on positive arguments only. *)
Inductive floss_type := L1 | L2 | LogL1 | InvertedLogL1 | OtherLoss.
Definition log_ (ln : Q -> Q) (x : Q) : option Q := if Qle_bool x 0 then None else Some (ln x).
Definition flops_loss (ln : Q -> Q) (t : floss_type) (weight target expected : Q) : outcome (option Q) :=
  let error := (expected - target * 1000000)%Q in
  do l <- match t with
          | L2 => Ok (Some (error * error)%Q)
          | InvertedLogL1 =>
              let d := (error + (1 # 100000))%Q in
              Ok (if Qeq_bool d 0 then None else option_map Qopp (log_ ln (/ d)%Q))
          | LogL1 =>
              let ratio := if Qle_bool (Qabs error) 200 then 1%Q else (1 # 10)%Q in
              let lower := (target * (95 # 100))%Q in
              Ok (if negb (Qle_bool lower expected) then log_ ln (ratio * Qabs error)%Q
                  else if negb (Qle_bool target expected) then Some (expected * 0)%Q
                  else log_ ln (ratio * Qabs (expected - lower))%Q)
          | L1 => Ok (Some (Qabs error))
          | OtherLoss => Raise NotImplementedError
          end;
  Ok (option_map (fun v => (v * weight)%Q) l).

(** ** train_step, 110-209: which subnets are trained, under which prefix *)
(** [kind in ('max')] is a test for a substring. *)
Fixpoint py_startswith (p s : string) : bool :=
  match p, s with
  | EmptyString, _ => true
  | String a p, String b s => Ascii.eqb a b && py_startswith p s
  | _, EmptyString => false
  end.
Fixpoint substring_of (p s : string) : bool :=
  py_startswith p s || match s with EmptyString => false | String _ s => substring_of p s end.
Record dstate := { arch_train : bool; sample_prob : Q }.
Record counters := { n_max : nat; n_min : nat; n_random : nat; n_direct : nat }.
Definition prefix (name : string) (n : nat) : string := (name ++ decimal n)%string.
(** One entry of the strategy; [u]: the draw of random.uniform. The result says which kind of
    subnet was trained and the prefix of its losses. *)
Definition train_kind (kind : string) (u : Q) (s : dstate) (c : counters) : option (smode * string) * dstate * counters :=
  let direct_ := (Some (MDirect, prefix "direct_subnet" (n_direct c)), s, {| n_max := n_max c; n_min := n_min c; n_random := n_random c; n_direct := S (n_direct c) |}) in
  let random_ := (Some (MRandom, prefix "random_subnet" (n_random c)), s, {| n_max := n_max c; n_min := n_min c; n_random := S (n_random c); n_direct := n_direct c |}) in
  if substring_of kind "max" then (Some (MMax, prefix "max_subnet" (n_max c)), s, {| n_max := S (n_max c); n_min := n_min c; n_random := n_random c; n_direct := n_direct c |})
  else if substring_of kind "min" then (Some (MMin, prefix "min_subnet" (n_min c)), s, {| n_max := n_max c; n_min := S (n_min c); n_random := n_random c; n_direct := n_direct c |})
  else if substring_of kind "arch_random" then if arch_train s then direct_ else random_
  else if substring_of kind "scheduled_random" then
    let '(o, _, c') := if negb (Qle_bool u (sample_prob s)) && arch_train s then direct_ else random_ in
    (o, {| arch_train := arch_train s; sample_prob := (sample_prob s * (9999 # 10000))%Q |}, c')
  else (None, s, c).
Fixpoint train_kinds (strategy : list string) (us : list Q) (s : dstate) (c : counters) : list (smode * string) * dstate :=
  match strategy, us with
  | k :: r, u :: us => let '(o, s, c) := train_kind k u s c in let '(l, s) := train_kinds r us s c in
      (match o with Some x => x :: l | None => l end, s)
  | _, _ => ([], s)
  end.
(** The whole step: the subnets trained and whether the architecture parameters are updated. *)
Definition train_step (strategy : list string) (start freq iter : Z) (us : list Q) (s : dstate) : list (smode * string) * bool * dstate :=
  let s := {| arch_train := arch_train s || (start <? iter); sample_prob := sample_prob s |} in
  let '(l, s) := train_kinds strategy us s {| n_max := 1; n_min := 1; n_random := 1; n_direct := 1 |} in
  (l, arch_train s && (iter mod freq =? 0), s).
Definition fresh : dstate := {| arch_train := false; sample_prob := 1 |}.
(** Steps number [from] to [from + length draws - 1]. *)
Fixpoint train_from (strategy : list string) (start freq from : Z) (draws : list (list Q)) (s : dstate) : list (list (smode * string) * bool) * dstate :=
  match draws with
  | [] => ([], s)
  | us :: r => let '(l, a, s) := train_step strategy start freq from us s in let '(rest, s) := train_from strategy start freq (from + 1) r s in ((l, a) :: rest, s)
  end.
