(** Iterative pruning schedules: models/algorithms/pruning/ite_prune_algorithm.py and dcff.py.

    Numbers are python ints and binary64 floats (PyNum.v).  [step_freq] is an int; in
    epoch-based runs the code multiplies it by max_iters / max_epochs (line 176), which is a
    whole number for mmengine's epoch-based loop (max_iters = max_epochs * len(loader)). *)
From Verif Require Import Prelude PyNum.

(** Python arithmetic on mixed numbers: ints are exact, a float operand makes it float. *)
Definition num_f (x : num) : spec_float := match x with NInt z => f64_of_Z z | NFloat f => f end.
Definition num_sub (a b : num) : num :=
  match a, b with NInt x, NInt y => NInt (x - y) | _, _ => NFloat (f64sub (num_f a) (num_f b)) end.
Definition num_mul (a b : num) : num :=
  match a, b with NInt x, NInt y => NInt (x * y) | _, _ => NFloat (f64mul (num_f a) (num_f b)) end.
Definition num_add (a b : num) : num :=
  match a, b with NInt x, NInt y => NInt (x + y) | _, _ => NFloat (f64add (num_f a) (num_f b)) end.
(** [int(x)]. *)
Definition num_int (x : num) : outcome Z := match x with NInt z => Ok z | NFloat f => py_int f end.

Fixpoint nget (d : list (string * num)) (k : string) : outcome num :=
  match d with [] => Raise KeyError | (k', v) :: r => if String.eqb k k' then Ok v else nget r k end.

Record manager := { m_target : list (string * num); m_supernet : list (string * num);
                    m_step_freq : Z; m_prune_times : Z; m_linear : bool }.

(** 76-87 (_get_delta_each_iter), called from the constructor (lines 49-51): its result is not
    used, but it can raise. *)
Definition delta_one (supernet : list (string * num)) (times : Z) (kt : string * num) : outcome unit :=
  match snd kt with
  | NFloat _ => if times =? 0 then Raise ZeroDivisionError else Ok tt
  | NInt _ => do _ <- nget supernet (fst kt); if times =? 0 then Raise ZeroDivisionError else Ok tt
  end.
Definition new_manager (target supernet : list (string * num)) (step_freq prune_times : Z) (linear : bool) : outcome manager :=
  do _ <- mapM (delta_one supernet prune_times) target;
  Ok {| m_target := target; m_supernet := supernet; m_step_freq := step_freq; m_prune_times := prune_times; m_linear := linear |}.

(** 53-56 (is_prune_time). *)
Definition is_prune_time (m : manager) (iteration : Z) : outcome bool :=
  if m_step_freq m =? 0 then Raise ZeroDivisionError
  else Ok ((iteration mod m_step_freq m =? 0) && (iteration / m_step_freq m <? m_prune_times m)).

(** 62-73: the value of one key; [ratio = times / prune_times]. *)
Definition prune_value (linear : bool) (times prune_times : Z) (target supernet : num) : outcome num :=
  let ratio := f64_lit times prune_times in
  let v := if linear then num_add (num_mul (num_sub target supernet) (NFloat ratio)) supernet else target in
  match supernet with
  | NInt _ => do z <- num_int v; Ok (NInt z)
  | NFloat _ => Ok v
  end.
(** 58-74 (prune_at). *)
Definition prune_at (m : manager) (iteration : Z) : outcome (list (string * num)) :=
  let times := iteration / m_step_freq m + 1 in
  do _ <- assert_ (times <=? m_prune_times m);
  mapM (fun kt => do s <- nget (m_supernet m) (fst kt); do v <- prune_value (m_linear m) times (m_prune_times m) (snd kt) s; Ok (fst kt, v)) (m_target m).

(** 189-213 (the pruning part of ItePruneAlgorithm.forward in training mode): the manager is
    created at the first training step of the process, with the choices of that moment as the
    supernet (163-187), and kept.  [choices] are the current choices of the mutator, by unit;
    set_choices is taken to store exactly the requested numbers.  [a_target] is the target
    after set_target_pruning_ratio (137-155) and [a_step_freq] is in iterations. *)
Definition set_choices (cur config : list (string * num)) : list (string * num) :=
  map (fun kv => (fst kv, match nget config (fst kv) with Ok v => v | Raise _ => snd kv end)) cur.
Record algo := { a_target : list (string * num); a_step_freq : Z; a_prune_times : Z; a_linear : bool;
                 a_choices : list (string * num); a_manager : option manager }.
Definition train_step (a : algo) (iteration : Z) : outcome algo :=
  do m <- match a_manager a with
          | Some m => Ok m
          | None => new_manager (a_target a) (a_choices a) (a_step_freq a) (a_prune_times a) (a_linear a)
          end;
  do b <- is_prune_time m iteration;
  do c <- (if b then do cfg <- prune_at m iteration; Ok (set_choices (a_choices a) cfg) else Ok (a_choices a));
  Ok {| a_target := a_target a; a_step_freq := a_step_freq a; a_prune_times := a_prune_times a; a_linear := a_linear a;
        a_choices := c; a_manager := Some m |}.
(** A checkpoint holds the masks (a buffer of the channel mutable, simple_mutable_channel.py
    25) and the iteration; a resumed process builds the algorithm anew. *)
Definition resume (a : algo) : algo :=
  {| a_target := a_target a; a_step_freq := a_step_freq a; a_prune_times := a_prune_times a; a_linear := a_linear a;
     a_choices := a_choices a; a_manager := None |}.
Inductive event := Step (iteration : Z) | Resume.
Fixpoint run (a : algo) (es : list event) : outcome algo :=
  match es with
  | [] => Ok a
  | Step i :: r => do a' <- train_step a i; run a' r
  | Resume :: r => run (resume a) r
  end.

(** * DCFF: dcff.py *)
(** 77-85 (_legal_freq_time). *)
Definition legal_freq_time (max_iters ft : Z) : bool := (ft >? 0) && (ft <? max_iters).
(** 87-121 (_init_prune_config_manager): the frequency and number of prune times used, for a
    [step_freq] that already is in iterations. *)
Definition dcff_init (max_iters step_freq prune_times : Z) : outcome (Z * Z) :=
  if xorb (legal_freq_time max_iters step_freq) (legal_freq_time max_iters prune_times)
  then if legal_freq_time max_iters step_freq then Ok (step_freq, max_iters / step_freq) else Ok (max_iters / prune_times, prune_times)
  else Raise RuntimeError.
