(** Model of mmrazor/engine/runner/utils/calibrate_bn_mixin.py (calibration of the statistics of
    batch normalization layers).

    Tensors of per-channel statistics are lists of rational numbers (exact arithmetic).  The
    statistics of one layer have the same number of channels in every batch of a calibration
    (the masks do not change meanwhile), so shape errors are not modelled. *)
From Verif Require Import Prelude.
Open Scope Z_scope.

(** * AverageMeter, 12-36 *)
Record meter := { m_sum : option (list Q); m_count : Z; m_avg : option (list Q) }.
Definition meter0 : meter := {| m_sum := None; m_count := 0; m_avg := None |}.
Definition vscale (k : Q) (v : list Q) : list Q := map (fun x => x * k)%Q v.
Definition vadd (u v : list Q) : list Q := map (fun xy => fst xy + snd xy)%Q (combine u v).
(** 33-35: without distributed training.  The sum starts as the number 0 ([None]). *)
Definition update (m : meter) (val : list Q) (batch_size : Z) : meter :=
  let add := vscale (inject_Z batch_size) val in
  let sum := match m_sum m with None => add | Some s => vadd s add end in
  let count := m_count m + batch_size in
  {| m_sum := Some sum; m_count := count; m_avg := Some (vscale (/ inject_Z count)%Q sum) |}.
(** 24-35 on all workers: both the statistics and the batch sizes are summed over the workers. *)
Definition vsum (vs : list (list Q)) : list Q := match vs with [] => [] | v :: r => fold_left vadd r v end.
Definition dist_update (ws : list (meter * list Q * Z)) : list meter :=
  let reduced := vsum (map (fun w => snd (fst w)) ws) in
  let total := fold_right Z.add 0 (map snd ws) in
  map (fun w => update (fst (fst w)) (vscale (/ (inject_Z total / inject_Z (snd w)))%Q reduced) total) ws.

(** [l[:n]]. *)
Definition py_prefix {T} (n : Z) (l : list T) : list T := firstn (slice_stop (length l) n) l.

Section Calibrate.
  (** [S]: samples.  [observe xs i]: what the forward hook of layer [i] sees while the samples
      [xs] pass the network, in order: size(0) of the input, channel means, channel variances
      (46-57).  [momentum running batch]: the update of the running statistics that the layer
      itself makes in training mode. *)
  Variable S : Type.
  Record obs := { o_size : Z; o_mean : list Q; o_var : list Q }.
  Variable observe : list S -> nat -> list obs.
  Variable momentum : nat -> list Q -> list Q -> list Q.

  (** A batch is a tensor or a dict of [keys] entries with key 'inputs'. *)
  Inductive batch := TensorBatch (xs : list S) | DictBatch (keys : nat) (xs : list S).
  Definition batch_len (b : batch) : Z := match b with TensorBatch xs => Z.of_nat (length xs) | DictBatch k _ => Z.of_nat k end.
  Definition inputs (b : batch) : list S := match b with TensorBatch xs => xs | DictBatch _ xs => xs end.
  (** 81-82: slicing a dict raises TypeError. *)
  Definition cut_batch (remaining : Z) (b : batch) : outcome batch :=
    if batch_len b >=? remaining
    then match b with TensorBatch xs => Ok (TensorBatch (py_prefix remaining xs)) | DictBatch _ _ => Raise TypeError end
    else Ok b.

  Record layer := { l_mean : list Q; l_var : list Q; l_mm : meter; l_vm : meter }.
  Definition hook (i : nat) (l : layer) (o : obs) : layer :=
    {| l_mean := momentum i (l_mean l) (o_mean o); l_var := momentum i (l_var l) (o_var o);
       l_mm := update (l_mm l) (o_mean o) (o_size o); l_vm := update (l_vm l) (o_var o) (o_size o) |}.
  Definition forward_layer (xs : list S) (i : nat) (l : layer) : layer := fold_left (hook i) (observe xs i) l.
  Fixpoint forward_from (xs : list S) (i : nat) (ls : list layer) : list layer :=
    match ls with [] => [] | l :: r => forward_layer xs i l :: forward_from xs (1 + i) r end.
  (** 79-101 *)
  Fixpoint loop (remaining : Z) (batches : list batch) (ls : list layer) : outcome (list layer) :=
    match batches with
    | [] => Ok ls
    | b :: r =>
        do b' <- cut_batch remaining b;
        let remaining' := remaining - Z.of_nat (length (inputs b')) in
        let ls' := forward_from (inputs b') 0 ls in
        if remaining' <=? 0 then Ok ls' else loop remaining' r ls'
    end.
  (** 132-133: copy_ into the first channels. *)
  Definition copy_prefix (running avg : list Q) : outcome (list Q) :=
    if (length avg <=? length running)%nat then Ok (avg ++ skipn (length avg) running) else Raise RuntimeError.
  (** 103-136 *)
  Definition finish (l : layer) : outcome (list Q * list Q) :=
    if (m_count (l_mm l) =? 0) || (m_count (l_vm l) =? 0) then
      do _ <- assert_ ((m_count (l_mm l) =? 0) && (m_count (l_vm l) =? 0)); Ok (l_mean l, l_var l)
    else match m_avg (l_mm l), m_avg (l_vm l) with
         | Some a, Some v => do m <- copy_prefix (l_mean l) a; do w <- copy_prefix (l_var l) v; Ok (m, w)
         | _, _ => Raise AttributeError
         end.
  (** 44-141; [running]: running mean and variance of the layers, in the order of
      named_modules. *)
  Definition calibrate (num : Z) (batches : list batch) (running : list (list Q * list Q)) : outcome (list (list Q * list Q)) :=
    do ls <- loop num batches (map (fun r => {| l_mean := fst r; l_var := snd r; l_mm := meter0; l_vm := meter0 |}) running);
    mapM finish ls.
End Calibrate.

(** * Distributed calibration of the mean of one layer that is called once per batch
    (79-101 with 86-91): each step has one tensor batch per worker. *)
Section Distributed.
  Variable S : Type.
  Variable mean : list S -> list Q.
  Definition dist_cut (remaining : Z) (b : list S) : list S := if Z.of_nat (length b) >=? remaining then py_prefix remaining b else b.
  Fixpoint dist_loop (remaining : Z) (steps : list (list (list S))) (ms : list meter) : list meter :=
    match steps with
    | [] => ms
    | bs :: r =>
        let bs' := map (dist_cut remaining) bs in
        let remaining' := remaining - fold_right Z.add 0 (map (fun b => Z.of_nat (length b)) bs') in
        let ms' := dist_update (map (fun mb => (fst mb, mean (snd mb), Z.of_nat (length (snd mb)))) (combine ms bs')) in
        if remaining' <=? 0 then ms' else dist_loop remaining' r ms'
    end.
  Definition dist_calibrate (workers : nat) (num : Z) (steps : list (list (list S))) : list (option (list Q)) :=
    map m_avg (dist_loop num steps (repeat meter0 workers)).
End Distributed.
