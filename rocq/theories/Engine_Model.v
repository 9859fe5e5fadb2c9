(** Model of loops, hooks and helpers of the engine:
    mmrazor/engine/runner/{darts_loop,quantization_loops,slimmable_val_loop,distill_val_loop,
    subnet_val_loop}.py, mmrazor/engine/hooks/{dump_subnet_hook,dmcp_subnet_hook}.py,
    mmrazor/registry/registry.py, mmrazor/utils/misc.py. *)
From Coq Require Import Decimal DecimalString Ascii.
From Verif Require Import Prelude Evolution_Model Recorder_Model.
Open Scope Z_scope.

(** * Two data loaders: darts_loop.py *)
(** A loader is the list of its batches in one pass (the same for every pass: shuffling only
    permutes it); an iterator is the list of the batches still to come. *)
Section Loaders.
  Variable B : Type.
  (** [tuple([next(loader) for loader in iters])]: the iterators are advanced from left to right
      until one is exhausted. *)
  Fixpoint next_all (its : list (list B)) : list (list B) * outcome (list B) :=
    match its with
    | [] => ([], Ok [])
    | [] :: r => ([] :: r, Raise StopIteration)
    | (b :: t) :: r => let '(r', o) := next_all r in (t :: r', do bs <- o; Ok (b :: bs))
    end.
  (** 146-177 (IterMultiLoader): on exhaustion the fresh iterators are stored in the attribute
      [iter_loader], and the next batches are drawn from [iter_loaders]. *)
  Record multi := { iter_loaders : list (list B); iter_loader : option (list (list B)); m_epoch : Z }.
  Definition iter_init (loaders : list (list B)) : multi := {| iter_loaders := loaders; iter_loader := None; m_epoch := 0 |}.
  Definition iter_next (loaders : list (list B)) (m : multi) : multi * outcome (list B) :=
    let '(its, o) := next_all (iter_loaders m) in
    match o with
    | Raise StopIteration =>
        let '(its', o') := next_all its in
        ({| iter_loaders := its'; iter_loader := Some loaders; m_epoch := m_epoch m + 1 |}, o')
    | _ => ({| iter_loaders := its; iter_loader := iter_loader m; m_epoch := m_epoch m |}, o)
    end.
  (** 98-116 (DartsIterBasedTrainLoop.run): [n] iterations; the batches that were trained on
      and the exception, if any. *)
  Fixpoint iter_run (loaders : list (list B)) (n : nat) (m : multi) : list (list B) * option exn :=
    match n with
    | O => ([], None)
    | S n' => let '(m', o) := iter_next loaders m in
              match o with
              | Ok bs => let '(r, e) := iter_run loaders n' m' in (bs :: r, e)
              | Raise e => ([], Some e)
              end
    end.
  (** 119-139, 52-61 (EpochMultiLoader in a for loop): ends at the first StopIteration; [fuel]
      exceeds the length of every loader. *)
  Fixpoint epoch_loop (fuel : nat) (its : list (list B)) : list (list B) :=
    match fuel with
    | O => []
    | S f => let '(its', o) := next_all its in match o with Ok bs => bs :: epoch_loop f its' | Raise _ => [] end
    end.
  Definition run_epoch (loaders : list (list B)) : list (list B) :=
    epoch_loop (1 + fold_right Nat.add 0%nat (map (@length B) loaders)) loaders.
End Loaders.

(** * Building models: registry.py 35-53 *)
(** A configuration: whether 'cfg_path' and 'type' are set, the truth value of
    '_return_architecture_' (None: absent), and the configurations nested in it (which
    build_from_cfg passes on without copying, so the same objects are reached again by a later
    build). *)
Inductive cfg := Cfg (cfg_path typ : bool) (ret : option bool) (nested : list cfg).
Inductive built := Hub | Arch (parts : list built) | Razor (parts : list built).
Fixpoint build (c : cfg) : built * cfg :=
  match c with
  | Cfg p t ret ns =>
      if p && negb t then (Hub, Cfg p t ret ns)
      else
        let return_architecture := match ret with Some b => b | None => false end in
        let ret' := if return_architecture then None else ret in
        let parts := map build ns in
        (if return_architecture then Arch (map fst parts) else Razor (map fst parts), Cfg p t ret' (map snd parts))
  end.
(** The result of the [n]-th further build of the same object. *)
Fixpoint build_again (n : nat) (c : cfg) : built := match n with O => fst (build c) | S n' => build_again n' (snd (build c)) end.

(** * DumpSubnetHook: dump_subnet_hook.py *)
Record dump_cfg := { interval : Z; by_epoch : bool; max_keep_subnets : Z; save_last : bool }.
(** mmengine Hook.every_n_epochs / every_n_train_iters: [i]: index + 1. *)
Definition every_n (i n : Z) : bool := if n >? 0 then i mod n =? 0 else false.
(** 91-106, 144-169: does the hook save after step [i] (counted from 1) of [last]? *)
Definition dump_now (c : dump_cfg) (last i : Z) : bool := every_n i (interval c) || (save_last c && (i =? last)).
(** 108-142: the file of step [i] is added (subnet_epoch_<i>.yaml / subnet_iter_<i>.yaml);
    max_keep_subnets is not used. *)
Definition after_step (c : dump_cfg) (epoch_step : bool) (last i : Z) (files : list Z) : list Z :=
  if Bool.eqb (by_epoch c) epoch_step then (if dump_now c last i then files ++ [i] else files) else files.
(** A run over the steps [from], [from]+1, ...; [epoch_step]: epochs (iterations otherwise). *)
Fixpoint dump_run (c : dump_cfg) (epoch_step : bool) (last : Z) (from : Z) (n : nat) (files : list Z) : list Z :=
  match n with O => files | S n' => dump_run c epoch_step last (from + 1) n' (after_step c epoch_step last from files) end.

(** * Quantization loops: quantization_loops.py *)
Section Quant.
  (** [B]: batches.  [estimate b]: scale that the observer computes from the batch; [learn s b]:
      scale after the optimizer step on [b]; [clamp]: clamp_(min=eps). *)
  Variables (B : Type) (estimate : B -> Q) (learn : Q -> B -> Q) (clamp : Q -> Q).
  (** LearnableFakeQuantize as far as the loop drives it (mmrazor/models/fake_quants/lsq.py 132-201). *)
  Record fake_quant := { scale : Q; static_enabled : bool; learning_enabled : bool; fq_enabled : bool }.
  Definition enable_param_learning (f : fake_quant) := {| scale := scale f; static_enabled := false; learning_enabled := true; fq_enabled := true |}.
  Definition enable_static_estimate (f : fake_quant) := {| scale := scale f; static_enabled := true; learning_enabled := false; fq_enabled := true |}.
  Definition enable_val (f : fake_quant) := {| scale := scale f; static_enabled := false; learning_enabled := false; fq_enabled := true |}.
  (** One training iteration: forward (lsq.py 219-239), then the optimizer, which changes the scale
      only if it requires a gradient. *)
  Definition train_iter (f : fake_quant) (b : B) : fake_quant :=
    let s := if static_enabled f then estimate b else clamp (scale f) in
    {| scale := if learning_enabled f then learn s b else s; static_enabled := static_enabled f; learning_enabled := learning_enabled f; fq_enabled := fq_enabled f |}.
  (** LSQEpochBasedLoop.(169-213), one fake quantizer. *)
  Definition lsq_iter (st : fake_quant * bool) (b : B) : fake_quant * bool :=
    let '(f, first) := st in
    if first then (enable_param_learning (train_iter (enable_static_estimate f) b), false)
    else (train_iter f b, false).
  Definition lsq_epoch (st : fake_quant * bool) (batches : list B) : fake_quant * bool :=
    let '(f, first) := fold_left lsq_iter batches (enable_param_learning (fst st), snd st) in (enable_val f, first).
  (** run (95-109): the epochs still to be run. *)
  Definition lsq_run (st : fake_quant * bool) (epochs : list (list B)) : fake_quant * bool := fold_left lsq_epoch epochs st.
  (** A checkpoint written at the end of an epoch holds the state dict (scale and switches); a
      resumed loop is a new object, so is_first_batch is True (166). *)
  Definition lsq_resume (f : fake_quant) : fake_quant * bool := (f, true).

  (** ** QATEpochBasedLoop (72-124) *)
  Record qat := { q_fake_quant : bool; q_observer : bool; q_bn_frozen : bool }.
  Definition prepare_for_run_epoch (disable_observer_begin freeze_bn_begin epoch : Z) (m : qat) : qat :=
    {| q_fake_quant := true;
       q_observer := negb ((disable_observer_begin >? 0) && (epoch + 1 >=? disable_observer_begin));
       q_bn_frozen := if (freeze_bn_begin >? 0) && (epoch + 1 >=? freeze_bn_begin) then true else q_bn_frozen m |}.
  Definition prepare_for_val (m : qat) : qat := {| q_fake_quant := true; q_observer := false; q_bn_frozen := q_bn_frozen m |}.
  (** The states during the epochs [epoch], ..., and the states seen by after_train_epoch hooks
      and by validation. *)
  Fixpoint qat_run (dob fbb epoch : Z) (n : nat) (m : qat) : list (Z * qat * qat) :=
    match n with
    | O => []
    | S n' => let m1 := prepare_for_run_epoch dob fbb epoch m in
              let m2 := prepare_for_val m1 in
              (epoch, m1, m2) :: qat_run dob fbb (epoch + 1) n' m2
    end.

  (** ** PTQLoop.run (343-381): every forward pass, with the switches of the model at that
      moment; [calibrate]: a pass of the calibration loop (an evaluation pass otherwise). *)
  Record pass := { p_batch : B; calibrate : bool; p_fake_quant : bool; p_observer : bool }.
  Fixpoint take_until (steps idx : Z) (l : list B) : list B :=
    match l with [] => [] | b :: r => if idx =? steps then [] else b :: take_until steps (idx + 1) r end.
  Definition passes (c fq ob : bool) (l : list B) : list pass :=
    map (fun b => {| p_batch := b; calibrate := c; p_fake_quant := fq; p_observer := ob |}) l.
  (** 374-376: the switches are set again before the evaluation. *)
  Definition ptq_run (only_val : bool) (calibrate_steps : Z) (calibration evaluation : list B) : list pass :=
    (if only_val then [] else passes true true true (take_until calibrate_steps 0 calibration))
      ++ passes false true false evaluation.
End Quant.

(** * Validation loops *)
(** QATValLoop.run (249-285): metrics handed to the two after_val_epoch hooks, and the returned
    dictionary. *)
Definition prefixed (p : string) (m : subnet) : subnet := dupdate [] (map (fun kv => ((p ++ fst kv)%string, snd kv)) m).
Definition qat_val (quantized original : subnet) : list subnet * subnet :=
  let q := prefixed "qat." quantized in
  let o := prefixed "original." original in
  ([q; o], o).
(** SingleTeacherDistillValLoop.run (distill_val_loop.py 46-66): metrics of the hook. *)
Definition teacher_val (student teacher : subnet) : subnet :=
  dupdate student (map (fun kv => (("teacher." ++ fst kv)%string, snd kv)) teacher).
(** SlimmableValLoop.run (slimmable_val_loop.py 41-58); [evaluate] gives the metrics of a
    subnet. *)
Definition decimal (n : nat) : string := NilZero.string_of_uint (Nat.to_uint n).
Section Slimmable.
  Variable C : Type.
  Variable evaluate : C -> subnet.
  Fixpoint slimmable_from (i : nat) (subnets : list C) (acc : subnet) : subnet :=
    match subnets with
    | [] => acc
    | s :: r => slimmable_from (1 + i) r (dupdate acc (add_prefix ("subnet_" ++ decimal i)%string (evaluate s)))
    end.
  Definition slimmable_val (subnets : list C) : subnet := slimmable_from 0 subnets [].
End Slimmable.
(** SubnetValLoop.run (subnet_val_loop.py 55-82), for a model with sample_kinds;
    [evaluate]: metrics of a subnet (calibration, evaluation and resources); [sample i]: the
    subnet drawn for the kind number [i]. *)
Definition contains (sub s : string) : bool := match index 0 sub s with Some _ => true | None => false end.
Section SubnetVal.
  Variable C : Type.
  Variables (evaluate : C -> subnet) (max_choice min_choice : C) (sample : nat -> C).
  Fixpoint subnet_from (i : nat) (kinds : list string) (acc : subnet) : subnet :=
    match kinds with
    | [] => acc
    | k :: r =>
        let acc' :=
          if String.eqb k "max" then dupdate acc (add_prefix "max_subnet" (evaluate max_choice))
          else if String.eqb k "min" then dupdate acc (add_prefix "min_subnet" (evaluate min_choice))
          else if contains "random" k then dupdate acc (add_prefix (k ++ "_subnet")%string (evaluate (sample i)))
          else acc in
        subnet_from (1 + i) r acc'
    end.
  Definition subnet_val (kinds : list string) : subnet := subnet_from 0 kinds [].
End SubnetVal.

(** * find_latest_checkpoint: utils/misc.py 7-38 *)
(** str.split(sep) for a one-character separator. *)
Fixpoint split (sep : ascii) (s : string) : list string :=
  match s with
  | EmptyString => [EmptyString]
  | String c r =>
      if Ascii.eqb c sep then EmptyString :: split sep r
      else match split sep r with [] => [String c EmptyString] | h :: t => String c h :: t end
  end.
(** int(s) for strings of ASCII digits with an optional sign (blanks and underscores, which
    python also accepts, are not modelled). *)
Definition py_int (s : string) : outcome Z :=
  let digits t := match NilZero.uint_of_string t with Some u => Ok (Z.of_uint u) | None => Raise ValueError end in
  match s with
  | String "-" t => do z <- digits t; Ok (- z)
  | String "+" t => digits t
  | _ => digits s
  end.
(** 34: int(osp.basename(checkpoint).split('_')[-1].split('.')[0]). *)
Definition checkpoint_number (name : string) : outcome Z :=
  py_int (hd EmptyString (split "." (last (split "_" name) EmptyString))).
Fixpoint latest_of (files : list string) (latest : Z) (path : option string) : outcome (option string) :=
  match files with
  | [] => Ok path
  | f :: r => do n <- checkpoint_number f;
              if n >? latest then latest_of r n (Some f) else latest_of r latest path
  end.
(** The string ends with the suffix. *)
Fixpoint ends_with (suf s : string) : bool :=
  String.eqb suf s || match s with EmptyString => false | String _ r => ends_with suf r end.
(** The base names in the directory; [None]: the directory does not exist.  glob('*.suffix')
    skips names that begin with a dot. *)
Definition find_latest_checkpoint (dir : option (list string)) (suffix : string) : outcome (option string) :=
  match dir with
  | None => Ok None
  | Some names =>
      if existsb (String.eqb ("latest." ++ suffix)) names then Ok (Some ("latest." ++ suffix)%string)
      else latest_of (filter (fun n => ends_with ("." ++ suffix)%string n && negb (prefix "." n)) names) (-1) None
  end.

(** * DMCPSubnetHook.after_run: dmcp_subnet_hook.py 41-74 *)
Section DMCPHook.
  (** [draws]: the subnets that set_subnet(mode='direct') samples, one after another (the code
      draws until one fits; None: all the draws were used up); [current]: the subnet of the
      model.  [expected]: the subnet of set_subnet(mode='expected'). *)
  Variables (C : Type) (flops : C -> Q) (expected : C).
  Definition out_of_range (target cur : Q) : bool :=
    negb (Qle_bool cur (target * (105 # 100))) || negb (Qle_bool (target * (95 # 100)) cur).
  (** 58-62. *)
  Fixpoint draw (target cur_flops : Q) (current : C) (draws : list C) : option (C * list C) :=
    if out_of_range target cur_flops then
      match draws with [] => None | s :: r => draw target (flops s) s r end
    else Some (current, draws).
  (** 57-74 for i < num_sample: subnet_1.json, ... *)
  Fixpoint save_direct (target : Q) (n : nat) (current : C) (draws : list C) : option (list C * C * list C) :=
    match n with
    | O => Some ([], current, draws)
    | S n' =>
        match draw target (target * 10) current draws with
        | None => None
        | Some (s, r) => match save_direct target n' s r with None => None | Some (l, c, r') => Some (s :: l, c, r') end
        end
    end.
  (** The saved direct samples, the subnet saved as excepted_ch.json, and the FLOPs logged for
      it. *)
  Definition dmcp_after_run (target : Q) (num_sample : nat) (current : C) (draws : list C) : option (list C * C * Q) :=
    match save_direct target num_sample current draws with
    | None => None
    | Some (l, c, r) =>
        match draw target (target * 10) c r with None => None | Some (s, _) => Some (l, expected, flops s) end
    end.
End DMCPHook.
