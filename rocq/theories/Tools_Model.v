(** Measuring, showing and setting up: models/task_modules/estimators/counters/latency_counter.py, engine/hooks/visualization_hook.py, utils/{runtime_info,setup_env}.py,
    engine/optimizers/optimizer_constructor.py, models/architectures/ops/gather_tensors.py. *)
From Coq Require Import String Ascii QArith.
From Verif Require Import Prelude Gptq_Model Onnx_Model Engine_Model.
Local Open Scope string_scope.
Local Open Scope list_scope.
Local Open Scope Z_scope.

(** ** Latency *)
(** latency_counter.py 95-135, _get_model_latency on CUDA: [el i] is the time of pass [i]; numbers are exact.  [n] passes are left, [i] is the next one. *)
Fixpoint passes (el : Z -> Q) (max_iter num_warmup log_interval : Z) (n : nat) (i : Z) (pure fps : Q) : outcome Q :=
  match n with
  | O => Ok fps
  | S n =>
    do pf <- (if num_warmup <=? i then
                let pure := (pure + el i)%Q in
                if log_interval =? 0 then Raise ZeroDivisionError
                else if (i + 1) mod log_interval =? 0
                     then if Qeq_bool pure 0 then Raise ZeroDivisionError else Ok (pure, (inject_Z (i + 1 - num_warmup) / pure)%Q)
                     else Ok (pure, fps)
              else Ok (pure, fps));
    if i + 1 =? max_iter
    then if Qeq_bool (fst pf) 0 then Raise ZeroDivisionError else Ok (inject_Z (i + 1 - num_warmup) / fst pf)%Q
    else passes el max_iter num_warmup log_interval n (i + 1) (fst pf) (snd pf)
  end.
Definition latency_once (cuda : bool) (el : Z -> Q) (max_iter num_warmup log_interval : Z) : outcome Q :=
  if cuda then passes el max_iter num_warmup log_interval (Z.to_nat (max_iter - 1)) 1 0 0 else Raise NotImplementedError.
(** round(x, 1). *)
Definition round1 (x : Q) : Q := (inject_Z (rnd (x * 10)) / 10)%Q.
Definition per_img (fps : Q) : outcome Q := if Qeq_bool fps 0 then Raise ZeroDivisionError else Ok (round1 (1000 / fps)).
Definition mean (l : list Q) : Q := (fold_left Qplus l 0 / inject_Z (Z.of_nat (length l)))%Q.
(** get_model_latency (latency_counter.py 40-67); [els] are the times of the repetitions, the unit is returned with strings. *)
Definition latency (cuda : bool) (els : list (Z -> Q)) (max_iter num_warmup log_interval : Z) (as_strings : bool) (unit : string) : outcome (Q * option string) :=
  do _ <- assert_ (negb (length els =? 0)%nat);
  do fps <- mapM (fun el => latency_once cuda el max_iter num_warmup log_interval) els;
  do first <- per_img (hd 0%Q fps);
  do v <- (if (1 <? length els)%nat then do ts <- mapM per_img fps; Ok (mean ts) else Ok first);
  Ok (v, if as_strings then Some unit else None).

(** ** Runtime information *)
(** runtime_info.py 15-47; [info] are the counters of the message hub; max_iters / max_epochs is not rounded. *)
Definition get_info (info : list (string * Z)) (k : string) : outcome Z := match get info k with Some v => Ok v | None => Raise KeyError end.
Definition iter_pre_epoch (info : list (string * Z)) : outcome Z :=
  do a <- get_info info "max_iters"; do b <- get_info info "max_epochs"; if b =? 0 then Raise ZeroDivisionError else Ok (- ((- a) / b)).
Definition iter_by_epoch (info : list (string * Z)) : outcome Z :=
  do n <- iter_pre_epoch info; do i <- get_info info "iter"; if n =? 0 then Raise ZeroDivisionError else Ok (i mod n).

(** ** Visualization *)
Definition is_abs (s : string) : bool := match s with String c _ => Ascii.eqb c "/"%char | EmptyString => false end.
Fixpoint ends_slash (s : string) : bool := match s with EmptyString => false | String c EmptyString => Ascii.eqb c "/"%char | String _ s => ends_slash s end.
(** os.path.join of two paths. *)
Definition join (a b : string) : string :=
  if is_abs b then b else if (match a with EmptyString => true | _ => ends_slash a end) then (a ++ b)%string else (a ++ "/" ++ b)%string.
(** str of an integer. *)
Definition str_Z (z : Z) : string := if z <? 0 then ("-" ++ decimal (Z.to_nat (- z)))%string else decimal (Z.to_nat z).
Inductive stage := BeforeRun | Epoch (n : nat).
Definition stage_name (s : stage) : string := match s with BeforeRun => "before_run" | Epoch n => ("epoch_" ++ decimal n)%string end.
(** visualization_hook.py 190-205: the name of a drawn image. *)
Definition drawn_name (s : stage) (idx : Z) (name : string) (i : nat) : string :=
  (stage_name s ++ "_data_idx_" ++ str_Z idx ++ "_" ++ name ++ "_" ++ decimal i)%string.
(** visualization_hook.py 137-205, _visualize: the directory afterwards, and the files and steps of the images drawn; [feats] are the mappings with their numbers of feature maps. *)
Definition visualize (work_dir timestamp : string) (st : option string * nat) (s : stage) (data_idx : list Z) (feats : list (string * nat)) : (option string * nat) * list (option string * string * nat) :=
  let dir := option_map (join (join work_dir timestamp)) (fst st) in
  let names := flat_map (fun idx => flat_map (fun f => map (drawn_name s idx (fst f)) (seq 0 (snd f))) feats) data_idx in
  ((dir, (snd st + length names)%nat), map (fun kn => (option_map (fun d => join d (snd kn ++ ".jpg")%string) dir, snd kn, (snd st + fst kn)%nat)) (combine (seq 0 (length names)) names)).
(** visualization_hook.py 125-135, before_train and after_train_epoch, of the stages of a run in order. *)
Definition due (enabled : bool) (interval epoch : Z) : outcome bool := if enabled then if interval =? 0 then Raise ZeroDivisionError else Ok (epoch mod interval =? 0) else Ok false.
Fixpoint vis_run (work_dir timestamp : string) (st : option string * nat) (stages : list stage) (data_idx : list Z) (feats : list (string * nat)) : list (option string * string * nat) :=
  match stages with
  | [] => []
  | s :: r => let x := visualize work_dir timestamp st s data_idx feats in snd x ++ vis_run work_dir timestamp (fst x) r data_idx feats
  end.

(** ** Setting up *)
(** mmengine's DefaultScope: the instances created so far with their scopes, in order; the current one is the last.  get_instance does not change one that exists. *)
Definition scopes := list (string * string).
Definition current (s : scopes) : option string := match rev s with (_, c) :: _ => Some c | [] => None end.
Definition get_instance (s : scopes) (name scope : string) : scopes := if has s name then s else s ++ [(name, scope)].
(** setup_env.py 52-85, register_all_modules; [now] is the time in the name of a new instance. *)
Definition register_all (init_default_scope : bool) (now : string) (s : scopes) : scopes :=
  if init_default_scope then
    match current s with
    | None => get_instance s "mmrazor" "mmrazor"
    | Some c => if has s "mmrazor" then if String.eqb c "mmrazor" then s else get_instance s ("mmrazor-" ++ now) "mmrazor"
                else get_instance s "mmrazor" "mmrazor"
    end
  else s.
(** setup_env.py 30-51: the variables; [workers] is cfg.data.workers_per_gpu, if the configuration has it. *)
Definition setup_var (name : string) (workers : option Z) (env : list (string * string)) : outcome (list (string * string)) :=
  if has env name then Ok env else
  match workers with None => Raise AttributeError | Some w => Ok (if 1 <? w then put env name "1" else env) end.
Definition setup_threads (workers : option Z) (env : list (string * string)) : outcome (list (string * string)) :=
  do e <- setup_var "OMP_NUM_THREADS" workers env; setup_var "MKL_NUM_THREADS" workers e.

(** ** Optimizers *)
Section Optim.
Context {Cfg P O : Type}.
(** A module: its name, its children.  DefaultOptimWrapperConstructor is given the rest of a configuration, paramwise_cfg and a module. *)
Inductive mod_ := Mod (label : nat) (children : list (string * mod_)).
Definition kids (m : mod_) : list (string * mod_) := match m with Mod _ c => c end.
Variable construct : Cfg -> option P -> mod_ -> outcome O.
(** optimizer_constructor.py 48-71: the constructors and __call__. *)
Definition optimizers (cfg : list (string * (Cfg * option P))) (m : mod_) : outcome (list (string * O)) :=
  let m := match get (kids m) "module" with Some x => x | None => m end in
  mapM (fun kc => match get (kids m) (fst kc) with Some c => do o <- construct (fst (snd kc)) (snd (snd kc)) c; Ok (fst kc, o) | None => Raise KeyError end) cfg.
End Optim.

(** ** Gathering tensors *)
(** gather_tensors.py 16-58 on all ranks: a tensor is a list of numbers, [xs] are those of the ranks in order. *)
Definition gather_forward (xs : list (list Q)) : list (list (list Q)) := map (fun _ => xs) xs.
Definition addv (a b : list Q) : list Q := map (fun p => (fst p + snd p)%Q) (combine a b).
(** all_reduce of the stacked gradients, then the one of the rank. *)
Definition reduce (grads : list (list (list Q))) : list (list Q) :=
  match grads with [] => [] | g :: gs => fold_left (fun acc g => map (fun p => addv (fst p) (snd p)) (combine acc g)) gs g end.
Definition gather_backward (grads : list (list (list Q))) : list (list Q) := map (fun r => nth r (reduce grads) []) (seq 0 (length grads)).
