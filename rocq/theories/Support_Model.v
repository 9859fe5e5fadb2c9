(** Model of mmrazor/utils/log_tools.py, mmrazor/testing/_fast_stop_training_hook.py,
    mmrazor/models/observers/torch_observers.py, mmrazor/models/fake_quants/torch_fake_quants.py
    (registration) and mmrazor/models/utils/utils.py. *)
From Coq Require Import String Ascii.
From Verif Require Import Prelude.
Open Scope list_scope.
Open Scope Z_scope.

(** * log_tools.py *)
(** [str.upper], on ASCII letters. *)
Definition upper_char (c : ascii) : ascii :=
  let n := nat_of_ascii c in if ((97 <=? n) && (n <=? 122))%nat then ascii_of_nat (n - 32) else c.
Fixpoint upper (s : string) : string :=
  match s with EmptyString => EmptyString | String c r => String (upper_char c) (upper r) end.
(** logging._nameToLevel of the Python standard library. *)
Definition name_to_level : list (string * Z) :=
  [("CRITICAL", 50); ("FATAL", 50); ("ERROR", 40); ("WARN", 30); ("WARNING", 30); ("INFO", 20); ("DEBUG", 10); ("NOTSET", 0)]%string.
Fixpoint lookup (s : string) (l : list (string * Z)) : option Z :=
  match l with [] => None | (k, v) :: r => if String.eqb k s then Some v else lookup s r end.
(** What is passed as level: a string, an integer, something else. *)
Inductive larg : Type := LStr (s : string) | LInt (z : Z) | LOther.
(** log_tools.py:9-18, [get_level]. *)
Definition get_level (a : larg) : outcome Z :=
  match a with
  | LStr s => match lookup (upper s) name_to_level with Some z => Ok z | None => Raise AssertionError end
  | LInt z => Ok z
  | LOther => Raise NotImplementedError
  end.
(** log_tools.py:21-29, [print_log] on one process: the level a message is printed with, if it is.
    [rank] is None if torch.distributed is not initialised. *)
Definition print_log (rank : option nat) (a : larg) (only_rank0 : bool) : outcome (option Z) :=
  match only_rank0, rank with
  | true, Some r => if Nat.eqb r 0 then do l <- get_level a; Ok (Some l) else Ok None
  | _, _ => do l <- get_level a; Ok (Some l)
  end.
(** log_tools.py:32-37, [set_log_level]: the levels of the handlers and of the logger. *)
Definition set_log_level (handlers : list Z) (own : Z) (a : larg) : list Z * Z * outcome unit :=
  match get_level a with
  | Raise e => (handlers, own, Raise e)
  | Ok l => match handlers with
            | [] => ([], own, Raise IndexError)
            | _ :: r => (l :: r, l, Ok tt)
            end
  end.

(** * _fast_stop_training_hook.py *)
Record fast_stop : Type := { by_epoch : bool; save_ckpt : bool; stop_at : Z }.
(** _fast_stop_training_hook.py:16-23, [after_train_iter], and 25-27, [after_train_epoch]: does it raise? *)
Definition stop_iter (h : fast_stop) (it : nat) : bool :=
  if save_ckpt h && by_epoch h then false else stop_at h <=? Z.of_nat it.
Definition stop_epoch (h : fast_stop) (epoch : nat) : bool := stop_at h - 1 <=? Z.of_nat epoch.
(** A training of mmengine with epochs of [n] batches: runner.iter and runner.epoch are counted
    up after the hooks.  Results: iterations trained, and whether a hook raised. *)
Fixpoint run_iters (h : fast_stop) (n it : nat) : nat * bool :=
  match n with
  | O => (it, false)
  | S n => if stop_iter h it then (S it, true) else run_iters h n (S it)
  end.
Fixpoint run_epochs (h : fast_stop) (n epochs epoch it : nat) : nat * bool :=
  match epochs with
  | O => (it, false)
  | S more =>
      let (it', raised) := run_iters h n it in
      if raised then (it', true)
      else if stop_epoch h epoch then (it', true)
      else run_epochs h n more (S epoch) it'
  end.

(** * Registration of torch's observers and fake quantizers *)
(** An attribute of the torch module: the name of the class it is bound to if it is a class derived
    from the base class. *)
Definition attribute : Type := (string * option string)%type.
Definition skipped (nm : string) : bool :=
  String.prefix "__" nm || String.prefix "_" nm || String.prefix "default" nm.
Definition known (reg : list string) (nm : string) : bool := existsb (String.eqb nm) reg.
(** torch_observers.py:48-66 and torch_fake_quants.py:20-38.  [register_module] registers under the
    class's own name and raises KeyError if that is taken.  Results: the registry and the names. *)
Fixpoint register (attrs : list attribute) (reg : list string) (out : list string) : list string * outcome (list string) :=
  match attrs with
  | [] => (reg, Ok out)
  | (nm, cls) :: r =>
      if skipped nm then register r reg out
      else match cls with
           | None => register r reg out
           | Some c =>
               if known reg nm then register r reg out
               else if known reg c then (reg, Raise KeyError)
               else register r (reg ++ [c]) (out ++ [nm])
           end
  end.

(** * models/utils/utils.py *)
(** A parameter: its identity; where it is: None for the CPU, else the number of the GPU. *)
Definition params : Type := list nat.
Inductive nets : Type := OneNet (n : option params) | ManyNets (l : list (option params)).
(** utils.py:25-39, [set_requires_grad]; the state says which parameters require gradients. *)
Definition set_params (flag : bool) (g : nat -> bool) (n : option params) : nat -> bool :=
  match n with
  | None => g
  | Some ps => fold_left (fun g p => fun q => if Nat.eqb p q then flag else g q) ps g
  end.
Definition set_requires_grad (ns : nets) (flag : bool) (g : nat -> bool) : nat -> bool :=
  fold_left (set_params flag) (match ns with OneNet n => [n] | ManyNets l => l end) g.
(** utils.py:8-23, [get_module_device]. *)
Definition get_module_device (where_ : nat -> option nat) (ps : params) : outcome (option nat) :=
  match ps with
  | [] => Raise ValueError
  | p :: _ => Ok (where_ p)
  end.
