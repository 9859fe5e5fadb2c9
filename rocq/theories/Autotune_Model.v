(** The autotuner of the GPTQ kernels: implementations/quantization/gptq/custom_autotune.py. *)
From Coq Require Import String QArith.
From Verif Require Import Prelude.
Local Open Scope string_scope.
Local Open Scope list_scope.
Local Open Scope Z_scope.

(** A triton.Config: which object it is, the meta-parameters it sets, and the numbers the pruner reads; pre_hook is None. *)
Record config := { c_id : nat; c_keys : list string; c_m : Z; c_n : Z; c_k : Z; c_group : Z; c_stages : Z; c_warps : Z }.
Definition cache := list (list Z * config).
Fixpoint key_eqb (a b : list Z) : bool := match a, b with [], [] => true | x :: a, y :: b => (x =? y) && key_eqb a b | _, _ => false end.
Fixpoint lookup (c : cache) (k : list Z) : option config := match c with [] => None | (k', v) :: r => if key_eqb k' k then Some v else lookup r k end.
(** 111-112: 2**int(math.log2(x) + 0.5), with an exact logarithm: [x] is between the powers times the square root of two. *)
Definition nearest_pow2 (x : Z) : outcome Z := if x <=? 0 then Raise ValueError else Ok (2 ^ (Z.log2 (2 * x * x) / 2)).
(** 103-112: the key of a call; a missing argument raises. *)
Definition call_key (key_idx : list nat) (nearest : bool) (args : list Z) : outcome (list Z) :=
  do k <- mapM (fun i => match nth_error args i with Some a => Ok a | None => Raise IndexError end) key_idx;
  if nearest then mapM nearest_pow2 k else Ok k.
(** 40, 56-66: what the constructor is given to prune with.  [None] for an absent early_config_prune leaves a variable unbound. *)
Inductive top := TopInt (n : Z) | TopFloat (q : Q).
(** A list, or a generator, of configurations. *)
Inductive several := AList (l : list config) | AGenerator (l : list config).
Definition items (s : several) : list config := match s with AList l => l | AGenerator l => l end.
Record pruning := { p_model : option (config -> Q); p_top : top; p_early : option (list config -> outcome several) }.
Record tuner := { t_configs : list config; t_prune : option pruning; t_nearest : bool; t_idx : list nat }.
Definition default_config : config := {| c_id := 0; c_keys := []; c_m := 0; c_n := 0; c_k := 0; c_group := 0; c_stages := 2; c_warps := 4 |}.
(** 24-68, __init__ (the indices of the key arguments are given). *)
Definition make (configs : list config) (prune : option pruning) (nearest : bool) (idx : list nat) : outcome tuner :=
  let cs := match configs with [] => [default_config] | _ => configs end in
  match prune with
  | Some p => match p_early p with None => Raise GenericException | Some _ => Ok {| t_configs := cs; t_prune := prune; t_nearest := nearest; t_idx := idx |} end
  | None => Ok {| t_configs := cs; t_prune := None; t_nearest := nearest; t_idx := idx |}
  end.
(** sorted by an estimate, stable, as insertion. *)
Fixpoint insert (f : config -> Q) (x : config) (l : list config) : list config :=
  match l with [] => [x] | y :: r => if Qle_bool (f x) (f y) then x :: l else y :: insert f x r end.
Definition sort_by (f : config -> Q) (l : list config) : list config := fold_right (insert f) [] l.
(** 141-163, prune_configs. *)
Definition prune_configs (t : tuner) : outcome several :=
  match t_prune t with
  | None => Ok (AList (t_configs t))
  | Some p =>
    do s <- (match p_early p with Some f => f (t_configs t) | None => Ok (AList (t_configs t)) end);
    match p_model p with
    | None => Ok s
    | Some f =>
      match s with
      | AGenerator _ => Raise TypeError
      | AList l =>
        let len := Z.of_nat (length l) in
        match p_top p with
        | TopInt n => if n <? len then Ok (AList (firstn (slice_stop (length l) n) (sort_by f l))) else Ok s
        | TopFloat q => if Qle_bool q 1 then let n := Qtrunc (inject_Z (Z.of_nat (length (t_configs t))) * q) in
                                             if n <? len then Ok (AList (firstn (slice_stop (length l) n) (sort_by f l))) else Ok s
                        else if Qle_bool (inject_Z len) q then Ok s else Raise TypeError
        end
      end
    end
  end.
(** Times: [None] is infinite. *)
Definition time_ltb (a b : option Q) : bool := match a, b with Some x, Some y => negb (Qle_bool y x) | Some _, None => true | None, _ => false end.
(** 123: min(timings, key=timings.get): the first with the least time. *)
Fixpoint argmin (f : config -> option Q) (best : config) (l : list config) : config :=
  match l with [] => best | c :: r => argmin f (if time_ltb (f c) (f best) then c else best) r end.
Section Run.
Context {T : Type}.
(** The kernel with a configuration on the tensors; [zero] is the hook, the identity without reset_to_zero; [reps] are the calls made to measure a configuration. *)
Variable kernel : config -> T -> T.
Variable zero : T -> T.
Variable reps : config -> nat.
Fixpoint times (n : nat) (f : T -> T) (b : T) : T := match n with O => b | S n => times n f (f b) end.
(** 70-98, _bench: the tensors afterwards; meta-parameters given twice raise. *)
Definition bench (meta : list string) (c : config) (b : T) : outcome T :=
  if existsb (fun k => existsb (String.eqb k) (c_keys c)) meta then Raise ValueError else Ok (times (reps c) (fun b => kernel c (zero b)) b).
Fixpoint bench_all (meta : list string) (l : list config) (b : T) : outcome T :=
  match l with [] => Ok b | c :: r => do b <- bench meta c b; bench_all meta r b end.
(** 100-139, run: the cache, the configuration that ran and the tensors afterwards. *)
Definition run (t : tuner) (time : config -> option Q) (meta : list string) (args : list Z) (ca : cache) (b : T) : outcome (cache * config * T) :=
  if (1 <? length (t_configs t))%nat then
    do key <- call_key (t_idx t) (t_nearest t) args;
    match lookup ca key with
    | Some c => Ok (ca, c, kernel c b)
    | None =>
      do s <- prune_configs t;
      do b <- bench_all meta (items s) b;
      match items s with
      | [] => Raise ValueError
      | c :: r => let best := argmin time c r in Ok (ca ++ [(key, best)], best, kernel best (zero b))
      end
    end
  else match t_configs t with c :: _ => Ok (ca, c, kernel c b) | [] => Raise IndexError end.
End Run.

(** 222-254, matmul248_kernel_config_pruner (a generator), of the sizes M, N, K. *)
Definition next_pow2 (x : Z) : outcome Z := if x <=? 0 then Raise ValueError else Ok (Z.max (2 ^ Z.log2_up x) 16).
Definition shrink (m n k : Z) (c : config) : config :=
  {| c_id := c_id c; c_keys := ["BLOCK_SIZE_M"; "BLOCK_SIZE_N"; "BLOCK_SIZE_K"; "GROUP_SIZE_M"]; c_m := Z.min m (c_m c); c_n := Z.min n (c_n c); c_k := Z.min k (c_k c);
     c_group := c_group c; c_stages := c_stages c; c_warps := c_warps c |}.
Definition tuple_of (c : config) : list Z := [c_m c; c_n c; c_k c; c_group c; c_stages c; c_warps c].
Fixpoint dedup (used : list (list Z)) (l : list config) : list config :=
  match l with
  | [] => []
  | c :: r => if existsb (key_eqb (tuple_of c)) used then dedup used r else c :: dedup (tuple_of c :: used) r
  end.
Definition matmul_pruner (M N K : Z) (configs : list config) : outcome several :=
  do m <- next_pow2 M; do n <- next_pow2 N; do k <- next_pow2 K; Ok (AGenerator (dedup [] (map (shrink m n k) configs))).
