(** Model of models/algorithms/nas/dsnas.py ([DSNAS]; [DSNASDDP] has the same steps) for supernets
    whose mutables are OneHotMutableOPs. Gradients are vectors of reals, one per search group;
    accumulative_counts is 1; one process. *)
From Coq Require Import Reals String.
From Verif Require Import Prelude Groups_Model Darts_Model.
Local Open Scope string_scope.
Local Open Scope list_scope.
Local Open Scope nat_scope.

(** A OneHotMutableOP: its candidates and what [fix_chosen] was called with. *)
Record onehot : Type := { u_all : list string; u_fixed : option string }.
(** diff_mutable_module.py:245-248, [choices]; [fix_chosen] removes the other candidates. *)
Definition choices (m : onehot) : list string :=
  match u_fixed m with Some c => filter (String.eqb c) (u_all m) | None => u_all m end.

(** The number in the name of the search group that [mutator.arch_params] is read with
    (dsnas.py:222-223 and 251-252): the position among the names of all mutables; all mutables have the
    prefix "module". *)
Fixpoint position (n : string) (l : list string) : option nat :=
  match l with [] => None | x :: r => if String.eqb x n then Some 0 else option_map S (position n r) end.
Definition loss_key (ms : list modl) (n : string) : outcome nat :=
  match position n (map md_name (filter (fun m => negb (Nat.eqb (length (md_srcs m)) 0)) ms)) with Some k => Ok k | None => Raise ValueError end.
(** nas_mutator.py:138-149, [_modify_supernet_forward]: the groups in order; the last one that has the
    mutable gives its [arch_param]. *)
Fixpoint last_group (i : nat) (groups : list (list nat)) (g : nat) : option nat :=
  match groups with
  | [] => None
  | l :: r => match last_group i r (S g) with Some k => Some k | None => if existsb (Nat.eqb i) l then Some g else None end
  end.

Section Dsnas.
(** Batches, weights with their gradients and the states of the optimizers. *)
Variables D W G SW SA : Type.
(** The gradient of the supernet's loss at the operations that were run, and the optimizer. *)
Variable gW : D -> W -> list string -> G.
Variable stepW : SW -> W -> G -> SW * W.
(** The gradient of the mutator's loss for the architecture parameters, given the positions of the
    sampled operations and whether there is a flops_loss; the optimizer; the sums of the gradients of
    the arch_weights of the mutables. *)
Variable gA : list vec -> list nat -> bool -> list vec.
Variable stepA : SA -> list vec -> list vec -> SA * list vec.
Variable rewards : D -> W -> list string -> list R.
(** [torch.argmax], whether the two largest probabilities differ by the threshold of
    diff_mutable_module.py:314-317, and the flops of a subnet. *)
Variable argmax : vec -> nat.
Variable fires : vec -> bool.
Variable subnet_flops : list string -> Z.
Variables (pretrain_epochs finetune_epochs : nat) (flops_constraints : Z).
(** The search groups: numbers of mutables. *)
Variable groups : list (list nat).
(** Whether [zero_grad] sets gradients to None (PyTorch 2) or to zero. *)
Variable to_none : bool.

Record dsnas : Type := { n_w : W; n_a : list vec; n_ga : option (list vec); n_sw : SW; n_sa : SA; n_super : bool; n_muts : list onehot }.

(** Lines 58-98: a new algorithm; the attribute [is_supernet] is not part of a checkpoint. *)
Definition new_dsnas (w : W) (a : list vec) (sw : SW) (sa : SA) (cands : list (list string)) : outcome dsnas :=
  if Nat.leb finetune_epochs pretrain_epochs then Raise ValueError
  else Ok {| n_w := w; n_a := a; n_ga := None; n_sw := sw; n_sa := sa; n_super := true; n_muts := map (fun c => {| u_all := c; u_fixed := None |}) cands |}.

(** diff_mutable_module.py:232-234, [sample_choice]. *)
Definition sample_choice (m : onehot) (a : vec) : outcome string :=
  match nth_error (choices m) (argmax a) with Some c => Ok c | None => Raise IndexError end.
(** nas_mutator.py:159-175, [sample_choices]: one choice per group. *)
Fixpoint sample_from (ms : list onehot) (a : list vec) (gs : list (list nat)) (g : nat) : outcome (list string) :=
  match gs with
  | [] => Ok []
  | l :: r =>
      do i <- match l with i :: _ => Ok i | [] => Raise IndexError end;
      do m <- match nth_error ms i with Some m => Ok m | None => Raise IndexError end;
      do c <- sample_choice m (nth g a []);
      do cs <- sample_from ms a r (S g);
      Ok (c :: cs)
  end.
Definition sample_choices (ms : list onehot) (a : list vec) : outcome (list string) := sample_from ms a groups 0.
(** Lines 177-183, [_fix_archtecture]; [c not in None] is a TypeError. *)
Fixpoint fix_from (cs : list string) (i : nat) (ms : list onehot) : outcome (list onehot) :=
  match ms with
  | [] => Ok []
  | m :: r =>
      do m' <- match u_fixed m with
               | Some _ => Ok m
               | None => match last_group i groups 0 with
                         | Some g => match nth_error cs g with Some c => Ok {| u_all := u_all m; u_fixed := Some c |} | None => Raise KeyError end
                         | None => Raise TypeError
                         end
               end;
      do r' <- fix_from cs (S i) r;
      Ok (m' :: r')
  end.
Definition fix_architecture (a : list vec) (ms : list onehot) : outcome (list onehot) :=
  do cs <- sample_choices ms a; fix_from cs 0 ms.

(** diff_mutable_module.py:49-69 and 292-332, [forward]: the operation that is run, the position of the 1 in
    arch_weights, and the mutable afterwards; [choices[True]] is [choices[1]]. *)
Definition run_op (m : onehot) (a : vec) (sample : nat) : outcome (string * nat * onehot) :=
  match u_fixed m with
  | Some c => if existsb (String.eqb c) (u_all m) then Ok (c, 0, m) else Raise KeyError
  | None =>
      match u_all m with
      | _ :: c1 :: _ =>
          if fires a then Ok (c1, 0, {| u_all := u_all m; u_fixed := Some c1 |})
          else match nth_error (u_all m) sample with Some c => Ok (c, sample, m) | None => Raise IndexError end
      | _ => Raise RuntimeError
      end
  end.
Fixpoint run_ops (a : list vec) (sample : nat -> nat) (i : nat) (ms : list onehot) : outcome (list (string * nat * onehot)) :=
  match ms with
  | [] => Ok []
  | m :: r =>
      do x <- run_op m (match last_group i groups 0 with Some g => nth g a [] | None => [] end) (sample i);
      do xs <- run_ops a sample (S i) r;
      Ok (x :: xs)
  end.

(** Lines 199-204. *)
Definition need_update_mutator (epoch : nat) : bool := Nat.leb pretrain_epochs epoch && Nat.ltb epoch finetune_epochs.
(** Lines 231-245 of [compute_mutator_loss]: whether there is a flops_loss. The choices are those of a copy;
    [load_fix_subnet] then fixes it. *)
Definition with_flops_loss (ms : list onehot) (a : list vec) : outcome bool :=
  do ms' <- fix_architecture a ms;
  Ok (Z.leb flops_constraints (subnet_flops (map (fun m => match u_fixed m with Some c => c | None => "" end) ms'))).
(** Lines 247-255, [handle_grads]: the gradients of the architecture parameters times those of the arch_weights. *)
Fixpoint rescale (rs : list R) (k : nat) (g : list vec) : list vec :=
  match rs with [] => g | r :: rs' => rescale rs' (S k) (store g k (vscale r (deref g k))) end.
Definition handle_grads (rs : list R) (g : option (list vec)) : outcome (option (list vec)) :=
  match g with
  | Some g => Ok (Some (rescale rs 0 g))
  | None => match rs with [] => Ok None | _ => Raise AttributeError end
  end.

(** Lines 118-175, [train_step] in an epoch: the state afterwards, the operations that were run and
    whether the mutator was updated. *)
Definition train_step (epoch : nat) (d : D) (sample : nat -> nat) (s : dsnas) : outcome (dsnas * (list string * bool)) :=
  do s1 <- (if Nat.eqb epoch finetune_epochs && n_super s
            then do ms <- fix_architecture (n_a s) (n_muts s);
                 Ok {| n_w := n_w s; n_a := n_a s; n_ga := n_ga s; n_sw := n_sw s; n_sa := n_sa s; n_super := false; n_muts := ms |}
            else Ok s);
  do xs <- run_ops (n_a s1) sample 0 (n_muts s1);
  let ops := map (fun x => fst (fst x)) xs in
  let '(sw, w) := stepW (n_sw s1) (n_w s1) (gW d (n_w s1) ops) in
  let s2 := {| n_w := w; n_a := n_a s1; n_ga := n_ga s1; n_sw := sw; n_sa := n_sa s1; n_super := n_super s1; n_muts := map snd xs |} in
  if need_update_mutator epoch then
    do f <- with_flops_loss (n_muts s2) (n_a s2);
    let g := gA (n_a s2) (map (fun x => snd (fst x)) xs) f in
    let total := match n_ga s2 with None => g | Some z => map (fun p => vadd (fst p) (snd p)) (combine z g) end in
    let '(sa, a) := stepA (n_sa s2) (n_a s2) total in
    do ga <- handle_grads (rewards d (n_w s1) ops) (if to_none then None else Some (map (vscale 0) total));
    Ok ({| n_w := n_w s2; n_a := a; n_ga := ga; n_sw := n_sw s2; n_sa := sa; n_super := n_super s2; n_muts := n_muts s2 |}, (ops, true))
  else Ok (s2, (ops, false)).
(** The steps of a training run, each in an epoch. *)
Fixpoint train_run (steps : list (nat * D * (nat -> nat))) (s : dsnas) : outcome (dsnas * list (nat * list string * bool)) :=
  match steps with
  | [] => Ok (s, [])
  | (e, d, f) :: r =>
      do x <- train_step e d f s;
      do y <- train_run r (fst x);
      Ok (fst y, (e, fst (snd x), snd (snd x)) :: snd y)
  end.
End Dsnas.
