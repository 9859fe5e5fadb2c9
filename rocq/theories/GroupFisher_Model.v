(** Model of mmrazor/implementations/pruning/group_fisher/{unit,mutator,ops,algorithm,hook}.py.
    Importances are exact rationals, plus infinity, NaN and a rounded [x + 1]. *)
From Verif Require Import Prelude.
From Coq Require Import Qround.

(** ** Values of the importance tensors (doubles; never negative, see unit.py:159). *)
Inductive fval : Type := Num (q : Q) | PInf | NaN.
Definition is_nan (v : fval) : bool := match v with NaN => true | _ => false end.
(** [a < b] on values (false if one is NaN). *)
Definition flt (a b : fval) : bool :=
  match a, b with
  | Num x, Num y => negb (Qle_bool y x)
  | Num _, PInf => true
  | _, _ => false
  end.
(** [Tensor.max] / [Tensor.min] of a non-empty tensor: NaN if one entry is NaN. *)
Definition fmax2 (a b : fval) : fval :=
  if is_nan a || is_nan b then NaN else if flt a b then b else a.
Definition fmin2 (a b : fval) : fval :=
  if is_nan a || is_nan b then NaN else if flt b a then b else a.
Definition fmax (l : list fval) : fval :=
  match l with [] => NaN | v :: r => fold_left fmax2 r v end.
Definition fmin (l : list fval) : fval :=
  match l with [] => NaN | v :: r => fold_left fmin2 r v end.

(** A unit: the mask of its mutable channel and its accumulated importances. *)
Record funit : Type := { u_mask : list bool; u_fisher : list fval }.
(** simple_mutable_channel.py, [activated_channels]. *)
Definition activated (u : funit) : nat := length (filter (fun b => b) (u_mask u)).

Section Prune.
(** The rounded addition [x + 1] of doubles, and [Tensor.argmin], whose answer is not
    specified for ties. *)
Variable add1 : Q -> Q.
Variable argmin : list fval -> nat.

(** unit.py:128-134, [importance] (of a unit with at least one channel). *)
Definition plus1 (v : fval) : fval := match v with Num q => Num (add1 q) | _ => v end.
Definition importance (u : funit) : list fval :=
  let top := plus1 (fmax (u_fisher u)) in
  map (fun mf => if fst mf : bool then snd mf else top) (combine (u_mask u) (u_fisher u)).

Fixpoint clear (i : nat) (l : list bool) : list bool :=
  match l, i with
  | [], _ => []
  | _ :: r, O => false :: r
  | b :: r, S i => b :: clear i r
  end.
(** unit.py:67-75, [try_to_prune_min_channel]. *)
Definition try_unit (u : funit) : funit * bool :=
  if (1 <? activated u)%nat
  then ({| u_mask := clear (argmin (importance u)) (u_mask u); u_fisher := u_fisher u |}, true)
  else (u, false).

(** mutator.py:56-77, [try_prune].  [find_min] is the loop of lines 61-72: the number of the
    unit to prune, or [None] for the early return at a NaN. *)
Fixpoint find_min (i : nat) (us : list funit) (min_imp : fval) (min_unit : nat) : option nat :=
  match us with
  | [] => Some min_unit
  | u :: r =>
      if (1 <? activated u)%nat then
        let imp := importance u in
        if existsb is_nan imp then None
        else if flt (fmin imp) min_imp then find_min (S i) r (fmin imp) i
        else find_min (S i) r min_imp min_unit
      else find_min (S i) r min_imp min_unit
  end.
Fixpoint upd_unit (i : nat) (f : funit -> funit) (us : list funit) : list funit :=
  match us, i with
  | [], _ => []
  | u :: r, O => f u :: r
  | u :: r, S i => u :: upd_unit i f r
  end.
Definition try_prune (us : list funit) : outcome (list funit) :=
  match us with
  | [] => Raise IndexError                                   (* self.mutable_units[0] *)
  | _ => match find_min 0 us (Num (inject_Z 100000)) 0 with
         | None => Ok us
         | Some k => Ok (upd_unit k (fun u => fst (try_unit u)) us)
         end
  end.

(** unit.py:136-138, [reset_fisher_info]. *)
Definition reset_imp (us : list funit) : list funit :=
  map (fun u => {| u_mask := u_mask u; u_fisher := map (fun _ => Num 0) (u_fisher u) |}) us.

(** algorithm.py:63-76, the part after the training step: [upd] are the units after
    [update_imp] (any new importances), and a channel is pruned every [interval]
    iterations. *)
Definition train_step (interval iter : Z) (upd : list funit -> list funit) (us : list funit)
  : outcome (list funit) :=
  let us1 := upd us in
  if interval =? 0 then Raise ZeroDivisionError
  else if iter mod interval =? 0
  then do us2 <- try_prune us1; Ok (reset_imp us2)
  else Ok us1.
End Prune.

(** ** Recording (ops.py:15-56) and the importance of one batch (unit.py:140-188).
    A recorded input or gradient is the list over the batch of the per-channel values (for
    4-dimensional tensors, lists over the pixels). *)

(** The hooks of one module: [Fwd x] is a forward call on input [x], [Bwd g] the backward
    call that yields the gradient [g] of its input (ops.py:33-34: inserted in front). *)
Section Record_.
Context {T : Type}.
Inductive hook_call : Type := Fwd (x : T) | Bwd (g : T).
Record recorded : Type := { rec_input : list T; rec_grad : list T }.
Definition hook (r : recorded) (c : hook_call) : recorded :=
  match c with
  | Fwd x => {| rec_input := rec_input r ++ [x]; rec_grad := rec_grad r |}
  | Bwd g => {| rec_input := rec_input r; rec_grad := g :: rec_grad r |}
  end.
Definition hooks (cs : list hook_call) : recorded :=
  fold_left hook cs {| rec_input := []; rec_grad := [] |}.
End Record_.
Arguments hook_call : clear implicits. Arguments recorded : clear implicits.

Definition qsum (l : list Q) : Q := fold_left Qplus l 0%Q.
Definition zip_with {A B C} (f : A -> B -> C) (l : list A) (l' : list B) : list C :=
  map (fun ab => f (fst ab) (snd ab)) (combine l l').
(** One call: B x C x pixels; unit.py:173-180: input * grad summed over the pixels. *)
Definition call_t : Type := list (list (list Q)).
Definition prod_sum (x g : call_t) : list (list Q) :=
  zip_with (zip_with (fun xs gs => qsum (zip_with Qmult xs gs))) x g.
Definition madd (a b : list (list Q)) : list (list Q) := zip_with (zip_with Qplus) a b.
(** Python's [0 + a1 + a2 + ...] on matrices of one shape. *)
Definition msum (l : list (list (list Q))) : option (list (list Q)) :=
  match l with [] => None | m :: r => Some (fold_left madd r m) end.
(** [zeros.masked_scatter_(mask, src)] on one row: the active positions take the entries
    of [src] in turn; raises when they run out. *)
Fixpoint scatter_row (mask : list bool) (src : list Q) : outcome (list Q) :=
  match mask with
  | [] => Ok []
  | false :: m => do r <- scatter_row m src; Ok (0%Q :: r)
  | true :: m =>
      match src with
      | [] => Raise RuntimeError
      | x :: s => do r <- scatter_row m s; Ok (x :: r)
      end
  end.
(** unit.py:161-188, [_fisher_of_a_module].  [masked_scatter_] reads the source row by row in
    one go, so that rows of a different length than the number of active channels would
    shift; such rows are reported here as an error (they cannot occur, since a dynamic layer
    rejects them). *)
Definition fisher_of_module (mask : list bool) (r : recorded call_t) : outcome (list (list Q)) :=
  do _ <- assert_ ((0 <? length (rec_input r))%nat && (length (rec_input r) =? length (rec_grad r))%nat);
  match msum (zip_with prod_sum (rec_input r) (rec_grad r)) with
  | None => Raise AssertionError
  | Some m =>
      if forallb (fun row => (length row =? length (filter (fun b => b) mask))%nat) m
      then mapM (scatter_row mask) m else Raise RuntimeError
  end.
(** unit.py:152-159, [current_batch_fisher]; without an input-related layer [fisher] is the
    number 0, which has no [sum]. *)
Definition col_sums (n : nat) (m : list (list Q)) : list Q :=
  map (fun c => qsum (map (fun row => nth c row 0%Q) m)) (seq 0 n).
Definition batch_fisher (mask : list bool) (rs : list (recorded call_t)) : outcome (list Q) :=
  do ms <- mapM (fisher_of_module mask) rs;
  match msum ms with
  | None => Raise AttributeError
  | Some m => Ok (col_sums (length mask) (map (map (fun x => x * x)%Q) m))
  end.

(** ** FLOPs of one channel (ops.py:78-150, unit.py:214-230) *)
Inductive fop : Type :=
(** A convolution: groups, kernel, its (static) channel numbers, the numbers of active in
    and out channels, and the recorded output sizes. *)
| FConv (groups k0 k1 in_c out_c act_in act_out : nat) (outs : list (nat * nat))
(** A linear layer: active in and out channels, number of recorded calls. *)
| FLinear (act_in act_out calls : nat).
Definition sum_nat (l : list nat) : nat := fold_left Nat.add l 0%nat.
Definition per_call (groups in_c out_c : nat) (outs : list (nat * nat)) (normal dw : nat * nat -> nat)
  : outcome nat :=
  match outs with
  | [] => Ok 0%nat
  | _ => if Nat.eqb groups 1 then Ok (sum_nat (map normal outs))
         else if Nat.eqb groups in_c && Nat.eqb in_c out_c then Ok (sum_nat (map dw outs))
         else Raise NotImplementedError
  end.
(** ops.py:78-97 and 135-139. *)
Definition delta_out (op : fop) : outcome nat :=
  match op with
  | FConv g k0 k1 ic oc ai _ outs =>
      per_call g ic oc outs (fun hw => (fst hw * snd hw * k0 * k1 * ai)%nat)
                            (fun hw => (fst hw * snd hw * k0 * k1)%nat)
  | FLinear ai _ n => Ok (ai * n)%nat
  end.
(** ops.py:99-116 (the recorded number of output channels is the active one) and 141-145. *)
Definition delta_in (op : fop) : outcome nat :=
  match op with
  | FConv g k0 k1 ic oc _ ao outs =>
      per_call g ic oc outs (fun hw => (fst hw * snd hw * k0 * k1 * ao)%nat)
                            (fun hw => (fst hw * snd hw * k0 * k1)%nat)
  | FLinear _ ao n => Ok (ao * n)%nat
  end.
(** unit.py:214-222, [_delta_flop_of_a_channel]. *)
Definition delta_unit (outs ins : list fop) : outcome nat :=
  do a <- mapM delta_out outs;
  do b <- mapM delta_in ins;
  Ok (sum_nat a + sum_nat b)%nat.
(** unit.py:190-212, [_get_normalized_fisher_info] with 'flops'. *)
Definition normalize_flops (delta : nat) (f : list Q) : outcome (list Q) :=
  do _ <- assert_ (0 <? delta)%nat;
  Ok (map (fun x => x / (inject_Z (Z.of_nat delta) / inject_Z 1000000000))%Q f).

(** ** ResourceInfoHook (hook.py:91-198) *)

(** hook.py:121-122, [sorted(save_ckpt_thr, reverse=True)]. *)
Fixpoint insert_desc (x : Q) (l : list Q) : list Q :=
  match l with
  | [] => [x]
  | y :: r => if Qle_bool y x then x :: l else y :: insert_desc x r
  end.
Definition sort_desc (l : list Q) : list Q := fold_right insert_desc [] l.
Record rhook : Type := { rh_thr : list Q; rh_saved : list (Q * Q); rh_exit : bool }.
Definition rhook_init (thr : list Q) : rhook := {| rh_thr := sort_desc thr; rh_saved := []; rh_exit := false |}.
(** hook.py:144-160, [after_train_iter] with the current fraction of the resource.
    [rh_saved] lists the (threshold, fraction) pairs of the checkpoints written. *)
Definition rhook_iter (interval : Z) (early_stop : bool) (iter : Z) (percent : Q) (h : rhook) : rhook :=
  let h1 :=
    match rh_thr h with
    | t :: r => if (iter mod interval =? 0) && negb (Qle_bool t percent)
                then {| rh_thr := r; rh_saved := rh_saved h ++ [(t, percent)]; rh_exit := rh_exit h |}
                else h
    | [] => h
    end in
  if early_stop && (match rh_thr h1 with [] => true | _ => false end)
  then {| rh_thr := rh_thr h1; rh_saved := rh_saved h1; rh_exit := true |} else h1.
(** A run over the iterations; nothing happens after [exit()]. *)
Fixpoint rhook_run (interval : Z) (early_stop : bool) (its : list (Z * Q)) (h : rhook) : rhook :=
  match its with
  | [] => h
  | (i, p) :: r => if rh_exit h then h else rhook_run interval early_stop r (rhook_iter interval early_stop i p h)
  end.
(** hook.py:190-194: the file is named after the threshold printed with two digits
    (round half to even on the decimal value). *)
Definition cents (t : Q) : Z :=
  let x := (t * inject_Z 200 + 1)%Q in
  let f := (Qfloor x / 2) in
  if Qeq_bool x (inject_Z (2 * f)) && negb (Z.even f) then f - 1 else f.
