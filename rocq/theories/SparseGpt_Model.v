(** Model of mmrazor/implementations/pruning/sparse_gpt/{ops,sparse24_utils,compressor}.py.
    Tensors are lists of rows of exact rationals (no rounding, no NaN). *)
From Verif Require Import Prelude Candidates_Model Recorder_Model.
Open Scope Z_scope.

Definition matrix := list (list Q).

(** * The Hessian accumulator: ops.py 54-133 *)
(** An input after format_input: a batch of samples, each a list of vectors with one entry per
    column (ops.py 46-50, 272-278; a two-dimensional input of a linear layer is one sample). *)
Definition batch := list (list (list Q)).
Record accumulator := { _hessian : option (nat -> nat -> Q); hessian_batch : Z }.
(** 28-29. *)
Definition acc_init : accumulator := {| _hessian := None; hessian_batch := 0 |}.
(** 121-133: hessian_batch is left alone. *)
Definition init_hessian (a : accumulator) : accumulator := {| _hessian := Some (fun _ _ => 0%Q); hessian_batch := hessian_batch a |}.
Definition sumQ (l : list Q) : Q := fold_right Qplus 0%Q l.
(** 92-96: input @ input.T * 2, entry [i], [j]. *)
Definition gram (x : batch) (i j : nat) : Q := (sumQ (map (fun v => nth i v 0 * nth j v 0) (concat x)) * 2)%Q.
(** 85-103, as seen by rank 0: [xs] holds the inputs of all workers, rank 0 first (a single one
    if the process group is not initialised).  Uninitialised: AttributeError (None.to) without
    a process group, AssertionError with one; [dist]: process group initialised. *)
Definition update_hessian (dist : bool) (xs : list batch) (a : accumulator) : outcome accumulator :=
  match _hessian a with
  | None => Raise (if dist then AssertionError else AttributeError)
  | Some h =>
      let b := Z.of_nat (length (hd [] xs)) * Z.of_nat (length xs) in
      Ok {| _hessian := Some (fun i j => (h i j * inject_Z (hessian_batch a) + sumQ (map (fun x => gram x i j) xs)) / inject_Z (hessian_batch a + b))%Q;
            hessian_batch := hessian_batch a + b |}
  end.

(** * Pruning one layer: ops.py 137-227 *)
(** 202-206 on one row: [hs]: the rows Hinv1[i, i:], Hinv1[i+1, i+1:], ... of the columns still
    to come, [ms]: their masks, [w]: the current weights.  Returns the new weights and the
    errors. *)
Definition axpy (e : Q) (h w : list Q) : list Q := map (fun p => snd p - e * fst p)%Q (combine h w).
Fixpoint row_prune (hs : list (list Q)) (ms : list bool) (w : list Q) : list Q * list Q :=
  match hs, ms, w with
  | (d :: h) :: hs', m :: ms', x :: w' =>
      let q := if m then 0%Q else x in
      let e := ((x - q) / d)%Q in
      let '(qs, es) := row_prune hs' ms' (axpy e h w') in (q :: qs, e :: es)
  | _, _, _ => ([], [])
  end.
(** 178, 190: squared weight over squared diagonal entry. *)
Definition score (p : list Q * Q) : Q := (snd p * snd p / (hd 0 (fst p) * hd 0 (fst p)))%Q.
Definition scores (hs : list (list Q)) (w : list Q) : list Q := map score (combine hs w).
Definition qsort (l : list Q) : list Q := stable_sort (fun a b => negb (Qle_bool b a)) l.
(** 178-181: the threshold of a block. *)
Definition threshold (sparsity : Q) (tmp : list Q) : outcome Q :=
  py_index (qsort tmp) (Qtrunc (inject_Z (Z.of_nat (length tmp)) * sparsity)).
(** 174-181: masks of a block, all rows. *)
Definition block_masks (sparsity : Q) (hs : list (list Q)) (W : matrix) : outcome (list (list bool)) :=
  do t <- threshold sparsity (concat (map (scores hs) W));
  Ok (map (fun w => map (fun s => Qle_bool s t) (scores hs w)) W).
Section NM.
  (** torch.topk(tmp, k, largest=False)[1]. *)
  Variable topk : list Q -> nat -> list nat.
  (** 189-195: the mask of the group of [m] columns that begins here. *)
  Definition group_mask (n m : nat) (hs : list (list Q)) (w : list Q) : outcome (list bool) :=
    let tmp := scores (firstn m hs) (firstn m w) in
    if (length tmp <? n)%nat then Raise RuntimeError
    else Ok (map (fun i => existsb (Nat.eqb i) (topk tmp n)) (seq 0 (length tmp))).
  (** 185-207 with prunen = [n], prunem = [m]; [i]: column in the block; [pend]: masks of the
      rest of the current group. *)
  Fixpoint row_nm (n m : nat) (i : nat) (pend : list bool) (hs : list (list Q)) (w : list Q) : outcome (list Q * list Q) :=
    match hs, w with
    | (d :: h) :: hs', x :: w' =>
        do pend <- (if Nat.eqb m 0 then Raise ZeroDivisionError
                    else if Nat.eqb (i mod m) 0 then group_mask n m hs w else Ok pend);
        let q := if hd false pend then 0%Q else x in
        let e := ((x - q) / d)%Q in
        do r <- row_nm n m (1 + i) (tl pend) hs' (axpy e h w');
        Ok (q :: fst r, e :: snd r)
    | _, _ => Ok ([], [])
    end.
  (** 168-207: the block Q1 and the errors, all rows. *)
  Definition block (sparsity : Q) (n m : nat) (hs : list (list Q)) (W : matrix) : outcome (list (list Q * list Q)) :=
    if Nat.eqb n 0 then
      do ms <- block_masks sparsity hs W;
      Ok (map (fun p => row_prune hs (fst p) (snd p)) (combine ms W))
    else mapM (row_nm n m 0 [] hs) W.
  (** 164-212: [sizes]: the widths of the blocks; [hinv]: the rows Hinv[i, i:] from here on; [W]:
      the columns from here on.  Returns the matrix and the exception that ended the loop. *)
  Fixpoint blocks (sparsity : Q) (n m : nat) (sizes : list nat) (hinv : list (list Q)) (W : matrix) : matrix * option exn :=
    match sizes with
    | [] => (W, None)
    | c :: sizes' =>
        let cur := firstn c hinv in
        let inside := map (fun p => firstn (c - fst p) (snd p)) (combine (seq 0 c) cur) in
        let outside := map (fun p => skipn (c - fst p) (snd p)) (combine (seq 0 c) cur) in
        match block sparsity n m inside (map (firstn c) W) with
        | Raise e => (W, Some e)
        | Ok qe =>
            let rest := map (fun p => fold_left (fun w he => axpy (snd he) (fst he) w) (combine outside (snd (fst p))) (skipn c (snd p))) (combine qe W) in
            let '(R, e) := blocks sparsity n m sizes' (skipn c hinv) rest in
            (map (fun p => fst (fst p) ++ snd p) (combine qe R), e)
        end
    end.
  (** range(0, columns, blocksize) for a positive block size: the widths of the blocks. *)
  Definition block_sizes (columns blocksize : nat) : list nat :=
    repeat blocksize (columns / blocksize) ++ (if Nat.eqb (columns mod blocksize) 0 then [] else [(columns mod blocksize)%nat]).
  (** sparse24_utils.py 5-10 (dim = -1): RuntimeError if the reshape is impossible. *)
  Fixpoint groups4 (l : list Q) : list (list Q) := match l with a :: b :: c :: d :: r => [a; b; c; d] :: groups4 r | _ => [] end.
  Definition zeros (l : list Q) : nat := length (filter (fun x => Qeq_bool x 0) l).
  Definition is_weight_sparse_24 (W : matrix) : outcome bool :=
    if Nat.eqb (length (concat W) mod 4) 0 then Ok (forallb (fun g => (2 <=? zeros g)%nat) (groups4 (concat W))) else Raise RuntimeError.

  (** [factor H]: the upper Cholesky factor of the inverse, as rows H[i, i:], or None if a
      factorisation fails (157-160). *)
  Variable factor : matrix -> option (list (list Q)).
  Record layer := { weight : matrix; hess : matrix }.
  Definition diag (H : matrix) : list Q := map (fun p => nth (fst p) (snd p) 0%Q) (combine (seq 0 (length H)) H).
  Definition set_diag (d : list Q) (H : matrix) : matrix :=
    map (fun p : nat * (Q * list Q) => firstn (fst p) (snd (snd p)) ++ fst (snd p) :: skipn (1 + fst p) (snd (snd p))) (combine (seq 0 (length H)) (combine d H)).
  (** 148-150. *)
  Definition dead (H : matrix) : list bool := map (fun x => Qeq_bool x 0) (diag H).
  Definition revive (H : matrix) : matrix := set_diag (map (fun x => if Qeq_bool x 0 then 1%Q else x) (diag H)) H.
  Definition kill (dd : list bool) (w : list Q) : list Q := map (fun p : bool * Q => if fst p then 0%Q else snd p) (combine dd w).
  (** 154-156. *)
  Definition damped (percdamp : Q) (H : matrix) : matrix :=
    let damp := (percdamp * (sumQ (diag H) / inject_Z (Z.of_nat (length H))))%Q in set_diag (map (fun x => x + damp)%Q (diag H)) H.
  (** 138-227.  [alias_w]: W shares the memory of the weight (a float weight: flatten and float
      copy nothing); [alias_h]: H shares the memory of the accumulator (same device).  Returns
      the layer afterwards and the exception. *)
  Definition prune (alias_w alias_h : bool) (sparsity : Q) (n m blocksize : nat) (percdamp : Q) (l : layer) : layer * option exn :=
    let W0 := map (kill (dead (hess l))) (weight l) in
    let H := damped percdamp (revive (hess l)) in
    let after W e := ({| weight := if alias_w then W else match e with None => W | Some _ => weight l end;
                         hess := if alias_h then H else hess l |}, e) in
    match factor H with
    | None => after W0 (Some RuntimeError)
    | Some hinv =>
        let '(W, e) := blocks sparsity n m (block_sizes (length (hess l)) blocksize) hinv W0 in
        match e with
        | Some e => after W (Some e)
        | None =>
            if Nat.eqb n 2 && Nat.eqb m 4 then
              match is_weight_sparse_24 W with
              | Ok true => after W None
              | Ok false => after W (Some AssertionError)
              | Raise e => after W (Some e)
              end
            else after W None
        end
    end.
  (** compressor.py 61-84: a failure is logged and the next layer is pruned. *)
  Definition compress (alias_w alias_h : bool) (sparsity : Q) (n m blocksize : nat) (percdamp : Q) (ls : list layer) : list (layer * option exn) :=
    map (prune alias_w alias_h sparsity n m blocksize percdamp) ls.
End NM.
