(** Shapes through the DARTS backbone: mmrazor/models/architectures/backbones/darts_backbone.py.

    Feature maps and operations as in OpShapes_Model.  An edge is a DiffMutableOP, a node is a DiffChoiceRoute over its
    edges; what they run is given by a selection: the operations that an edge sums, none if the route leaves the edge out. *)
From Coq Require Import List ZArith Bool.
From Verif Require Import Prelude OpShapes_Model.
Import ListNotations.
Local Open Scope Z_scope.

(** sum(outputs) of DiffMutableOP and DiffChoiceRoute (diff_mutable_module.py 155-214, 425-490).  The sum over nothing is the
    integer 0, which torch.cat (or the next operation) rejects; the exception is raised here already. *)
Definition sum_maps (l : list fmap) : outcome fmap :=
  match l with [] => Raise TypeError | x :: r => fold_left (fun acc y => do a <- acc; badd a y) r (Ok x) end.
Definition edge (ops : list op) (c : args) (x : fmap) : outcome fmap := do ys <- mapM (fun o => forward_op o c x) ops; sum_maps ys.
(** The stride of edge [i] of a node (darts_backbone.py 127-128) with [nd] downsampling edges. *)
Definition edge_args (channels : Z) (nd i : nat) : args :=
  {| a_in := channels; a_out := channels; a_stride := if Nat.ltb i nd then 2 else 1 |}.
(** Node.forward (145-148): [sel i] is the selection for edge [i]. *)
Fixpoint run_edges (sel : nat -> list op) (channels : Z) (nd i : nat) (ts : list fmap) : outcome (list fmap) :=
  match ts with
  | [] => Ok []
  | t :: r => do ys <- match sel i with [] => Ok [] | ops => do y <- edge ops (edge_args channels nd i) t; Ok [y] end;
              do rest <- run_edges sel channels nd (S i) r;
              Ok (ys ++ rest)
  end.
Definition run_node (sel : nat -> list op) (channels : Z) (nd : nat) (ts : list fmap) : outcome fmap :=
  do ys <- run_edges sel channels nd 0 ts; sum_maps ys.
(** Cell (169-222). *)
Record cell := { c_nodes : nat; c_ch : Z; c_prev : Z; c_pprev : Z; c_red : bool; c_pred : bool }.
Definition downsampling (c : cell) : nat := if c_red c then 2%nat else 0%nat.
(** The edges of a cell are built with all candidates (203-212, 126-139). *)
Definition new_cell (cands : list op) (c : cell) : outcome unit :=
  all_ok (fun depth => all_ok (fun i => all_ok (fun o => new_op o (edge_args (c_ch c) (downsampling c) i)) cands) (seq 0 depth)) (seq 2 (c_nodes c)).
Definition standard_conv (i o : Z) (x : fmap) : outcome fmap := do y <- conv i o 1 1 0 1 x; bn o y.
Fixpoint run_nodes (sel : nat -> nat -> list op) (channels : Z) (nd k todo : nat) (ts : list fmap) : outcome (list fmap) :=
  match todo with
  | O => Ok ts
  | S r => do y <- run_node (sel k) channels nd ts; run_nodes sel channels nd (S k) r (ts ++ [y])
  end.
Definition cat_all (l : list fmap) : outcome fmap :=
  match l with [] => Raise RuntimeError | x :: r => fold_left (fun acc y => do a <- acc; cat a y) r (Ok x) end.
Definition run_cell (sel : nat -> nat -> list op) (c : cell) (s0 s1 : fmap) : outcome fmap :=
  do t0 <- (if c_pred c then factorized_reduce (c_pprev c) (c_ch c) s0 else standard_conv (c_pprev c) (c_ch c) s0);
  do t1 <- standard_conv (c_prev c) (c_ch c) s1;
  do ts <- run_nodes sel (c_ch c) (downsampling c) 0 (c_nodes c) [t0; t1];
  cat_all (skipn 2 ts).

(** DartsBackbone.__init__ (289-362). *)
Record darts := { d_in : Z; d_stem : Z; d_cells : list cell; d_outs : list nat; d_aux : option (nat * (Z * Z * Z)) }.
Fixpoint make_cells (L nodes : nat) (is : list nat) (pprev prev out : Z) (last : bool) : list cell :=
  match is with
  | [] => []
  | i :: r =>
      let red := Nat.eqb i (L / 3) || Nat.eqb i (2 * L / 3) in
      let out' := if red then out * 2 else out in
      {| c_nodes := nodes; c_ch := out'; c_prev := prev; c_pprev := pprev; c_red := red; c_pred := last |}
        :: make_cells L nodes r prev (out' * Z.of_nat nodes) out' red
  end.
(** The channels behind cell [i], self.out_channels * num_nodes at that point of the loop. *)
Definition behind_cell (cells : list cell) (i : nat) : Z := match nth_error cells i with Some c => c_ch c * Z.of_nat (c_nodes c) | None => 0 end.
Definition build_darts (cands : list op) (i base stem : Z) (L nodes : nat) (outs : list nat) (aux : option (Z * Z)) : outcome darts :=
  match rev outs with
  | [] => Raise IndexError
  | last :: _ =>
      do _ <- assert_ (Z.of_nat last =? Z.of_nat L - 1);
      let cells := make_cells L nodes (seq 0 L) (stem * base) (stem * base) base false in
      do _ <- all_ok (new_cell cands) cells;
      Ok {| d_in := i; d_stem := stem * base; d_cells := cells; d_outs := outs;
            d_aux := match aux with
                     | Some (a, o) => Some ((2 * L / 3)%nat, (behind_cell cells (2 * L / 3), a, o))
                     | None => None
                     end |}
  end.
(** AuxiliaryModule (236-257). *)
Definition run_aux (i a o : Z) (x : fmap) : outcome fmap :=
  do y <- pool 5 2 0 x; do y <- conv i a 1 1 0 1 y; do y <- bn a y; do y <- conv a o 2 1 0 1 y; bn o y.
(** forward (364-376). *)
Fixpoint run_cells (sel : nat -> nat -> nat -> list op) (outs : list nat) (aux : option (nat * (Z * Z * Z))) (training : bool)
    (i : nat) (cells : list cell) (s0 s1 : fmap) (acc : list fmap) : outcome (list fmap) :=
  match cells with
  | [] => Ok acc
  | c :: r =>
      do y <- run_cell (sel i) c s0 s1;
      let acc := acc ++ keep outs i y in
      do acc <- match aux with
                | Some (k, (a, b, d)) => if Nat.eqb i k && training then do f <- run_aux a b d y; Ok (f :: acc) else Ok acc
                | None => Ok acc
                end;
      run_cells sel outs aux training (S i) r s1 y acc
  end.
Definition run_darts (n : darts) (sel : nat -> nat -> nat -> list op) (training : bool) (x : fmap) : outcome (list fmap) :=
  do s <- conv (d_in n) (d_stem n) 3 1 1 1 x; run_cells sel (d_outs n) (d_aux n) training 0 (d_cells n) s s [].
