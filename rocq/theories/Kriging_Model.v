(** Model of the data preparation of mmrazor/models/task_modules/predictor/handler/gp_handler.py. *)
From Coq Require Import Reals.
From Verif Require Import Prelude.
Open Scope list_scope.
Open Scope R_scope.

Definition column : Type := list R.
Fixpoint sum (l : column) : R := match l with [] => 0 | x :: r => x + sum r end.
(** np.mean(X, axis=0) of one column. *)
Definition mean (l : column) : R := sum l / INR (length l).
(** np.std(X, axis=0, ddof=1) of one column, for two or more rows. *)
Definition std (l : column) : R :=
  sqrt (sum (map (fun x => (x - mean l) * (x - mean l)) l) / (INR (length l) - 1)).
(** gp_handler.py:61-62, the scale: [std + 1e-6]. *)
Definition scale (l : column) : R := std l + / 1000000.
(** gp_handler.py:64-65, [(X - mX) / sX]. *)
Definition normalise (l : column) : column := map (fun x => (x - mean l) / scale l) l.

(** What [fit] keeps of a column: mean, scale and normalised values; nan if there are fewer than two rows. *)
Definition kept : Type := option (R * R * column).
Definition keep (l : column) : kept :=
  if (length l <=? 1)%nat then None else Some (mean l, scale l, normalise l).
(** The labels: one-dimensional, or a matrix given by its columns. *)
Inductive labels : Type := Flat (l : column) | Matrix (rows : nat) (cols : list column).
(** gp_handler.py:53-65, [DACE_with_smooth.fit] up to the fitting of pydacefit. *)
Definition prepare (rows : nat) (cols : list column) (y : labels) : outcome (list kept * list kept) :=
  let (yrows, ycols) := match y with Flat l => (length l, [l]) | Matrix r c => (r, c) end in
  if negb (rows =? yrows)%nat then Raise GenericException
  else Ok (map keep cols, map keep ycols).

(** pydacefit's prediction puts a normalised value back: [sY * y + mY]. *)
Definition put_back (m s y : R) : R := s * y + m.

(** * The choice of the kernels *)
(** gp_handler.py:16-38, the names of [get_pydacefit_func]. *)
Definition regr_names : list string := ["linear"; "constant"; "quadratic"]%string.
Definition corr_names : list string := ["gauss"; "cubic"; "exp"; "expg"; "spline"; "spherical"]%string.
(** gp_handler.py:95-109, [GaussProcessHandler.__init__]. *)
Definition handler_init (regr corr : string) : outcome (string * string) :=
  if negb (existsb (String.eqb regr) regr_names) then Raise AssertionError
  else if negb (existsb (String.eqb corr) corr_names) then Raise AssertionError
  else Ok (regr, corr).
