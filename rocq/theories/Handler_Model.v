(** Handlers of metric predictors: mmrazor/models/task_modules/predictor/handler/{mlp_handler,carts_handler}.py, and when
    mmrazor/engine/hooks/estimate_resources_hook.py estimates what.

    Numbers are exact rationals; a NaN is None.  What an epoch of training does to the network and its optimizer, and how a
    decision tree is fitted, are parameters; random permutations and draws are arguments. *)
From Coq Require Import List ZArith QArith Bool.
From Verif Require Import Prelude.
Import ListNotations.
Local Open Scope Z_scope.

(** ** MLPHandler *)
Section Mlp.
Variables Net St Smp : Type.
(** Moving the network to the device and building its optimizer and scheduler (mlp_handler.py 164-169). *)
Variable start : Net -> St.
(** One epoch on the training samples (mlp_handler.py 172-181 and 191), the network as it is then, and its validation loss (183-189). *)
Variable epoch : St -> list Smp -> St.
Variable net : St -> Net.
Variable vloss : Net -> list Smp -> option Q.
(** The number 1e33 that the best loss starts from (mlp_handler.py 171). *)
Variable huge : Q.
(** inputs[index] and target[index]. *)
Definition pick (samples : list Smp) (d : Smp) (index : list nat) : list Smp := map (fun i => nth i samples d) index.
(** perm[:k] and perm[k:] (mlp_handler.py 155-159); [k] is int(num_samples * data_split_ratio). *)
Definition train_index (perm : list nat) (k : Z) : list nat := firstn (slice_stop (length perm) k) perm.
Definition valid_index (perm : list nat) (k : Z) : list nat := skipn (slice_stop (length perm) k) perm.
(** A comparison with a NaN is false. *)
Definition below (l : option Q) (best : Q) : bool := match l with Some q => if Qlt_le_dec q best then true else false | None => false end.
(** The loop (mlp_handler.py 171-195): [best] is the smallest loss so far, [best_net] the network that had it, if it is bound. *)
Fixpoint epochs_loop (n : nat) (train valid : list Smp) (s : St) (best : Q) (best_net : option Net) : option Net :=
  match n with
  | O => best_net
  | S n' =>
      let s := epoch s train in
      let l := vloss (net s) valid in
      if below l best
      then epochs_loop n' train valid s (match l with Some q => q | None => best end) (Some (net s))
      else epochs_loop n' train valid s best best_net
  end.
(** train_mlp (mlp_handler.py 144-197): an unbound best_net raises UnboundLocalError. *)
Definition train_mlp (n : nat) (k : Z) (perm : list nat) (samples : list Smp) (d : Smp) (m : Net) : outcome Net :=
  match epochs_loop n (pick samples d (train_index perm k)) (pick samples d (valid_index perm k)) (start m) huge None with
  | Some b => Ok b
  | None => Raise GenericException
  end.
(** The width of fc1, and a new fc1 of another width (mlp_handler.py 105-108). *)
Variable in_features : Net -> nat.
Variable new_fc1 : Net -> nat -> Net.
Definition fit (n : nat) (k : Z) (perm : list nat) (width : nat) (samples : list Smp) (d : Smp) (m : Net) : outcome Net :=
  train_mlp n k perm samples d (if Nat.eqb width (in_features m) then m else new_fc1 m width).
(** predict (mlp_handler.py 110-131) of rows; a single vector is one row.  nn.Linear refuses other widths. *)
Variable run : Net -> list Q -> Q.
Definition predict_mlp (m : Net) (rows : list (list Q)) : outcome (list Q) :=
  mapM (fun r => if Nat.eqb (length r) (in_features m) then Ok (run m r) else Raise RuntimeError) rows.
End Mlp.

(** ** CartsHandler *)
Section Carts.
Variable Tree : Type.
(** DecisionTreeRegressor().fit and predict of one row. *)
Variable fit_tree : list (list Q) -> list Q -> Tree.
Variable tree_predict : Tree -> list Q -> Q.
(** np.sort. *)
Variable sort : list Q -> list Q.
Definition rows_at (data : list (list Q)) (idx : list nat) : list (list Q) := map (fun i => nth i data []) idx.
Definition labels_at (labels : list Q) (idx : list nat) : list Q := map (fun i => nth i labels 0%Q) idx.
Definition features_at (feats : list nat) (row : list Q) : list Q := map (fun j => nth j row 0%Q) feats.
(** The two shuffles and the number of features that are drawn for one tree. *)
Record draw := { d_samples : list nat; d_features : list nat; d_count : nat }.
(** _make_decision_trees (carts_handler.py 65-99): data and labels stay shuffled from tree to tree.  np.random.randint(1, 1)
    raises ValueError when there are no features. *)
Fixpoint make_trees (draws : list draw) (width : nat) (data : list (list Q)) (labels : list Q) : outcome (list (Tree * list nat)) :=
  match draws with
  | [] => Ok []
  | d :: r =>
      let data := rows_at data (d_samples d) in
      let labels := labels_at labels (d_samples d) in
      if Nat.eqb width 0 then Raise ValueError else
      let feats := firstn (d_count d) (d_features d) in
      let t := fit_tree (map (features_at feats) data) labels in
      do rest <- make_trees r width data labels;
      Ok ((t, feats) :: rest)
  end.
(** np.mean; of nothing it is a NaN. *)
Definition mean (l : list Q) : option Q :=
  match l with [] => None | _ => Some (fold_right Qplus 0%Q l / inject_Z (Z.of_nat (length l)))%Q end.
(** predict (carts_handler.py 37-63) of one row. *)
Definition carts_predict1 (model : list (Tree * list nat)) (row : list Q) : option Q :=
  mean (rev (sort (map (fun tf => tree_predict (fst tf) (features_at (snd tf) row)) model))).
Definition carts_predict (model : list (Tree * list nat)) (rows : list (list Q)) : list (option Q) := map (carts_predict1 model) rows.
End Carts.

(** ** EstimateResourcesHook *)
(** Hook.every_n_epochs and every_n_train_iters of mmengine. *)
Definition every_n (current : nat) (n : Z) : bool := (0 <? n) && ((Z.of_nat current + 1) mod n =? 0).
(** One validation after [e] epochs of [iters] iterations, with [batches] validation batches: what is called (after_val_iter for
    each batch, then after_val_epoch) and how often the resources are estimated (estimate_resources_hook.py 53-82).
    mmengine's EpochBasedTrainLoop has incremented its epoch and its iterations before it validates. *)
Definition estimates_iter (by_epoch : bool) (interval : Z) (iter : nat) : nat :=
  if by_epoch then 0%nat else if every_n iter interval then 1%nat else 0%nat.
Definition estimates_epoch (by_epoch : bool) (interval : Z) (e : nat) : nat :=
  if by_epoch then if every_n e interval then 1%nat else 0%nat else 0%nat.
Definition estimates_val (by_epoch : bool) (interval : Z) (iters batches e : nat) : nat :=
  (fold_right (fun b a => b + a)%nat 0%nat (map (fun _ => estimates_iter by_epoch interval (e * iters)) (seq 0 batches)) +
   estimates_epoch by_epoch interval e)%nat.
(** The epochs after which a run of [total] epochs validates. *)
Definition validated (total val_begin val_interval : nat) : list nat :=
  filter (fun e => Nat.leb val_begin e && Nat.eqb (e mod val_interval) 0) (seq 1 total).
Definition estimates (by_epoch : bool) (interval : Z) (iters batches total val_begin val_interval : nat) : list (nat * nat) :=
  map (fun e => (e, estimates_val by_epoch interval iters batches e)) (validated total val_begin val_interval).

(** The model: its modules, each a mutable with a choice and perhaps architecture weights, or something else. *)
Record mmod := { is_mutable : bool; arch_weights : bool; choice : nat }.
Definition del_weights (m : mmod) : mmod :=
  if is_mutable m then {| is_mutable := true; arch_weights := false; choice := choice m |} else m.
(** set_choices: the [i]-th mutable gets the [i]-th of the sampled choices. *)
Fixpoint set_all (cs : list nat) (l : list mmod) : list mmod :=
  match l with
  | [] => []
  | m :: r =>
      if is_mutable m
      then match cs with
           | c :: cs' => {| is_mutable := true; arch_weights := arch_weights m; choice := c |} :: set_all cs' r
           | [] => m :: set_all [] r
           end
      else m :: set_all cs r
  end.
(** What export_fix_subnet and load_fix_subnet leave: the choices of the mutables. *)
Definition current_choices (l : list mmod) : list nat := map choice (filter is_mutable l).
(** export_subnet (estimate_resources_hook.py 95-122): the model afterwards and the fixed copy. *)
Definition export_subnet (sampled : list nat) (model : list mmod) : list mmod * list mmod :=
  let model := map del_weights model in
  let copied := set_all sampled model in
  (model, copied).
(** estimate_resources (estimate_resources_hook.py 84-93): the model afterwards and what is reported; [resources] depends on the
    choices, and for a model that is no supernet on nothing else. *)
Definition estimate_resources {X} (resources : list nat -> X) (is_supernet : bool) (sampled : list nat) (model : list mmod) : list mmod * X :=
  if is_supernet then let (m, c) := export_subnet sampled model in (m, resources (current_choices c))
  else (model, resources (current_choices model)).
