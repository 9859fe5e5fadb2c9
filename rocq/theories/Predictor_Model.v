(** Metric predictors: mmrazor/models/task_modules/predictor/metric_predictor.py, the check of handler/rbf_handler.py and the part
    of mmrazor/engine/runner/evolution_search_loop.py that prepares and uses a predictor.

    Choices and names are strings; mutables are numbered as in FixSubnet_Model, with [choices] for what they can be set to and
    [channel] for channel mutables, which dump no [all_choices] (base_mutable_channel.py 63-68) and are no value mutables.  What a
    handler learns is left out. *)
From Coq Require Import List Arith Bool String.
From Verif Require Import Prelude Evolution_Model FixSubnet_Model Groups_Model.
Import ListNotations.
Local Open Scope nat_scope.

(** ** Encoding *)
Inductive encoding := Normal | Onehot.
Inductive handler := RBF | OtherHandler.
(** metric_predictor.py 48-54: the encoding in use; [None] is any other string. *)
Definition encoding_of (h : handler) (e : option encoding) : outcome encoding :=
  match e with
  | None => Raise AssertionError
  | Some e => Ok (match h with RBF => Normal | OtherHandler => e end)
  end.

(** list.index. *)
Fixpoint index_of (c : string) (l : list string) : outcome nat :=
  match l with [] => Raise ValueError | x :: r => if String.eqb x c then Ok 0 else do i <- index_of c r; Ok (S i) end.
Definition onehot (n i : nat) : list nat := map (fun j => if j =? i then 1 else 0) (seq 0 n).
(** The values of a model: DumpChosen with [meta] (and in it [all_choices]), or the choice itself. *)
Inductive entry := Dumped (meta : option (option (list string))) (chosen : string) | Plain (c : string).
Section Encode.
Variable choices : nat -> list string.
(** The search groups: names and mutables. *)
Fixpoint group_of (g : groups) (k : string) : outcome (list nat) :=
  match g with [] => Raise KeyError | (n, l) :: r => if String.eqb n k then Ok l else group_of r k end.
(** 104-124: the choices and which of them is chosen. *)
Definition encode_entry (g : groups) (kv : string * entry) : outcome (nat * nat) :=
  match snd kv with
  | Dumped None _ => Raise AssertionError
  | Dumped (Some None) _ => Raise KeyError
  | Dumped (Some (Some cs)) c => do i <- index_of c cs; Ok (List.length cs, i)
  | Plain c =>
      do l <- group_of g (fst kv);
      match l with [] => Raise IndexError | m :: _ => do i <- index_of c (choices m); Ok (List.length (choices m), i) end
  end.
(** 82-130, [model2vector]: the normal and the onehot vector. *)
Definition model2vector (g : groups) (model : list (string * entry)) : outcome (list nat * list nat) :=
  do _ <- assert_ (List.length model =? List.length g);
  do es <- mapM (encode_entry g) model;
  Ok (map snd es, flat_map (fun e => onehot (fst e) (snd e)) es).
(** np.where(part == 1)[0][0]. *)
Fixpoint first_one (l : list nat) : outcome nat :=
  match l with [] => Raise IndexError | x :: r => if x =? 1 then Ok 0 else do i <- first_one r; Ok (S i) end.
Definition nth_choice (l : list string) (i : nat) : outcome string := match nth_error l i with Some c => Ok c | None => Raise IndexError end.
(** 144-161: the groups in order; [v] is what is left of the vector. *)
Fixpoint decode (e : encoding) (g : groups) (v : list nat) : outcome (list (string * string)) :=
  match g with
  | [] => Ok []
  | (n, l) :: r =>
      match l with
      | [] => Raise IndexError
      | m :: _ =>
          do i <- match e with
                  | Onehot => first_one (firstn (List.length (choices m)) v)
                  | Normal => match v with [] => Raise IndexError | x :: _ => Ok x end
                  end;
          do c <- nth_choice (choices m) (if 1 <? List.length (choices m) then i else 0);
          do rest <- decode e r (skipn (match e with Onehot => List.length (choices m) | Normal => 1 end) v);
          Ok ((n, c) :: rest)
      end
  end.
(** 132-163, [vector2model]: np.squeeze turns a vector of one entry into a number, which has no items. *)
Definition vector2model (e : encoding) (g : groups) (v : list nat) : outcome (list (string * string)) :=
  match g with [] => Ok [] | _ => if List.length v =? 1 then Raise IndexError else decode e g v end.
End Encode.
(** 183-197, [preprocess], of one sample. *)
Definition preprocess (e : encoding) (v : list nat * list nat) : list nat := match e with Normal => fst v | Onehot => snd v end.

(** ** Training and predicting *)
Section Predict.
Variable choices : nat -> list string.
Variable channel : nat -> bool.
Variable alias : nat -> option string.
Variable gname : nat -> string.

(** The modules that the mutator groups (group_mixin.py 66-87). *)
Definition grouped_modules (m : net) : list modl :=
  flat_map (fun nk => match snd nk with
                      | KMutable i => if channel i then [] else [{| md_name := fst nk; md_srcs := [(i, alias i)] |}]
                      | KDerived l => [{| md_name := fst nk; md_srcs := map (fun i => (i, alias i)) (filter (fun i => negb (channel i)) l) |}]
                      | _ => []
                      end) m.
(** group_mixin.py 113-224 and nas_mutator.py 45-64 without channel units: the groups are named by a prefix and a counter. *)
Definition search_groups (m : net) (custom : list (list string)) : outcome groups :=
  do g <- build_search_groups (grouped_modules m) custom;
  Ok (combine (map gname (seq 0 (List.length g))) g).
(** fix_subnet.py 174-196: the mutable dumped under each key. *)
Fixpoint put {X} (d : list (string * X)) (k : string) (x : X) : list (string * X) :=
  match d with [] => [(k, x)] | (k0, y) :: r => if String.eqb k0 k then (k0, x) :: r else (k0, y) :: put r k x end.
Definition exported (m : net) : list (string * nat) :=
  fold_left (fun d ni => put d (match alias (snd ni) with Some a => a | None => fst ni end) (snd ni)) (uses m) [].
Definition dump (h : choice_heap) (i : nat) : entry := Dumped (Some (if channel i then None else Some (choices i))) (h i).
(** metric_predictor.py 61-80, [predict]: the vector handed to the handler. *)
Definition predict_vector (initialized : bool) (e : encoding) (g : groups) (m : net) (h : choice_heap) : outcome (list nat) :=
  do _ <- assert_ initialized;
  do v <- model2vector choices g (map (fun ki => (fst ki, dump h (snd ki))) (exported m));
  Ok (preprocess e v).
(** evolution_search_loop.py 431-434 and metric_predictor.py 207: the vector a candidate is trained with. *)
Definition train_vector (e : encoding) (g : groups) (candidate : list (string * string)) : outcome (list nat) :=
  do v <- model2vector choices g (map (fun kc => (fst kc, Plain (snd kc))) candidate);
  Ok (preprocess e v).
(** rbf_handler.py 48-51 and metric_predictor.py 199-209, [fit], on [rows] of [cols] entries. *)
Definition fit (h : handler) (rows cols : nat) : outcome unit :=
  match h with RBF => if rows <=? cols then Raise ValueError else Ok tt | OtherHandler => Ok tt end.
End Predict.

(** ** The search *)
(** Subnets are of any type; [evaluated] says how the scores of an epoch were found, oldest first. *)
Section Search.
Variable subnet_t : Type.
Inductive scored := ByEvaluation (s : subnet_t) | ByPredictor (s : subnet_t).
Record loop := { l_use : bool; l_ready : bool; l_num : nat; l_pool : list subnet_t; l_scored : list scored }.
(** [sample_candidates] (194-218) draws from [pick] until the pool has [l_num] candidates. *)
Definition sample (pick : nat -> subnet_t) (s : loop) : loop :=
  {| l_use := l_use s; l_ready := l_ready s; l_num := l_num s;
     l_pool := l_pool s ++ map pick (seq (List.length (l_pool s)) (l_num s - List.length (l_pool s))); l_scored := l_scored s |}.
(** [update_candidates_scores] (220-236) with [_val_candidate] (339-360): predicting needs a predictor that is ready. *)
Definition score (s : loop) : outcome loop :=
  do _ <- assert_ (negb (l_use s) || l_ready s || (List.length (l_pool s) =? 0));
  Ok {| l_use := l_use s; l_ready := l_ready s; l_num := l_num s; l_pool := l_pool s;
        l_scored := l_scored s ++ map (if l_use s then ByPredictor else ByEvaluation) (l_pool s) |}.
(** Where the training samples come from. *)
Inductive source := Checkpoint | Samples (l : list subnet_t) | Random (n : nat).
(** [_init_predictor] (405-443), on one process; [cols] is the length of an encoded candidate. *)
Definition init_predictor (h : handler) (cols : nat) (src : source) (pick : nat -> subnet_t) (s : loop) : outcome loop :=
  match src with
  | Checkpoint => Ok {| l_use := l_use s; l_ready := true; l_num := l_num s; l_pool := l_pool s; l_scored := l_scored s |}
  | _ =>
      do s' <- match src with
               | Random n =>
                   do _ <- assert_ (negb (l_use s));
                   do t <- score (sample pick {| l_use := l_use s; l_ready := l_ready s; l_num := n; l_pool := l_pool s; l_scored := l_scored s |});
                   Ok {| l_use := l_use t; l_ready := l_ready t; l_num := l_num s; l_pool := l_pool t; l_scored := l_scored t |}
               | Samples l => Ok {| l_use := l_use s; l_ready := l_ready s; l_num := l_num s; l_pool := l; l_scored := l_scored s |}
               | Checkpoint => Ok s
               end;
      do _ <- fit h (List.length (l_pool s')) cols;
      Ok {| l_use := true; l_ready := true; l_num := l_num s'; l_pool := []; l_scored := l_scored s' |}
  end.
(** __init__ (128-135): nothing is ready. *)
Definition start (num : nat) : loop := {| l_use := false; l_ready := false; l_num := num; l_pool := []; l_scored := [] |}.
(** [run] (137-155) for [n] epochs, of which only sampling and scoring are kept: [next] is the pool after mutation and crossover. *)
Fixpoint epochs (n : nat) (pick : nat -> subnet_t) (next : list subnet_t -> list subnet_t) (s : loop) : outcome loop :=
  match n with
  | O => Ok s
  | S k =>
      do t <- score (sample pick s);
      epochs k pick next {| l_use := l_use t; l_ready := l_ready t; l_num := l_num t; l_pool := next (l_pool t); l_scored := l_scored t |}
  end.
End Search.
