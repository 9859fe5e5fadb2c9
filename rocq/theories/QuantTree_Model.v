(** Model of the functions that walk over the modules of a quantized algorithm:
    models/algorithms/quantization/mm_architecture.py ([sync_qparams],
    [reset_observer_and_fakequant_statistics], the modes) and models/quantizers/base.py
    ([convert_batchnorm2d], [swap_ff_with_fxff]). *)
From Coq Require Import String.
From Verif Require Import Prelude Onnx_Model.
Local Open Scope string_scope.
Local Open Scope list_scope.
Local Open Scope nat_scope.

(** Kinds of modules; [B] are the arguments of a batch norm (num_features, eps, momentum, affine,
    track_running_stats). MinMaxObserver and PerChannelMinMaxObserver and their subclasses are
    [MinMaxObs] and [PerChannelObs], all other observers are [OtherObs]. *)
Inductive mkind (B : Type) : Type :=
| FakeQuant | MinMaxObs | PerChannelObs | OtherObs | SyncBN (b : B) | BatchNormXd (b : B) | BatchNorm2d (b : B) | FloatFunctional | FXFloatFunctional | Plain (type : nat).
Arguments FakeQuant {B}. Arguments MinMaxObs {B}. Arguments PerChannelObs {B}. Arguments OtherObs {B}. Arguments SyncBN {B}. Arguments BatchNormXd {B}. Arguments BatchNorm2d {B}.
Arguments FloatFunctional {B}. Arguments FXFloatFunctional {B}. Arguments Plain {B}.

(** A list comprehension whose body may raise. *)
Section MapE.
Context {A C : Type} (f : A -> outcome C).
Fixpoint mapE (l : list A) : outcome (list C) := match l with [] => Ok [] | x :: r => do y <- f x; do ys <- mapE r; Ok (y :: ys) end.
End MapE.

Section Tree.
(** Tensors and the arguments of a batch norm. *)
Variables V B : Type.
(** A module: its identity, kind, parameters, buffers (with whether they are persistent) and children. *)
Inductive mtree : Type := Mod (id : nat) (kind : mkind B) (params : list (string * V)) (buffers : list (string * (bool * V))) (children : list (string * option mtree)).
Definition m_id (t : mtree) : nat := match t with Mod i _ _ _ _ => i end.
Definition m_kind (t : mtree) : mkind B := match t with Mod _ k _ _ _ => k end.
Definition m_params (t : mtree) : list (string * V) := match t with Mod _ _ p _ _ => p end.
Definition m_buffers (t : mtree) : list (string * (bool * V)) := match t with Mod _ _ _ b _ => b end.
Definition m_children (t : mtree) : list (string * option mtree) := match t with Mod _ _ _ _ c => c end.

(** [torch.nn.Module.state_dict]: parameters and persistent buffers. *)
Fixpoint state_dict (prefix : string) (t : mtree) : list (string * V) :=
  match t with
  | Mod _ _ ps bs cs =>
      map (fun kv => ((prefix ++ fst kv)%string, snd kv)) ps ++
      map (fun kv => ((prefix ++ fst kv)%string, snd (snd kv))) (filter (fun kv => fst (snd kv)) bs) ++
      flat_map (fun c => match snd c with Some x => state_dict (prefix ++ fst c ++ ".")%string x | None => [] end) cs
  end.

Definition is_fake_quant (t : mtree) : bool := match m_kind t with FakeQuant => true | _ => false end.
(** mm_architecture.py:131-149: copying a tensor, resized first if need be, gives the other one. *)
Definition copy_params (src : list (string * V)) (prefix : string) : list (string * V) -> outcome (list (string * V)) :=
  mapE (fun kv => do v <- lookup src (prefix ++ fst kv)%string; Ok (fst kv, v)).
Definition copy_buffers (src : list (string * V)) (prefix : string) : list (string * (bool * V)) -> outcome (list (string * (bool * V))) :=
  mapE (fun kv => do v <- lookup src (prefix ++ fst kv)%string; Ok (fst kv, (fst (snd kv), v))).
(** [named_parameters] and [named_buffers] of a fake quantizer include those of its children. *)
Fixpoint sync_all (src : list (string * V)) (prefix : string) (t : mtree) : outcome mtree :=
  match t with
  | Mod i k ps bs cs =>
      do ps' <- copy_params src prefix ps;
      do bs' <- copy_buffers src prefix bs;
      do cs' <- mapE (fun c => match snd c with Some x => do x' <- sync_all src (prefix ++ fst c ++ ".")%string x; Ok (fst c, Some x') | None => Ok c end) cs;
      Ok (Mod i k ps' bs' cs')
  end.
(** mm_architecture.py:125-151, [traverse]; it tests [module], not [child], for [None]. *)
Fixpoint sync_tree (src : list (string * V)) (prefix : string) (t : mtree) : outcome mtree :=
  match t with
  | Mod i k ps bs cs =>
      do cs' <- mapE (fun c => match snd c with
                               | Some x => do x' <- (if is_fake_quant x then sync_all src (prefix ++ fst c ++ ".")%string x else sync_tree src (prefix ++ fst c ++ ".")%string x); Ok (fst c, Some x')
                               | None => Raise AttributeError
                               end) cs;
      Ok (Mod i k ps bs cs')
  end.
(** mm_architecture.py:154-157. *)
Fixpoint sync_modes (src : list (string * V)) (src_mode : string) (modes : list string) (q : list (string * mtree)) : outcome (list (string * mtree)) :=
  match modes with
  | [] => Ok q
  | m :: r => if String.eqb m src_mode then sync_modes src src_mode r q
              else do t <- lookup q m; do t' <- sync_tree src "" t; sync_modes src src_mode r (put q m t')
  end.
(** mm_architecture.py:107-157, [sync_qparams]. *)
Definition sync_qparams (src_mode : string) (modes : list string) (q : list (string * mtree)) : outcome (list (string * mtree)) :=
  do s <- lookup q src_mode; sync_modes (state_dict "" s) src_mode modes q.
(** mm_architecture.py:279-327, [_build_qmodels]: preparing a model for each mode, then a forward pass
    of the mode "tensor" ([run]). *)
Definition build_qmodels (prepare : string -> mtree) (run : mtree -> mtree) (modes : list string) : outcome (list (string * mtree)) :=
  let q := fold_left (fun d m => put d m (prepare m)) modes [] in
  do t <- lookup q "tensor"; Ok (put q "tensor" (run t)).

(** mm_architecture.py:94-105, [reset_observer_and_fakequant_statistics]; the first three are the
    bounds of a new observer. *)
Variables (init_min init_max empty : V) (ones_like zeros_like : V -> V).
Definition set_where {A : Type} (f : string -> option (A -> A)) (l : list (string * A)) : list (string * A) :=
  map (fun kv => (fst kv, match f (fst kv) with Some g => g (snd kv) | None => snd kv end)) l.
Definition reset_value (k : mkind B) (name : string) : option (V -> V) :=
  match k with
  | MinMaxObs => if String.eqb name "min_val" then Some (fun _ => init_min) else if String.eqb name "max_val" then Some (fun _ => init_max) else None
  | PerChannelObs => if (String.eqb name "min_val" || String.eqb name "max_val")%bool then Some (fun _ => empty) else None
  | FakeQuant => if String.eqb name "scale" then Some ones_like else if String.eqb name "zero_point" then Some zeros_like else None
  | _ => None
  end.
Fixpoint reset_statistics (t : mtree) : mtree :=
  match t with
  | Mod i k ps bs cs =>
      Mod i k (set_where (reset_value k) ps)
        (set_where (fun n => match reset_value k n with Some g => Some (fun bv => (fst bv, g (snd bv))) | None => None end) bs)
        (map (fun c => (fst c, match snd c with Some x => Some (reset_statistics x) | None => None end)) cs)
  end.

(** quantizers/base.py:38-59, [convert_batchnorm2d]: the parameters and buffers of a new batch norm;
    [next] is the identity of the next new module. [named_children] yields each module once. *)
Variable bn_params : B -> list (string * V).
Variable bn_buffers : B -> list (string * (bool * V)).
Definition new_bn (id : nat) (b : B) : mtree := Mod id (BatchNorm2d b) (bn_params b) (bn_buffers b) [].
Definition to_convert (k : mkind B) : option B := match k with SyncBN b => Some b | BatchNormXd b => Some b | _ => None end.
Fixpoint convert_batchnorm2d (next : nat) (t : mtree) : nat * mtree :=
  match t with
  | Mod i k ps bs cs =>
      let '(next', cs') :=
        (fix go (next : nat) (seen : list nat) (cs : list (string * option mtree)) : nat * list (string * option mtree) :=
           match cs with
           | [] => (next, [])
           | (n, None) :: r => let '(next', r') := go next seen r in (next', (n, None) :: r')
           | (n, Some c) :: r =>
               if existsb (Nat.eqb (m_id c)) seen then let '(next', r') := go next seen r in (next', (n, Some c) :: r')
               else match to_convert (m_kind c) with
                    | Some b => let '(next', r') := go (S next) (m_id c :: seen) r in (next', (n, Some (new_bn next b)) :: r')
                    | None => let '(next1, c') := convert_batchnorm2d next c in let '(next', r') := go next1 (m_id c :: seen) r in (next', (n, Some c') :: r')
                    end
           end) next [] cs in
      (next', Mod i k ps bs cs')
  end.

(** quantizers/base.py:76-88, [swap_ff_with_fxff]: deleting a name and adding it again puts it last. *)
Variable fxff : nat -> mtree.
Definition drop {A : Type} (k : string) (d : list (string * A)) : list (string * A) := filter (fun kv => negb (String.eqb (fst kv) k)) d.
Fixpoint swap_names (next : nat) (names : list string) (cs : list (string * option mtree)) : nat * list (string * option mtree) :=
  match names with [] => (next, cs) | n :: r => swap_names (S next) r (drop n cs ++ [(n, Some (fxff next))]) end.
Definition is_ff (t : mtree) : bool := match m_kind t with FloatFunctional => true | _ => false end.
Fixpoint swap_ff_with_fxff (next : nat) (t : mtree) : nat * mtree :=
  match t with
  | Mod i k ps bs cs =>
      let '(next1, names, cs1) :=
        (fix go (next : nat) (seen : list nat) (cs : list (string * option mtree)) : nat * list string * list (string * option mtree) :=
           match cs with
           | [] => (next, [], [])
           | (n, None) :: r => let '(next', ns, r') := go next seen r in (next', ns, (n, None) :: r')
           | (n, Some c) :: r =>
               if existsb (Nat.eqb (m_id c)) seen then let '(next', ns, r') := go next seen r in (next', ns, (n, Some c) :: r')
               else if is_ff c then let '(next', ns, r') := go next (m_id c :: seen) r in (next', n :: ns, (n, Some c) :: r')
               else let '(next0, c') := swap_ff_with_fxff next c in let '(next', ns, r') := go next0 (m_id c :: seen) r in (next', ns, (n, Some c') :: r')
           end) next [] cs in
      let '(next2, cs2) := swap_names next1 names cs1 in
      (next2, Mod i k ps bs cs2)
  end.
End Tree.
