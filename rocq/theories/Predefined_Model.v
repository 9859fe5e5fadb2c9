(** Model of the units of a model with predefined dynamic ops: mutable_channel_unit.py:55-120,
    channel_mutator.py:365-374 and one_shot_mutable_channel_unit.py:56-69. *)
From Verif Require Import Prelude IndexDict_Model Register_Model.

(** What a container holds: a channel mutable (by identity), or a derived mutable with those of its
    source mutables that are channel mutables. *)
Inductive pent : Type := PMut (id : nat) | PDer (sources : list nat).
(** A DynamicChannelMixin of [model.named_modules()]: its name and the containers of its two sides;
    None when no container was registered. *)
Record pmod : Type := { pm_name : nat; pm_in : option (idict pent); pm_out : option (idict pent) }.
(** A unit: its mutable, num_channels and the related channels. *)
Record punit : Type := { pu_id : nat; pu_n : Z; pu_in : list rchan; pu_out : list rchan }.

(** channel_unit.py:100-108, [Channel.__eq__]. *)
Definition rchan_eqb (a b : rchan) : bool :=
  Nat.eqb (rc_mod a) (rc_mod b) && Bool.eqb (rc_out a) (rc_out b)
  && Z.eqb (rc_start a) (rc_start b) && Z.eqb (rc_end a) (rc_end b).
(** channel_unit.py:229-239. *)
Definition add_related (l : list rchan) (c : rchan) : list rchan :=
  if existsb (rchan_eqb c) l then l else l ++ [c].
Definition unit_add (u : punit) (c : rchan) : punit :=
  if rc_out c
  then {| pu_id := pu_id u; pu_n := pu_n u; pu_in := pu_in u; pu_out := add_related (pu_out u) c |}
  else {| pu_id := pu_id u; pu_n := pu_n u; pu_in := add_related (pu_in u) c; pu_out := pu_out u |}.

Section Predefined.
(** [init_from_mutable_channel] of the unit class: num_channels of the new unit, or the exception
    (a SimpleMutableChannel has no choice_mode). *)
Variable make : nat -> outcome Z.

(** mutable_channel_unit.py:84-90: [mutable2units], in insertion order. *)
Fixpoint put_channel (us : list punit) (id : nat) (c : rchan) : outcome (list punit) :=
  match us with
  | [] => do n <- make id; Ok [unit_add {| pu_id := id; pu_n := n; pu_in := []; pu_out := [] |} c]
  | u :: r =>
      if Nat.eqb (pu_id u) id then Ok (unit_add u c :: r)
      else do r' <- put_channel r id c; Ok (u :: r')
  end.
(** mutable_channel_unit.py:69-82: the channel mutable an entry stands for.  The reading of
    [current_choice] (its value is not used) is left out. *)
Definition source_of (x : pent) : outcome nat :=
  match x with
  | PMut id => Ok id
  | PDer [id] => Ok id
  | PDer _ => Raise AssertionError
  end.
(** mutable_channel_unit.py:64-103, [process_container]. *)
Fixpoint process_items (nm : nat) (io : bool) (us : list punit) (d : idict pent) : outcome (list punit) :=
  match d with
  | [] => Ok us
  | ((s, e), x) :: r =>
      do id <- source_of x;
      do us' <- put_channel us id {| rc_mod := nm; rc_out := io; rc_start := s; rc_end := e |};
      process_items nm io us' r
  end.
Definition process_container (nm : nat) (io : bool) (us : list punit) (k : option (idict pent))
  : outcome (list punit) :=
  match k with
  | None => Raise AttributeError
  | Some d => process_items nm io us d
  end.
(** mutable_channel_unit.py:105-120, [init_from_predefined_model]. *)
Fixpoint process_modules (us : list punit) (ms : list pmod) : outcome (list punit) :=
  match ms with
  | [] => Ok us
  | m :: r =>
      do us1 <- process_container (pm_name m) false us (pm_in m);
      do us2 <- process_container (pm_name m) true us1 (pm_out m);
      process_modules us2 r
  end.
Definition init_from_predefined_model (ms : list pmod) : outcome (list punit) := process_modules [] ms.
End Predefined.

(** channel_mutator.py:369-374, [_prepare_from_predefined_model]: the units with their
    [unit_predefined].  [given] is unit_default_args.get('unit_predefined'), which the first pop
    removes from unit_default_args. *)
Fixpoint set_predefined (given : option bool) (us : list punit) : list (punit * bool) :=
  match us with
  | [] => []
  | u :: r => (u, match given with Some b => b | None => false end) :: set_predefined None r
  end.

(** mutable_channel_unit.py:258-306 for containers holding [pent]. *)
Fixpoint pent_at (d : idict pent) (k : range) : option pent :=
  match d with
  | [] => None
  | (k', v) :: r => if range_eqb k k' then Some v else pent_at r k
  end.
Definition mod_side (m : pmod) (io : bool) : option (idict pent) := if io then pm_out m else pm_in m.
Definition with_side (m : pmod) (io : bool) (d : idict pent) : pmod :=
  {| pm_name := pm_name m; pm_in := if io then pm_in m else Some d;
     pm_out := if io then Some d else pm_out m |}.
(** mutable_channel_unit.py:295-306: the entry at the range must be, or come from, the mutable. *)
Definition comes_from (x : pent) (id : nat) : bool :=
  match x with PMut id' => Nat.eqb id' id | PDer l => existsb (Nat.eqb id) l end.
(** One channel on the module it belongs to. *)
Definition register_on (m : pmod) (id : nat) (n : Z) (c : rchan) : outcome pmod :=
  match mod_side m (rc_out c) with
  | None => Raise NotImplementedError
  | Some d =>
      do r <- pick_ratio (rc_end c - rc_start c) n;
      let rg := (rc_start c, rc_end c) in
      if contains d rg
      then match pent_at d rg with
           | None => Raise KeyError
           | Some x => do _ <- assert_ (comes_from x id); Ok m
           end
      else do d' <- setitem d rg (match r with RSame => PMut id | _ => PDer [id] end);
           Ok (with_side m (rc_out c) d')
  end.
Fixpoint preregister_channel (ms : list pmod) (id : nat) (n : Z) (c : rchan) : outcome (list pmod) :=
  match ms with
  | [] => Ok []
  | m :: r =>
      if Nat.eqb (pm_name m) (rc_mod c)
      then do m' <- register_on m id n c; Ok (m' :: r)
      else do r' <- preregister_channel r id n c; Ok (m :: r')
  end.
Fixpoint preregister_channels (ms : list pmod) (id : nat) (n : Z) (cs : list rchan) : outcome (list pmod) :=
  match cs with
  | [] => Ok ms
  | c :: r => do ms' <- preregister_channel ms id n c; preregister_channels ms' id n r
  end.
(** one_shot_mutable_channel_unit.py:65-69, [prepare_for_pruning], of all units
    (channel_mutator.py:121-123): the modules afterwards.  Replacing static ops and registering
    containers do nothing to modules that have both; the choice is not modelled here. *)
Fixpoint prepare_predefined (ms : list pmod) (us : list (punit * bool)) : outcome (list pmod) :=
  match us with
  | [] => Ok ms
  | (u, true) :: r => prepare_predefined ms r
  | (u, false) :: r =>
      do ms' <- preregister_channels ms (pu_id u) (pu_n u) (pu_in u ++ pu_out u);
      prepare_predefined ms' r
  end.
