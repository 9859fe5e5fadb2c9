(** Model of the registration of a unit's mutable channel in the containers of the dynamic modules:
    mutable_channel_unit.py:237-306 and simple_mutable_channel.py:47-57. *)
From Verif Require Import Prelude IndexDict_Model Container_Model.

(** A related channel of a unit: the name of its module, its side and its range. *)
Record rchan : Type := { rc_mod : nat; rc_out : bool; rc_start : Z; rc_end : Z }.
(** A unit: num_channels and [input_related + output_related]. *)
Record runit : Type := { ru_n : Z; ru_chans : list rchan }.

(** What is put into a container: the mutable channel of a unit (named by the unit's position), as
    it is or derived with an expand ratio.  The value of a float ratio is not used: it cannot be
    passed to [expand] (see [made_mask]). *)
Inductive ratio : Type := RSame | RInt (r : Z) | RFloat.
Record made : Type := { md_unit : nat; md_ratio : ratio }.
(** The containers of the dynamic modules (side true: out_channels), and the mutables registered in
    them, which the containers name by position. *)
Record rstate : Type := { rs_cont : nat -> bool -> option container; rs_made : list made }.

(** mutable_channel_unit.py:237-256, [_register_channel_container]; [mods] gives in_channels and
    out_channels of the modules that are DynamicChannelMixin. *)
Definition register_containers (mods : nat -> option (Z * Z)) : rstate :=
  {| rs_cont := fun m io =>
       match mods m with
       | Some (i, o) => Some (new_container (if io : bool then o else i))
       | None => None
       end;
     rs_made := [] |}.

(** mutable_channel_unit.py:273-289: num_channels of the channel against that of the unit. *)
Definition pick_ratio (w n : Z) : outcome ratio :=
  if w =? n then Ok RSame
  else if n <? w
       then if n =? 0 then Raise ZeroDivisionError
            else if w mod n =? 0 then Ok (RInt (w / n)) else Ok RFloat
       else Raise NotImplementedError.

Fixpoint slot_at (d : idict slot) (k : range) : option slot :=
  match d with
  | [] => None
  | (k', v) :: r => if range_eqb k k' then Some v else slot_at r k
  end.
Definition set_cont (f : nat -> bool -> option container) (m : nat) (io : bool) (c : container)
  : nat -> bool -> option container :=
  fun m' io' => if Nat.eqb m m' && Bool.eqb io io' then Some c else f m' io'.

(** mutable_channel_unit.py:260-306, the body of the loop of [_register_mutable_channel] for unit
    [u].  The [in] of line 291 is [IndexDict.__contains__], which also accepts ranges that are not
    keys; reading such a key (line 292) is a KeyError. *)
Definition register_channel (u : nat) (n : Z) (st : rstate) (c : rchan) : outcome rstate :=
  match rs_cont st (rc_mod c) (rc_out c) with
  | None => Ok st
  | Some k =>
      do r <- pick_ratio (rc_end c - rc_start c) n;
      let rg := (rc_start c, rc_end c) in
      if contains (slots k) rg
      then match slot_at (slots k) rg with
           | None => Raise KeyError
           | Some (Filled _) => Raise AssertionError
           | Some (Reg id) =>
               match nth_error (rs_made st) id with
               | Some x => do _ <- assert_ (Nat.eqb (md_unit x) u); Ok st
               | None => Raise AssertionError
               end
           end
      else do k' <- register k (Reg (length (rs_made st))) (rc_start c) (rc_end c);
           Ok {| rs_cont := set_cont (rs_cont st) (rc_mod c) (rc_out c) k';
                 rs_made := rs_made st ++ [{| md_unit := u; md_ratio := r |}] |}
  end.
Fixpoint register_channels (u : nat) (n : Z) (st : rstate) (cs : list rchan) : outcome rstate :=
  match cs with
  | [] => Ok st
  | c :: r => do st' <- register_channel u n st c; register_channels u n st' r
  end.
(** The loop over the units (channel_mutator.py:121-123). *)
Fixpoint register_units (u : nat) (st : rstate) (us : list runit) : outcome rstate :=
  match us with
  | [] => Ok st
  | x :: r => do st' <- register_channels u (ru_n x) st (ru_chans x); register_units (S u) st' r
  end.
Definition prepare_units (mods : nat -> option (Z * Z)) (us : list runit) : outcome rstate :=
  register_units 0 (register_containers mods) us.

(** simple_mutable_channel.py:47-57, [_expand_mask]: every entry is repeated. *)
Definition stretch (r : Z) (mask : list bool) : list bool :=
  flat_map (fun b => repeat b (Z.to_nat r)) mask.
Definition made_mask (masks : nat -> list bool) (x : made) : list bool :=
  match md_ratio x with
  | RSame => masks (md_unit x)
  | RInt r => stretch r (masks (md_unit x))
  | RFloat => []
  end.
Definition is_float (x : made) : bool := match md_ratio x with RFloat => true | _ => false end.
(** The mask of one side of a module, the units having the masks [masks].  [expand] takes no float
    (TypeError); simplification: this is raised before the errors of the container. *)
Definition slot_float (st : rstate) (v : slot) : bool :=
  match v with
  | Reg id => match nth_error (rs_made st) id with Some x => is_float x | None => false end
  | Filled _ => false
  end.
Definition env_of (st : rstate) (masks : nat -> list bool) (id : nat) : list bool :=
  match nth_error (rs_made st) id with Some x => made_mask masks x | None => [] end.
Definition read_mask (st : rstate) (masks : nat -> list bool) (m : nat) (io : bool) : outcome (list bool) :=
  match rs_cont st m io with
  | None => Raise AttributeError
  | Some k =>
      if existsb (fun kv => slot_float st (snd kv)) (slots k) then Raise TypeError
      else do r <- current_mask (env_of st masks) k; Ok (snd r)
  end.
