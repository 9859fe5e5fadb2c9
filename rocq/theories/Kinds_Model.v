(** Model of mmrazor/models/mutators/channel_mutator/one_shot_channel_mutator.py: the widest, the
    narrowest and the sampled choices of the units. *)
From Verif Require Import Prelude PyNum Channel_Model Divisible_Model Mutator_Model.

(** The [kind] of one_shot_channel_mutator.py:46-58. *)
Inductive kind : Type := KMax | KMin | KRandom | KOther.

(** [self._name2unit[key]] (channel_mutator.py:121-124). *)
Definition unit_at (us : list munit) (k : uname) : outcome munit :=
  match last_named us k with
  | None => Raise KeyError
  | Some i => match nth_error us i with None => Raise KeyError | Some u => Ok u end
  end.
(** [max_choice] and [min_choice] (one_shot_mutable_channel_unit.py:108-116); a
    SequentialMutableChannelUnit has neither. *)
Definition attr_max (u : munit) : outcome num :=
  match m_cls u with CSeq => Raise AttributeError | _ => max_choice u end.
Definition attr_min (u : munit) : outcome num :=
  match m_cls u with CSeq => Raise AttributeError | _ => min_choice u end.

(** one_shot_channel_mutator.py:50-57, one key of [sample_choices]. *)
Definition kind_key (us : list munit) (kd : kind) (draw : uname -> Z) (k : uname) : outcome (uname * num) :=
  match kd with
  | KMax => do u <- unit_at us k; do v <- attr_max u; Ok (k, v)
  | KMin => do u <- unit_at us k; do v <- attr_min u; Ok (k, v)
  | KRandom => do u <- unit_at us k; do v <- draw_choice u (draw k); Ok (k, v)
  | KOther => Raise NotImplementedError
  end.
(** one_shot_channel_mutator.py:46-58, [sample_choices]. *)
Definition sample_kind (mi : minfo) (us : list munit) (kd : kind) (draw : uname -> Z)
  : outcome (list (uname * num)) :=
  do d <- choice_template (mutable_units mi us) [];
  mapM (kind_key us kd draw) (map fst d).
(** one_shot_channel_mutator.py:30-44, [max_choices] and [min_choices]. *)
Definition max_choices (mi : minfo) (us : list munit) : outcome (list (uname * num)) :=
  do d <- choice_template (mutable_units mi us) [];
  mapM (fun k => do u <- unit_at us k; do v <- attr_max u; Ok (k, v)) (map fst d).
Definition min_choices (mi : minfo) (us : list munit) : outcome (list (uname * num)) :=
  do d <- choice_template (mutable_units mi us) [];
  mapM (fun k => do u <- unit_at us k; do v <- attr_min u; Ok (k, v)) (map fst d).
(** one_shot_channel_mutator.py:60-70, [set_max_choices] and [set_min_choices]; the loop is that of
    [set_choices] (channel_mutator.py:216-227). *)
Definition set_max_choices (mi : minfo) (us : list munit) : list munit * outcome unit :=
  match max_choices mi us with
  | Raise e => (us, Raise e)
  | Ok cs => set_choices us cs
  end.
Definition set_min_choices (mi : minfo) (us : list munit) : list munit * outcome unit :=
  match min_choices mi us with
  | Raise e => (us, Raise e)
  | Ok cs => set_choices us cs
  end.
