(** Model of mmrazor/models/utils/make_divisible.py and of the choice arithmetic of
    mutable_channel/units/{sequential,one_shot}_mutable_channel_unit.py. *)
From Verif Require Import Prelude PyNum Channel_Model.

(** make_divisible.py:9-46.  Simplification: [value + divisor / 2] and
    [min_ratio * value] are computed exactly (rationals) instead of in binary64; the
    first is exact in binary64 for values below 2^52.  [int] truncates, [//] floors;
    a zero divisor raises.  The logging of line 32-38 has no effect on the result. *)
Definition make_divisible (value divisor : Z) (min_value : option Z) (min_ratio : Q)
  : outcome Z :=
  let mv := match min_value with None => divisor | Some m => m end in
  let mv := if mv <? divisor then divisor else mv in
  if divisor =? 0 then Raise ZeroDivisionError
  else
    let new_value := Z.max mv (Z.quot (2 * value + divisor) 2 / divisor * divisor) in
    Ok (if negb (Qle_bool (min_ratio * inject_Z value) (inject_Z new_value))
        then new_value + divisor else new_value).

(** Parameters of a unit: sequential_mutable_channel_unit.py:34-52. *)
Record unit_cfg : Type :=
  { u_n : nat; u_num : bool; u_div : Z; u_min : Z; u_ratio : Q }.

(** sequential_mutable_channel_unit.py:134-138, [_make_divisible]. *)
Definition u_make_divisible (u : unit_cfg) (k : Z) : outcome Z :=
  make_divisible k (u_div u) (Some (u_min u)) (u_ratio u).

(** sequential_mutable_channel_unit.py:127-132, [_get_valid_int_choice]; line 131 only
    logs (it reads [self.current_choice], which cannot fail here). *)
Definition valid_int_choice (u : unit_cfg) (choice : num) : outcome Z :=
  do k <- ratio2num (u_n u) choice;
  u_make_divisible u k.

(** sequential_mutable_channel_unit.py:111-115, setter of SequentialMutableChannelUnit. *)
Definition unit_set (u : unit_cfg) (ch : seq_channel) (choice : num) : outcome seq_channel :=
  do k <- valid_int_choice u choice;
  seq_set ch (NInt k).

(** sequential_mutable_channel_unit.py:117-124, [sample_choice]; [r] is the value
    returned by [random.randint(1, num_channels)]. *)
Definition unit_sample (u : unit_cfg) (r : Z) : outcome num :=
  do k <- u_make_divisible u r;
  if u_num u then Ok (NInt k) else num2ratio (u_n u) k.

(** one_shot_mutable_channel_unit.py:120-139, [_prepare_candidate_choices]. *)
Definition prepare_candidate (u : unit_cfg) (c : num) : outcome num :=
  if u_num u
  then match c with
       | NInt z => do k <- u_make_divisible u z; Ok (NInt k)
       | NFloat _ => Raise AssertionError
       end
  else match c with
       | NFloat _ => do k <- ratio2num (u_n u) c;
                     do k' <- u_make_divisible u k;
                     num2ratio (u_n u) k'
       | NInt _ => Raise AssertionError
       end.
Definition prepare_candidates (u : unit_cfg) (l : list num) : outcome (list num) :=
  do l' <- mapM (prepare_candidate u) l;
  Ok (num_sort l').

(** one_shot_mutable_channel_unit.py:33-54, [__init__]: the unit's candidate list, which
    is the very list object handed to its OneShotMutableChannel. *)
Definition oneshot_unit_candidates (u : unit_cfg) (l : list num) : outcome (list num) :=
  let l1 := match l with
            | [] => [if u_num u then NInt (Z.of_nat (u_n u)) else NFloat (f64_of_Z 1)]
            | _ => l
            end in
  do cands <- prepare_candidates u l1;
  Ok (init_candidates (u_n u) (u_num u) cands).

(** one_shot_mutable_channel_unit.py:94-101, the setter. *)
Definition oneshot_unit_set (u : unit_cfg) (cands : list num) (ch : seq_channel) (choice : num)
  : outcome seq_channel :=
  do _ <- assert_ (num_in choice cands);
  do k <- valid_int_choice u choice;
  do c <- (if u_num u then Ok (NInt k) else num2ratio (u_n u) k);
  oneshot_set cands ch c.

(** one_shot_mutable_channel_unit.py:103-106, [sample_choice] with [randint] result [i]. *)
Definition oneshot_unit_sample (cands : list num) (i : nat) : option num := nth_error cands i.
