(** Model of mmrazor/models/mutables/mutable_channel/{base,simple,sequential,oneshot}_
    mutable_channel.py, of mutable_value.py and of base_mutable.py's [is_fixed]. *)
From Verif Require Import Prelude PyNum.

(** ** SimpleMutableChannel *)

(** A SimpleMutableChannel: its mask buffer (booleans stored as 0.0/1.0) and
    [_is_fixed].  base_mutable.py:32-38, simple_mutable_channel.py:21-26. *)
Record simple_channel : Type := { s_mask : list bool; s_fixed : bool }.
Definition new_simple_channel (n : nat) : simple_channel :=
  {| s_mask := repeat true n; s_fixed := false |}.

(** simple_mutable_channel.py:35-38, the [current_choice] setter (no check at all). *)
Definition simple_set (c : simple_channel) (m : list bool) : simple_channel :=
  {| s_mask := m; s_fixed := s_fixed c |}.

(** base_mutable_channel.py:51-61, [fix_chosen(chosen=None)].  The state after the call
    is returned even when the call raises. *)
Definition simple_fix (c : simple_channel) (chosen : option (list bool))
  : simple_channel * outcome unit :=
  let c1 := match chosen with Some m => simple_set c m | None => c end in
  if s_fixed c1 then (c1, Raise AttributeError)
  else ({| s_mask := s_mask c1; s_fixed := true |}, Ok tt).

(** ** SquentialMutableChannel *)

(** sequential_mutable_channel.py:25-29.  [q_n] is [num_channels]; [q_num] is
    [is_num_mode]. *)
Record seq_channel : Type :=
  { q_n : nat; q_mask : list bool; q_num : bool; q_fixed : bool }.
Definition new_seq (n : nat) (num_mode : bool) : seq_channel :=
  {| q_n := n; q_mask := repeat true n; q_num := num_mode; q_fixed := false |}.
Definition with_mask (c : seq_channel) (m : list bool) : seq_channel :=
  {| q_n := q_n c; q_mask := m; q_num := q_num c; q_fixed := q_fixed c |}.

(** sequential_mutable_channel.py:135-140, [_ratio2num]. *)
Definition ratio2num (n : nat) (choice : num) : outcome Z :=
  match choice with
  | NInt z => Ok z
  | NFloat f => do k <- py_int (f64mul (f64_of_Z (Z.of_nat n)) f); Ok (Z.max 1 k)
  end.

(** sequential_mutable_channel.py:128-133, [_num2ratio] (division by zero raises). *)
Definition num2ratio (n : nat) (k : Z) : outcome num :=
  match n with
  | O => Raise ZeroDivisionError
  | _ => Ok (NFloat (f64div (f64_of_Z k) (f64_of_Z (Z.of_nat n))))
  end.

(** [mask.fill_(0.0); mask[0:stop] = 1.0] on a mask of length [len]. *)
Definition leading (len : nat) (stop : Z) : list bool :=
  repeat true (slice_stop len stop) ++ repeat false (len - slice_stop len stop).

(** sequential_mutable_channel.py:45-53, the [current_choice] setter. *)
Definition seq_set (c : seq_channel) (choice : num) : outcome seq_channel :=
  do k <- (match choice with
           | NFloat _ => ratio2num (q_n c) choice
           | NInt z => Ok z
           end);
  Ok (with_mask c (leading (length (q_mask c)) k)).

(** sequential_mutable_channel.py:36-43, the [current_choice] getter. *)
Definition seq_get (c : seq_channel) : outcome num :=
  let k := Z.of_nat (count_true (q_mask c)) in
  if q_num c then Ok (NInt k) else num2ratio (q_n c) k.

(** sequential_mutable_channel.py:62-68, [fix_chosen(chosen=...)]; [None] is the
    default [...].  Returns the state after the call together with its outcome. *)
Definition seq_fix_with (set : seq_channel -> num -> outcome seq_channel)
           (c : seq_channel) (chosen : option num) : seq_channel * outcome unit :=
  match (match chosen with Some v => Ok v | None => seq_get c end) with
  | Raise e => (c, Raise e)
  | Ok v =>
      if q_fixed c then (c, Raise AssertionError)
      else match set c v with
           | Raise e => (c, Raise e)
           | Ok c' => ({| q_n := q_n c'; q_mask := q_mask c'; q_num := q_num c';
                          q_fixed := true |}, Ok tt)
           end
  end.
Definition seq_fix := seq_fix_with seq_set.

(** base_mutable_channel.py:44-47, [activated_channels] (= export_chosen, 70-71). *)
Definition activated (m : list bool) : nat := count_true m.

(** ** OneShotMutableChannel *)

(** oneshot_mutable_channel.py:36-42, the setter. *)
Definition oneshot_set (cands : list num) (c : seq_channel) (choice : num)
  : outcome seq_channel :=
  do _ <- assert_ (num_in choice cands);
  seq_set c choice.

(** A Python process holding list objects and channel mutables.  Heap cell 0 is the
    list object created once for the default argument [candidate_choices=[]]
    (oneshot_mutable_channel.py:22); every object stores a reference to the list it
    was given (line 27), never a copy. *)
Record oneshot : Type := { os_ch : seq_channel; os_ref : nat }.
Record world : Type := { heap : list (list num); objs : list oneshot }.
Definition world0 : world := {| heap := [[]]; objs := [] |}.

Definition upd {A} (l : list A) (i : nat) (x : A) : list A :=
  firstn i l ++ (if Nat.ltb i (length l) then x :: skipn (S i) l else []).

(** What user code can do. *)
Inductive op : Type :=
| OAlloc (l : list num)                        (* l = [..] *)
| ONew (n : nat) (num_mode : bool) (arg : option nat)  (* OneShotMutableChannel(n[, list]) *)
| OSet (i : nat) (v : num)                     (* obj_i.current_choice = v *)
| OAppend (i : nat) (v : num).                 (* obj_i.candidate_choices.append(v) *)

(** oneshot_mutable_channel.py:20-29, [__init__]: sort the list in place, keep the
    reference, and append the full width if it is empty. *)
Definition init_candidates (n : nat) (num_mode : bool) (l : list num) : list num :=
  let l1 := num_sort l in
  match l1 with
  | [] => [if num_mode then NInt (Z.of_nat n) else NFloat (f64_of_Z 1)]
  | _ => l1
  end.

(** One user action; actions that raise leave the world as the code leaves it.  The
    boolean tells whether the action was accepted. *)
Definition step (w : world) (o : op) : world * bool :=
  match o with
  | OAlloc l => ({| heap := heap w ++ [l]; objs := objs w |}, true)
  | ONew n m arg =>
      let r := match arg with None => O | Some r => r end in
      match nth_error (heap w) r with
      | None => (w, false)
      | Some l =>
          ({| heap := upd (heap w) r (init_candidates n m l);
              objs := objs w ++ [{| os_ch := new_seq n m; os_ref := r |}] |}, true)
      end
  | OSet i v =>
      match nth_error (objs w) i with
      | None => (w, false)
      | Some ob =>
          match nth_error (heap w) (os_ref ob) with
          | None => (w, false)
          | Some l =>
              match oneshot_set l (os_ch ob) v with
              | Raise _ => (w, false)
              | Ok c => ({| heap := heap w;
                            objs := upd (objs w) i {| os_ch := c; os_ref := os_ref ob |} |}, true)
              end
          end
      end
  | OAppend i v =>
      match nth_error (objs w) i with
      | None => (w, false)
      | Some ob =>
          match nth_error (heap w) (os_ref ob) with
          | None => (w, false)
          | Some l => ({| heap := upd (heap w) (os_ref ob) (l ++ [v]); objs := objs w |}, true)
          end
      end
  end.
Definition run (h : list op) : world := fold_left (fun w o => fst (step w o)) h world0.

(** [obj_i.candidate_choices]. *)
Definition candidates (w : world) (i : nat) : option (list num) :=
  match nth_error (objs w) i with
  | None => None
  | Some ob => nth_error (heap w) (os_ref ob)
  end.

(** ** MutableValue *)

(** mutable_value.py:31-43; values are compared with [==]; [None] choice list is
    excluded ([value_list[0]] raises IndexError on an empty list). *)
Record mvalue : Type := { v_list : list num; v_cur : num; v_fixed : bool }.

(** mutable_value.py:45-58, [_check_is_same_type]. *)
Definition same_type (a b : num) : bool :=
  match a, b with NInt _, NInt _ => true | NFloat _, NFloat _ => true | _, _ => false end.
Fixpoint check_same_type (l : list num) : outcome unit :=
  match l with
  | a :: ((b :: _) as r) => if same_type a b then check_same_type r else Raise TypeError
  | _ => Ok tt
  end.

(** mutable_value.py:111-118, setter. *)
Definition value_set (v : mvalue) (x : num) : outcome mvalue :=
  if num_in x (v_list v)
  then Ok {| v_list := v_list v; v_cur := x; v_fixed := v_fixed v |}
  else Raise ValueError.

(** mutable_value.py:31-43, [__init__]. *)
Definition new_value (l : list num) (default : option num) : outcome mvalue :=
  do _ <- check_same_type l;
  match (match default with Some d => Some d | None => nth_error l 0 end) with
  | None => Raise IndexError
  | Some d => value_set {| v_list := l; v_cur := d; v_fixed := false |} d
  end.

(** mutable_value.py:189-203, [OneShotMutableValue.__init__]. *)
Definition new_oneshot_value (l : list num) (default : option num) : outcome mvalue :=
  let l' := num_sort l in
  match (match default with Some d => Some d | None => nth_error l' (length l' - 1) end) with
  | None => Raise IndexError
  | Some d => new_value l' (Some d)
  end.

(** mutable_value.py:70-82, [fix_chosen]. *)
Definition value_fix (v : mvalue) (x : num) : mvalue * outcome unit :=
  if v_fixed v then (v, Raise RuntimeError)
  else if negb (num_in x (v_list v)) then (v, Raise AssertionError)
  else match value_set v x with
       | Raise e => (v, Raise e)
       | Ok v' => ({| v_list := v_list v'; v_cur := v_cur v'; v_fixed := true |}, Ok tt)
       end.

(** mutable_value.py:213-229. *)
Definition max_choice (v : mvalue) : option num := nth_error (v_list v) (length (v_list v) - 1).
Definition min_choice (v : mvalue) : option num := nth_error (v_list v) 0.
