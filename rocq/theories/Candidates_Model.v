(** Model of mmrazor/structures/subnet/candidate.py (class Candidates) and
    mmrazor/engine/runner/utils/check.py. *)
From Verif Require Import Prelude.

(** candidate.py:39, [_indicators]. *)
Inductive indicator : Type := Score | Flops | Params | Latency.
Definition ind_eqb (a b : indicator) : bool :=
  match a, b with
  | Score, Score | Flops, Flops | Params, Params | Latency, Latency => true
  | _, _ => false
  end.
(** The indicator entries of a value dictionary; other entries are not modelled. *)
Definition vals : Type := indicator -> option Q.
Definition vset (v : vals) (k : indicator) (x : Q) : vals :=
  fun k' => if ind_eqb k' k then Some x else v k'.

(** A candidate dictionary: its keys (the printed subnet, or 'value_subnet' and
    'channel_subnet') and the value dictionaries. *)
Definition obj : Type := list (string * vals).
(** Dictionaries are shared by reference: the heap maps object numbers to dictionaries and
    the collection [self.data] is a list of object numbers. *)
Record world : Type := { w_heap : list obj; w_data : list nat }.
Definition w_empty : world := {| w_heap := []; w_data := [] |}.

(** What callers pass: a plain subnet (printed by [str]) or an existing dictionary of
    dictionaries, by reference. *)
Inductive item : Type := Plain (subnet : string) | Ref (id : nat).

Fixpoint hupd (h : list obj) (i : nat) (f : obj -> obj) : list obj :=
  match h, i with
  | [], _ => []
  | o :: r, O => f o :: r
  | o :: r, S i => o :: hupd r i f
  end.

(** candidate.py:110-119, [_format_item]. *)
Definition setdefault (v : vals) (k : indicator) (x : Q) : vals :=
  match v k with Some _ => v | None => vset v k x end.
Definition fill (v : vals) : vals :=
  fold_left (fun v k => setdefault v k 0) [Score; Flops; Params; Latency] v.
Definition fresh_vals : vals := fun _ => Some (-1)%Q.
Definition format_item (h : list obj) (it : item) : outcome (list obj * nat) :=
  match it with
  | Plain s => Ok (h ++ [[(s, fresh_vals)]], length h)
  | Ref id =>
      match nth_error h id with
      | None => Raise IndexError            (* not a dictionary of the program *)
      | Some [] => Raise IndexError         (* list(cond.values())[0] *)
      | Some _ => Ok (hupd h id (map (fun p => (fst p, fill (snd p)))), id)
      end
  end.
Fixpoint format_items (h : list obj) (its : list item) : outcome (list obj * list nat) :=
  match its with
  | [] => Ok (h, [])
  | it :: r =>
      do hi <- format_item h it;
      let '(h1, i) := hi in
      do hr <- format_items h1 r;
      let '(h2, is_) := hr in
      Ok (h2, i :: is_)
  end.

(** candidate.py:130-136 and 143-149, [append] and [extend] of one or several items. *)
Definition extend (w : world) (its : list item) : outcome world :=
  do hr <- format_items (w_heap w) its;
  Ok {| w_heap := fst hr; w_data := w_data w ++ snd hr |}.
(** candidate.py:138-141, [insert] of one item (list arguments not modelled). *)
Definition insert_pos (n : nat) (i : Z) : nat :=
  if i <? 0 then Z.to_nat (Z.max 0 (Z.of_nat n + i)) else Nat.min n (Z.to_nat i).
Definition insert (w : world) (i : Z) (it : item) : outcome world :=
  do hi <- format_item (w_heap w) it;
  let p := insert_pos (length (w_data w)) i in
  Ok {| w_heap := fst hi;
        w_data := firstn p (w_data w) ++ snd hi :: skipn p (w_data w) |}.

(** Python list indexing [l[i]]. *)
Definition py_nth {A} (l : list A) (i : Z) : option A :=
  if i <? 0
  then if Z.of_nat (length l) + i <? 0 then None else nth_error l (Z.to_nat (Z.of_nat (length l) + i))
  else nth_error l (Z.to_nat i).
Definition set_parts (k : indicator) (x : Q) (o : obj) : obj :=
  map (fun p => (fst p, vset (snd p) k x)) o.
(** candidate.py:155-162, [set_resource] (and [set_score]). *)
Definition set_resource (w : world) (i : Z) (x : Q) (k : indicator) : outcome world :=
  match py_nth (w_data w) i with
  | None => Raise IndexError
  | Some id => Ok {| w_heap := hupd (w_heap w) id (set_parts k x); w_data := w_data w |}
  end.
(** candidate.py:164-171, [update_resources] ([start] >= 0). *)
Definition upd_parts (res : list (indicator * Q)) (o : obj) : obj :=
  map (fun p => (fst p, fold_left (fun v kx => vset v (fst kx) (snd kx)) res (snd p))) o.
Fixpoint update_loop (h : list obj) (ids : list nat) (rs : list (list (indicator * Q))) : list obj :=
  match ids, rs with
  | id :: ids, r :: rs => update_loop (hupd h id (upd_parts r)) ids rs
  | _, _ => h
  end.
Definition update_resources (w : world) (rs : list (list (indicator * Q))) (start : nat)
  : outcome world :=
  do _ <- assert_ (start + length rs <=? length (w_data w))%nat;
  Ok {| w_heap := update_loop (w_heap w) (firstn (length rs) (skipn start (w_data w))) rs;
        w_data := w_data w |}.

(** candidate.py:173-184, [sort_by]: a stable sort by the first value dictionary. *)
Definition sort_key (h : list obj) (k : indicator) (id : nat) : outcome Q :=
  match nth_error h id with
  | Some ((_, v) :: _) => match v k with Some x => Ok x | None => Raise KeyError end
  | _ => Raise IndexError
  end.
Section StableSort.
Context {A : Type} (before : A -> A -> bool).   (* [before x y]: x must precede y *)
(** Stable insertion sort: an element is inserted before the first one that is not
    required to precede it. *)
Fixpoint stable_insert (x : A) (l : list A) : list A :=
  match l with
  | [] => [x]
  | y :: r => if before y x then y :: stable_insert x r else x :: l
  end.
Definition stable_sort (l : list A) : list A := fold_right stable_insert [] l.
End StableSort.
Definition sort_by (w : world) (k : indicator) (reverse : bool) : outcome world :=
  do ks <- mapM (sort_key (w_heap w) k) (w_data w);
  let before (a b : Q * nat) := if reverse then negb (Qle_bool (fst a) (fst b))
                                else negb (Qle_bool (fst b) (fst a)) in
  Ok {| w_heap := w_heap w; w_data := map snd (stable_sort before (combine ks (w_data w))) |}.

(** candidate.py:50-56 (before rounding) and 58-64: one number per value dictionary. *)
Definition column (w : world) (k : indicator) : list Q :=
  flat_map (fun id => match nth_error (w_heap w) id with
                      | Some o => map (fun p => match snd p k with Some x => x | None => 0%Q end) o
                      | None => []
                      end) (w_data w).
(** candidate.py:66-83, [subnets]: for printed subnets, one per key; for the
    'value_subnet' format, one per entry.  The subnet is represented by its printed form,
    resp. by the constant "value_subnet". *)
Definition subnets (w : world) : outcome (list string) :=
  match w_data w with
  | [] => Raise AssertionError
  | id0 :: _ =>
      match nth_error (w_heap w) id0 with
      | Some o =>
          if existsb (fun p => String.eqb (fst p) "value_subnet") o
          then Ok (map (fun _ => "value_subnet"%string) (w_data w))
          else Ok (flat_map (fun id => match nth_error (w_heap w) id with
                                       | Some o => map fst o | None => [] end) (w_data w))
      | None => Raise IndexError
      end
  end.

(** Histories of calls. [NewDict] is the caller creating a dictionary of dictionaries. *)
Inductive ccall : Type :=
| NewDict (o : obj)
| Extend (its : list item)
| Insert (i : Z) (it : item)
| SetResource (i : Z) (x : Q) (k : indicator)
| UpdateResources (rs : list (list (indicator * Q))) (start : nat)
| SortBy (k : indicator) (reverse : bool).
Definition cexec (w : world) (c : ccall) : outcome world :=
  match c with
  | NewDict o => Ok {| w_heap := w_heap w ++ [o]; w_data := w_data w |}
  | Extend its => extend w its
  | Insert i it => insert w i it
  | SetResource i x k => set_resource w i x k
  | UpdateResources rs st => update_resources w rs st
  | SortBy k r => sort_by w k r
  end.
Definition crun (cs : list ccall) : world :=
  fold_left (fun w c => match cexec w c with Ok w' => w' | Raise _ => w end) cs w_empty.

(** ** check.py *)

(** A constraint: a pair of bounds, or a single number (check.py:43-44). *)
Inductive constraint : Type := Between (lo hi : Q) | AtMost (hi : Q).
(** check.py:29, 42-48, given the estimated [results]; [None] for [constraints_range=None]. *)
Fixpoint check_loop (results : list (string * Q)) (cs : list (string * constraint)) : outcome bool :=
  match cs with
  | [] => Ok true
  | (k, c) :: r =>
      let '(lo, hi) := match c with Between lo hi => (lo, hi) | AtMost hi => (0%Q, hi) end in
      match find (fun p => String.eqb (fst p) k) results with
      | None => Raise KeyError
      | Some p =>
          if negb (Qle_bool lo (snd p)) || negb (Qle_bool (snd p) hi) then Ok false
          else check_loop results r
      end
  end.
Definition check_resources (results : list (string * Q)) (cs : option (list (string * constraint)))
  : outcome bool :=
  match cs with None => Ok true | Some cs => check_loop results cs end.
