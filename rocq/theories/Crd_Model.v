(** mmrazor/datasets/crd_dataset_wrapper.py *)
From Verif Require Import Prelude.
Open Scope Z_scope.

(** 81-88: the indices of each class, in order; a label outside the classes is an IndexError.
    Labels are natural numbers here. *)
Definition positions (labels : list nat) (c : nat) : list nat :=
  filter (fun i => Nat.eqb (nth i labels 0%nat) c) (seq 0 (length labels)).
(** 90-97: per class the indices of all other classes, class by class. *)
Definition negatives (labels : list nat) (num : nat) (c : nat) : list nat :=
  flat_map (fun j => if Nat.eqb j c then [] else positions labels j) (seq 0 num).
(** 76-77: without num_classes it is the largest label plus one; max of nothing is a ValueError. *)
Definition classes_of (num : option nat) (labels : list nat) : outcome nat :=
  match num with
  | Some n => Ok n
  | None => match labels with [] => Raise ValueError | _ => Ok (S (fold_right Nat.max 0%nat labels)) end
  end.
(** np.asarray of a list of arrays: rows of different lengths are kept as objects by old numpy
    versions ([ragged]) and refused by versions from 1.24 on. *)
Definition asarray (ragged : bool) (rows : list (list nat)) : outcome (list (list nat)) :=
  if ragged || forallb (fun r => Nat.eqb (length r) (length (hd [] rows))) rows then Ok rows else Raise ValueError.
Inductive smode := Exact | Random | OtherMode.
Record crd := { c_labels : list nat; c_pos : list (list nat); c_neg : list (list nat) }.
(** _parse_fullset_contrast_info, 64-118, outside test mode. [shuffle c l] is the result of
    np.random.permutation for class c; the percentage is an exact rational. *)
Definition parse (ragged : bool) (mode : smode) (num : option nat) (percent : Q) (shuffle : nat -> list nat -> list nat) (labels : list nat) : outcome crd :=
  do _ <- assert_ (match mode with OtherMode => false | _ => true end);
  do k <- classes_of num labels;
  if negb (forallb (fun l => Nat.ltb l k) labels) then Raise IndexError else
  let neg := map (negatives labels k) (seq 0 k) in
  do neg <- (if negb (Qle_bool percent 0) && negb (Qle_bool 1 percent) then
               match neg with
               | [] => Raise IndexError
               | n0 :: _ => let n := Z.to_nat (Qtrunc (inject_Z (Z.of_nat (length n0)) * percent)) in
                   Ok (map (fun c => firstn n (shuffle c (nth c neg []))) (seq 0 k))
               end
             else Ok neg);
  do pos <- asarray ragged (map (positions labels) (seq 0 k));
  do neg <- asarray ragged neg;
  Ok {| c_labels := labels; c_pos := pos; c_neg := neg |}.
(** np.random.choice(a, size, replace): [pick] gives the drawn positions; what it draws may
    depend on the three arguments of the call. *)
Definition choice (a : list nat) (size : nat) (replace : bool) (pick : nat -> nat -> bool -> list nat) : outcome (list nat) :=
  if Nat.eqb (length a) 0 && negb (Nat.eqb size 0) then Raise ValueError
  else if negb replace && Nat.ltb (length a) size then Raise ValueError
  else Ok (map (fun i => nth i a 0%nat) (pick (length a) size replace)).
(** _get_contrast_info, 129-149: the positive index, then the negative ones. *)
Definition contrast (mode : smode) (neg_num : nat) (d : crd) (ppick npick : nat -> nat -> bool -> list nat) (idx : nat) : outcome (list nat) :=
  let l := nth idx (c_labels d) 0%nat in
  do pos <- match mode with
            | Exact => Ok idx
            | Random => do r <- choice (nth l (c_pos d) []) 1 true ppick; Ok (hd 0%nat r)
            | OtherMode => Raise NotImplementedError
            end;
  let a := nth l (c_neg d) [] in
  do neg <- choice a neg_num (Nat.ltb (length a) neg_num) npick;
  Ok (pos :: neg).

(** __getitem__, 186-228. [prepare t i]: what prepare_data returns at the t-th attempt for
    sample i (None: broken); [another t]: _rand_another. *)
Section Item.
  Context {A : Type}.
  Variable prepare : nat -> nat -> outcome (option A).
  Variable another : nat -> nat.
  Fixpoint fetch (rest t idx : nat) : outcome (nat * nat * A) :=
    match rest with
    | O => Raise GenericException
    | S rest => do d <- prepare t idx;
        match d with Some a => Ok (t, idx, a) | None => fetch rest (S t) (another t) end
    end.
  (** The attempt, the sample and its data. *)
  Definition getitem (test_mode : bool) (max_refetch : nat) (idx : nat) : outcome (nat * nat * A) :=
    if test_mode then do d <- prepare 0%nat idx; match d with Some a => Ok (0%nat, idx, a) | None => Raise GenericException end
    else fetch (S max_refetch) 0%nat idx.
End Item.
