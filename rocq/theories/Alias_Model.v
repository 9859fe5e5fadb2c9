(** Alias tables of contrastive representation distillation:
    mmrazor/models/losses/crd_loss.py, class AliasMethod (lines 206-271).
    Tensor entries are exact rationals.  A Python list used as a stack is written with its
    last element first. *)
From Verif Require Import Prelude.
From Coq Require Import QArith.
Open Scope Q_scope.

(** [t[i] = x] of a one-dimensional tensor (crd_loss.py:228, 241, 242, 250). *)
Fixpoint upd {A} (l : list A) (i : nat) (x : A) : list A :=
  match l, i with
  | [], _ => []
  | _ :: l, O => x :: l
  | y :: l, S i => y :: upd l i x
  end.

(** [probs.sum()] (crd_loss.py:217). *)
Definition qsum (l : list Q) : Q := fold_right Qplus 0 l.

(** crd_loss.py:217-218: the vector is divided in place, so the caller sees it too. *)
Definition normalise (probs : list Q) : list Q :=
  if negb (Qle_bool (qsum probs) 1) then map (fun p => p / qsum probs) probs else probs.

(** The attributes [prob] and [alias] and the two work lists (crd_loss.py:220-226). *)
Record work := { prob : list Q; alias : list nat; smaller : list nat; larger : list nat }.

(** [x < 1.0] (crd_loss.py:229, 244). *)
Definition below (x : Q) : bool := negb (Qle_bool 1 x).

(** Append [k] to [smaller] or [larger] by its entry of [prob] (crd_loss.py:229-232, 244-247). *)
Definition file (k : nat) (w : work) : work :=
  if below (nth k (prob w) 0)
  then {| prob := prob w; alias := alias w; smaller := k :: smaller w; larger := larger w |}
  else {| prob := prob w; alias := alias w; smaller := smaller w; larger := k :: larger w |}.

(** crd_loss.py:227-232. *)
Fixpoint fill (n : nat) (kk : nat) (probs : list Q) (w : work) : work :=
  match probs with
  | [] => w
  | p :: probs =>
      fill n (S kk) probs
        (file kk {| prob := upd (prob w) kk (inject_Z (Z.of_nat n) * p); alias := alias w;
                    smaller := smaller w; larger := larger w |})
  end.

(** crd_loss.py:237-247.  Each pass takes one element off the two lists together; [fuel] is
    the number of elements they hold at first. *)
Fixpoint pair_up (fuel : nat) (w : work) : work :=
  match fuel, smaller w, larger w with
  | S fuel, small :: ss, large :: ls =>
      let q := (nth large (prob w) 0 - 1) + nth small (prob w) 0 in
      pair_up fuel
        (file large {| prob := upd (prob w) large q; alias := upd (alias w) small large;
                       smaller := ss; larger := ls |})
  | _, _, _ => w
  end.

(** crd_loss.py:249-250. *)
Definition finish (w : work) : list Q :=
  fold_left (fun pr k => upd pr k 1) (rev (smaller w) ++ rev (larger w)) (prob w).

(** [AliasMethod.__init__] (crd_loss.py:215-250): the vector the caller is left with, and
    the attributes [prob] and [alias]. *)
Definition alias_init (probs : list Q) : list Q * (list Q * list nat) :=
  let probs := normalise probs in
  let n := length probs in
  let w := fill n 0 probs {| prob := repeat 0 n; alias := repeat 0%nat n;
                             smaller := []; larger := [] |} in
  let w := pair_up (length (smaller w) + length (larger w)) w in
  (probs, (finish w, alias w)).

(** One entry of [draw] (crd_loss.py:257-271), from the random cell [kk] and the random bit
    [b]: [kk * b + alias[kk] * (1 - b)].  The Bernoulli draw rejects a probability outside
    [0, 1]. *)
Definition draw1 (t : list Q * list nat) (kk : nat) (b : nat) : nat :=
  (kk * b + nth kk (snd t) 0%nat * (1 - b))%nat.
