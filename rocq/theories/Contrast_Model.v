(** Contrastive distillation: mmrazor/models/losses/crd_loss.py without the alias sampler
    (Alias_Model.v).  Tensor entries are real numbers; a division by zero (a memory row that
    would become 0 / 0) is not modelled as NaN, the theorems exclude it. *)
From Verif Require Import Prelude Loss_Model Regress_Model.
From Coq Require Import Reals.
Open Scope R_scope.

(** ContrastLoss.forward, 83-102; one row per sample, the positive score first. *)
Definition contrast_loss (n_data : nat) (eps : R) (x : list (list R)) : R :=
  let m := INR (length (hd [] x) - 1) in
  let Pn := 1 / INR n_data in
  let log_D1 := map (fun r => ln (hd 0 r / (hd 0 r + (m * Pn + eps)))) x in
  let log_D0 := flat_map (fun r => map (fun p => ln (m * Pn / (p + (m * Pn + eps)))) (tl r)) x in
  - (rsum log_D1 + rsum log_D0) / rlen x.

(** The buffers of ContrastMemory, 121-144: the two memories and the two constants, negative
    until set. *)
Record memory := { v1 : list (list R); v2 : list (list R); z_s : R; z_t : R }.
(** index_copy_ of one row. *)
Fixpoint put {A} (l : list A) (i : nat) (x : A) : list A :=
  match l, i with
  | [], _ => []
  | _ :: r, O => x :: r
  | y :: r, S i => y :: put r i x
  end.
(** 160-172: scores of one memory against the features; [sample_idx] one row per sample. *)
Definition scores (T : R) (mem : list (list R)) (feat : list (list R)) (sample_idx : list (list nat)) : list (list R) :=
  zipw (fun f idx => map (fun k => exp (dot (nth k mem []) f / T)) idx) feat sample_idx.
(** 189-202: new rows from the old memory and the features, normalised, then copied in order. *)
Definition new_row (momentum : R) (old feat : list R) : list R :=
  let l := zipw Rplus (map (fun x => x * momentum) old) (map (fun x => x * (1 - momentum)) feat) in
  map (fun x => x / norm2 l) l.
Definition update (momentum : R) (mem : list (list R)) (feat : list (list R)) (idx : list nat) : list (list R) :=
  fold_left (fun m p => put m (fst p) (snd p))
            (combine idx (zipw (fun i f => new_row momentum (nth i mem []) f) idx feat)) mem.
(** 154-157: without given indices the drawn ones, their first column replaced by [idx]. *)
Definition sample_rows (given : option (list (list nat))) (drawn : list (list nat)) (idx : list nat) : list (list nat) :=
  match given with
  | Some s => s
  | None => zipw (fun row i => match row with [] => [] | _ :: r => i :: r end) drawn idx
  end.
(** 146-204, [ContrastMemory.forward]: the outputs (student, teacher) and the new state. *)
Definition memory_forward (T momentum : R) (st : memory) (feat_s feat_t : list (list R)) (idx : list nat)
    (given : option (list (list nat))) (drawn : list (list nat)) : (list (list R) * list (list R)) * memory :=
  let n_sample := rlen (v1 st) in
  let sample_idx := sample_rows given drawn idx in
  let out_t := scores T (v1 st) feat_t sample_idx in
  let out_s := scores T (v2 st) feat_s sample_idx in
  let zs := if Rlt_dec (z_s st) 0 then rmean (concat out_s) * n_sample else z_s st in
  let zt := if Rlt_dec (z_t st) 0 then rmean (concat out_t) * n_sample else z_t st in
  ((map (map (fun x => x / zs)) out_s, map (map (fun x => x / zt)) out_t),
   {| v1 := update momentum (v1 st) feat_s idx; v2 := update momentum (v2 st) feat_t idx; z_s := zs; z_t := zt |}).
(** CRDLoss.forward, 43-67: [loss_weight] is stored by the constructor and not used. *)
Definition crd_loss (loss_weight : R) (n_data : nat) (eps T momentum : R) (st : memory) (feat_s feat_t : list (list R))
    (idx : list nat) (given : option (list (list nat))) (drawn : list (list nat)) : R * memory :=
  let '((out_s, out_t), st') := memory_forward T momentum st feat_s feat_t idx given drawn in
  let _ := loss_weight in
  (contrast_loss n_data eps out_s + contrast_loss n_data eps out_t, st').
(** A batch, and the state after several. *)
Record cbatch := { b_s : list (list R); b_t : list (list R); b_idx : list nat;
                   b_given : option (list (list nat)); b_drawn : list (list nat) }.
Definition step (T momentum : R) (st : memory) (b : cbatch) : memory :=
  snd (memory_forward T momentum st (b_s b) (b_t b) (b_idx b) (b_given b) (b_drawn b)).
Definition steps (T momentum : R) (st : memory) (bs : list cbatch) : memory := fold_left (step T momentum) bs st.
