(** GPTQ: mmrazor/implementations/quantization/gptq and the quantization schemes of
    mmrazor/structures/quantization/qconfig.py. *)
From Coq Require Import Qround Qminmax Qabs.
From Verif Require Import Prelude.
Open Scope Z_scope.

(** torch.round: to the nearest integer, halves to the even one.  Tensors are exact rationals;
    the roundings of float and half arithmetic are not modelled. *)
Definition rnd (q : Q) : Z :=
  let f := Qfloor q in
  match (q - inject_Z f ?= 1 # 2)%Q with Lt => f | Gt => f + 1 | Eq => if Z.even f then f else f + 1 end.
Definition clamp (lo hi x : Q) : Q := Qmin (Qmax x lo) hi.

(** * quantizer.py *)
Record qparams := { scale : Q; zero : Q }.
(** configure, 26-35. *)
Definition maxq_of (bits : nat) (trits : bool) : Z := if trits then -1 else 2 ^ Z.of_nat bits - 1.
(** _quantize, 37-43, on one entry. *)
Definition quantize1 (maxq : Z) (p : qparams) (x : Q) : Q :=
  if maxq <? 0 then
    ((if negb (Qle_bool x (scale p / 2)) then scale p else 0) + (if negb (Qle_bool (zero p / 2) x) then zero p else 0))%Q
  else
    (scale p * (clamp 0 (inject_Z maxq) (inject_Z (rnd (x / scale p)) + zero p) - zero p))%Q.
(** 64-76: the observed range of one row, with 0; entry-wise on the rows. *)
Definition xrange (sym : bool) (x : list Q) : Q * Q :=
  let xmin := fold_right Qmin 0%Q x in
  let xmax := fold_right Qmax 0%Q x in
  let '(xmin, xmax) :=
    if sym then let m := Qmax (Qabs xmin) xmax in ((if Qle_bool 0 xmin then xmin else - m)%Q, m) else (xmin, xmax) in
  if Qeq_bool xmin 0 && Qeq_bool xmax 0 then ((-1)%Q, 1%Q) else (xmin, xmax).
(** 78-86. *)
Definition sym_zero (maxq : Z) : Q := (inject_Z (maxq + 1) / 2)%Q.
Definition params_of (maxq : Z) (sym : bool) (r : Q * Q) : qparams :=
  if maxq <? 0 then {| scale := snd r; zero := fst r |}
  else let s := ((snd r - fst r) / inject_Z maxq)%Q in
       {| scale := s; zero := if sym then sym_zero maxq else inject_Z (rnd (- fst r / s)) |}.
Section Mse.
  (** [abs().pow(norm)] *)
  Variable pow : Q -> Q.
  Definition err (maxq : Z) (x : list Q) (p : qparams) : Q := fold_right Qplus 0%Q (map (fun v => pow (Qabs (quantize1 maxq p v - v))) x).
  (** 88-107 (not with trits): the factors are 1 - i/grid for i below int(maxshrink*grid) = [steps]; None is inf. *)
  Definition shrunk (maxq : Z) (sym : bool) (r : Q * Q) (grid i : nat) : qparams :=
    let p := (1 - inject_Z (Z.of_nat i) / inject_Z (Z.of_nat grid))%Q in
    let r1 := (p * fst r, p * snd r)%Q in
    let s := ((snd r1 - fst r1) / inject_Z maxq)%Q in
    {| scale := s; zero := if sym then zero (params_of maxq sym r) else inject_Z (rnd (- fst r1 / s)) |}.
  Definition mse_step (maxq : Z) (sym : bool) (x : list Q) (grid : nat) (st : option Q * qparams) (i : nat) : option Q * qparams :=
    let q := shrunk maxq sym (xrange sym x) grid i in
    let e := err maxq x q in
    match fst st with
    | Some b => if negb (Qle_bool b e) then (Some e, q) else st
    | None => (Some e, q)
    end.
  Definition find_row (maxq : Z) (sym : bool) (mse : option (nat * nat)) (x : list Q) : qparams :=
    let p := params_of maxq sym (xrange sym x) in
    match mse with
    | None => p
    | Some (grid, steps) => snd (fold_left (mse_step maxq sym x grid) (seq 0 steps) (None, p))
    end.
  (** find_params(x, weight=True), 45-120: one pair per output row. *)
  Record qconfig := { q_maxq : Z; q_perchannel : bool; q_sym : bool; q_mse : option (nat * nat) }.
  Definition find_params (c : qconfig) (W : list (list Q)) : list qparams :=
    if q_perchannel c then map (find_row (q_maxq c) (q_sym c) (q_mse c)) W
    else repeat (find_row (q_maxq c) (q_sym c) (q_mse c) (concat W)) (length W).
  (** ready and quantize, 131-144, on a column: no quantization at all if some scale is 0. *)
  Definition ready (ps : list qparams) : bool := forallb (fun p => negb (Qeq_bool (scale p) 0)) ps.
  Definition quantize_col (maxq : Z) (ps : list qparams) (w : list Q) : list Q :=
    if ready ps then map (fun x => quantize1 maxq (fst x) (snd x)) (combine ps w) else w.

  (** * gptq.py *)
  (** Matrices (out x in) are lists of columns here; [rows_of n] gives the rows. *)
  Definition cols := list (list Q).
  Definition rows_of (n : nat) (W : cols) : list (list Q) := map (fun r => map (fun c => nth r c 0%Q) W) (seq 0 n).
  (** [W[:, i:] -= err.outer(h)]; the first column of W1 is the current one. *)
  Definition axpy (e : list Q) (h : list Q) (W : cols) : cols :=
    map (fun p : Q * list Q => map (fun q : Q * Q => snd q - fst q * fst p)%Q (combine e (snd p))) (combine h W).
  (** The state: parameters of the quantizer, and the scales and zeros collected per group. *)
  Record gstate := { cur : list qparams; now_idx : Z; groups : list (list qparams) }.
  (** 267-276, for column number [c] (groupsize None is -1). *)
  Definition regroup (cf : qconfig) (n : nat) (gs : option nat) (W : cols) (c : nat) (s : gstate) : gstate :=
    match gs with
    | None => s
    | Some g =>
        let ps := if Nat.eqb (c mod g) 0 then find_params cf (rows_of n (firstn g (skipn c W))) else cur s in
        if Z.of_nat (c / g) - now_idx s =? -1
        then {| cur := ps; now_idx := now_idx s + 1; groups := groups s ++ [ps] |}
        else {| cur := ps; now_idx := now_idx s; groups := groups s |}
    end.
  (** 263-286: the columns of a block.  [hs]: the rows [Hinv1[i, i:]]. *)
  Fixpoint quant_block (cf : qconfig) (n : nat) (gs : option nat) (W : cols) (c : nat) (hs : list (list Q)) (W1 : cols) (s : gstate)
    : cols * cols * gstate :=
    match hs, W1 with
    | h :: hs', w :: rest =>
        let s1 := regroup cf n gs W c s in
        let q := quantize_col (q_maxq cf) (cur s1) w in
        let d := hd 0%Q h in
        let e := map (fun p : Q * Q => (fst p - snd p) / d)%Q (combine w q) in
        let '(qs, es, s2) := quant_block cf n gs W (S c) hs' (axpy e (tl h) rest) s1 in
        (q :: qs, e :: es, s2)
    | _, _ => ([], [], s)
    end.
  (** 253-291: the blocks.  [done]: the columns of W before the current block (they are not
      written any more).  [hinv]: the rows [Hinv[i, i:]]. *)
  Fixpoint quant_blocks (cf : qconfig) (n : nat) (gs : option nat) (sizes : list nat) (done : cols) (hinv : list (list Q)) (W : cols) (s : gstate)
    : cols * cols * gstate :=
    match sizes with
    | [] => ([], done ++ W, s)
    | b :: sizes' =>
        let hs := firstn b hinv in
        let block_hs := map (fun p : nat * list Q => firstn (b - fst p) (snd p)) (combine (seq 0 b) hs) in
        let '(qs, es, s1) := quant_block cf n gs (done ++ W) (length done) block_hs (firstn b W) s in
        let trail := fold_left (fun T (p : list Q * (nat * list Q)) => axpy (fst p) (skipn (b - fst (snd p)) (snd (snd p))) T)
                       (combine es (combine (seq 0 b) hs)) (skipn b W) in
        let '(qs', W', s2) := quant_blocks cf n gs sizes' (done ++ firstn b W) (skipn b hinv) trail s1 in
        (qs ++ qs', W', s2)
    end.
  Definition block_sizes (columns blocksize : nat) : list nat :=
    repeat blocksize (columns / blocksize) ++ (if Nat.eqb (columns mod blocksize) 0 then [] else [columns mod blocksize])%nat.
  Definition take_cols {A} (d : A) (perm : list nat) (l : list A) : list A := map (fun i => nth i l d) perm.
  (** argsort of a permutation: its inverse. *)
  Fixpoint index_of (x : nat) (l : list nat) : nat := match l with [] => 0%nat | y :: r => if Nat.eqb y x then 0%nat else S (index_of x r) end.
  Definition inverse (perm : list nat) : list nat := map (fun k => index_of k perm) (seq 0 (length perm)).
  Definition kill (dead : list bool) (W : cols) : cols := map (fun p : bool * list Q => if fst p then map (fun _ => 0%Q) (snd p) else snd p) (combine dead W).
  (** quant, 213-313.  [dead], [perm] (the order for actorder) and [hinv] (None: a Cholesky
      factorisation failed) come from the Hessian; [cuda]: torch.cuda.synchronize() works;
      [alias]: W shares the memory of the weight (a float weight).  The result is the weight
      afterwards and, on success, the scales and zeros per group and the group of each column. *)
  Definition quant (cf : qconfig) (n : nat) (gs : option nat) (blocksize : nat) (dead : list bool) (perm : option (list nat))
      (hinv : option (list (list Q))) (alias cuda : bool) (W : cols) : cols * outcome (list (list qparams) * list nat) :=
    let ps0 := find_params cf (rows_of n W) in
    let W0 := kill dead W in
    let fail w e := (if alias then w else W, Raise e) in
    match hinv with
    | None => fail W0 RuntimeError
    | Some hv =>
        let W1 := match perm with Some p => take_cols [] p W0 | None => W0 end in
        let '(Q, W2, s) := quant_blocks cf n gs (block_sizes (length W) blocksize) [] hv W1 {| cur := ps0; now_idx := 1; groups := [] |} in
        if negb cuda then fail (match perm with Some _ => W0 | None => W2 end) AssertionError
        else
          let g := match gs with Some g => g | None => length W end in
          let g_idx := map (fun i => (i / g)%nat) (seq 0 (length W)) in
          let grp := match groups s with [] => [cur s] | l => l end in
          match perm with
          | Some p => (take_cols [] (inverse p) Q, Ok (grp, take_cols 0%nat (inverse p) g_idx))
          | None => (Q, Ok (grp, g_idx))
          end
    end.
End Mse.

(** * pack, gptq.py 157-210, and the decoding of ops.py 146-179.  Converting -1 to uint32 gives
    2^32 - 1 (x86); the scales are not rounded to half precision. *)
Definition u32 (z : Z) : Z := z mod 2 ^ 32.
Definition i32 (z : Z) : Z := if z <? 2 ^ 31 then z else z - 2 ^ 32.
(** 177-191 for one column, 196-209 for one row: 32/bits values per word; values that do not
    fill a block of 32 are dropped. *)
Definition pack_word (bits : Z) (vals : list Z) (row : nat) : Z :=
  let per := Z.to_nat (32 / bits) in
  fold_left (fun w j => Z.lor w (u32 (Z.shiftl (nth (row * per + j) vals 0) (bits * Z.of_nat j)))) (seq 0 per) 0.
Definition pack_words (bits : Z) (vals : list Z) : list Z :=
  map (fun r => i32 (pack_word bits (map u32 vals) r)) (seq 0 (length vals / 32 * Z.to_nat bits)).
Definition supported (bits : Z) : bool := (bits =? 2) || (bits =? 4) || (bits =? 8).
Record packed := { qweight : list (list Z); qzeros : list (list Z); p_scales : list (list Q); p_gidx : list nat }.
(** [weight]: the columns, one per input; [grp]: per group one pair per output; qweight is
    kept per output here. *)
Definition pack (bits : Z) (n : nat) (weight : list (list Q)) (grp : list (list qparams)) (g_idx : list nat) : outcome packed :=
  let ints := map (fun p : nat * list Q =>
      map (fun q : qparams * Q => rnd ((snd q + zero (fst q) * scale (fst q)) / scale (fst q))) (combine (nth (fst p) grp []) (snd p)))
      (combine g_idx weight) in
  if negb (supported bits) then Raise NotImplementedError else
  Ok {| qweight := map (fun r => pack_words bits (map (fun c => nth r c 0) ints)) (seq 0 n);
        qzeros := map (fun ps => pack_words bits (map (fun p => Qfloor (zero p) - 1) ps)) grp;
        p_scales := map (map scale) grp; p_gidx := g_idx |}.
(** ops.py 146-155, 169-170, 178-179. *)
Definition unpack (bits : Z) (words : list Z) (k : nat) : Z :=
  let per := Z.to_nat (32 / bits) in
  Z.land (Z.shiftr (nth (k / per) words 0) (Z.of_nat (k mod per) * bits)) (2 ^ bits - 1).
Definition kernel_weight (bits : Z) (p : packed) (r k : nat) : Q :=
  let g := nth k (p_gidx p) 0%nat in
  let z := unpack bits (nth g (qzeros p) []) r + 1 in
  (inject_Z (unpack bits (nth r (qweight p) []) k - z) * nth r (nth g (p_scales p) []) 0)%Q.
(** TritonGPTQLinear.forward, ops.py 480-493, after quant (the weight is deleted): which
    weights the layer multiplies with. *)
Definition triton_weight (bits : Z) (p : packed) : outcome (nat -> nat -> Q) :=
  if forallb (forallb (fun w => w =? 0)) (qweight p) then Raise AttributeError else Ok (kernel_weight bits p).

(** * qconfig.py *)
Inductive qdtype := Quint8 | Qint8.
Inductive pval := PDtype (d : qdtype) | PInt (z : Z) | PScheme (per_channel symmetric : bool) | PBool (b : bool) | POther (s : string).
Record handler := { h_dtype : qdtype; h_bit : Z; h_sym : bool; h_per_channel : bool; h_symrange : bool; h_kwargs : list (string * pval) }.
Fixpoint get {A} (k : string) (l : list (string * A)) : option A :=
  match l with [] => None | (k', v) :: r => if String.eqb k' k then Some v else get k r end.
Fixpoint put {A} (k : string) (v : A) (l : list (string * A)) : list (string * A) :=
  match l with [] => [(k, v)] | (k', v') :: r => if String.eqb k' k then (k, v) :: r else (k', v') :: put k v r end.
Definition truthy (v : pval) : bool := match v with PInt z => negb (z =? 0) | PBool b => b | POther s => negb (String.eqb s "") | _ => true end.
(** __init__, 42-66; the dtype is given by its name. *)
Definition new_handler (dtype : string) (bit : Z) (sym per_channel : bool) (kwargs : list (string * pval)) : outcome handler :=
  do d <- (if String.eqb dtype "quint8" then Ok Quint8 else if String.eqb dtype "qint8" then Ok Qint8 else Raise AssertionError);
  Ok {| h_dtype := d; h_bit := bit; h_sym := sym; h_per_channel := per_channel;
        h_symrange := match get "is_symmetric_range" kwargs with Some v => truthy v | None => false end;
        h_kwargs := filter (fun p => negb (String.eqb (fst p) "is_symmetric_range")) kwargs |}.
(** to_observer_params, 68-92 (bit >= 1: the powers are integers). *)
Definition quant_range (h : handler) : Z * Z :=
  match h_dtype h with
  | Quint8 => (0, 2 ^ h_bit h - 1)
  | Qint8 => ((if h_symrange h then - 2 ^ (h_bit h - 1) + 1 else - 2 ^ (h_bit h - 1)), 2 ^ (h_bit h - 1) - 1)
  end.
Definition naive_para (h : handler) : list (string * pval) :=
  [("dtype"%string, PDtype (h_dtype h)); ("quant_min"%string, PInt (fst (quant_range h))); ("quant_max"%string, PInt (snd (quant_range h)));
   ("qscheme"%string, PScheme (h_per_channel h) (h_sym h)); ("reduce_range"%string, PBool false)]
  ++ (if h_per_channel h then [("ch_axis"%string, PInt 0)] else []).
Definition to_observer_params (h : handler) : list (string * pval) := fold_left (fun d p => put (fst p) (snd p) d) (naive_para h) (h_kwargs h).
(** check_qconfig, 143-153; a value is a dict or not. *)
Definition required : list string := ["w_qscheme"; "a_qscheme"; "w_fake_quant"; "a_fake_quant"; "w_observer"; "a_observer"]%string.
Fixpoint check_args (args : list string) (c : list (string * bool)) : bool :=
  match args with [] => true | a :: r => match get a c with Some true => check_args r c | _ => false end end.
Definition check_qconfig (c : list (string * bool)) : bool := check_args required c.
(** replace_fakequant, 162-186: observer, arguments and copied parameters. *)
Definition retained (per_channel : bool) : list string :=
  ["dtype"; "qscheme"; "quant_min"; "quant_max"; "reduce_range"]%string ++ (if per_channel then ["ch_axis"%string] else []).
Definition deploy_args (h : handler) : string * list (string * pval) :=
  let kw := to_observer_params h in
  let per_channel := match get "qscheme" kw with Some (PScheme c _) => c | _ => false end in
  (if per_channel then "PerChannelMinMaxObserver"%string else "MinMaxObserver"%string,
   filter (fun p => existsb (String.eqb (fst p)) (retained per_channel)) kw).
