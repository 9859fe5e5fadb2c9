(** Configuring and deploying quantized models: models/quantizers/{native,academic,openvino,tensorrt}_quantizer.py (constructors, qconfig
    mappings, post_process_for_deploy, the paths of exported files), models/utils/quantization_util.py (pop_rewriter_function_record) and the
    handling of rewriter records in models/algorithms/quantization/mm_architecture.py.

    Classes are known by strings.  Numbers are exact rationals.  MinMaxObserver, FakeQuantize, QConfigMapping and to_float are torch code. *)
From Coq Require Import String Ascii QArith Qminmax.
From Verif Require Import Prelude Gptq_Model Onnx_Model CustomTracer_Model.
Local Open Scope string_scope.
Local Open Scope list_scope.
Local Open Scope nat_scope.

(** ** Qconfig mappings *)
Section Mapping.
Context {QC Cfg : Type}.
Variable fc : string -> string -> found string.
(** native_quantizer.py 134-144: the modes of weights and activations against the supported ones.  support_a_modes is the string
    'per_tensor', so the second test looks for a substring. *)
Definition mode (per_channel : bool) : string := if per_channel then "per_channel" else "per_tensor".
Definition is_substring (a b : string) : bool := match String.index 0 a b with Some _ => true | None => false end.
Definition check_modes (w_per_channel a_per_channel : bool) : outcome unit :=
  do _ <- assert_ (mem (mode w_per_channel) ["per_tensor"; "per_channel"]);
  assert_ (is_substring (mode a_per_channel) "per_tensor").
(** native_quantizer.py 155-187, gen_qconfig_mapping: the global qconfig and those of classes; [fixed] are the operations of torch with
    fixed parameters and the qconfig made for each. *)
Definition native_mapping (global : QC) (fixed : list (string * QC)) (no_observer : option (list string)) : outcome (QC * list (string * option QC)) :=
  do d <- (match no_observer with None => Ok [] | Some l => do cs <- str2classes fc l; Ok (fold_left (fun d c => put d c None) cs []) end);
  Ok (global, fold_left (fun d oq => put d (fst oq) (Some (snd oq))) fixed d).
(** The qconfig torch uses for modules of a class; None: they are not observed. *)
Definition qconfig_of (m : QC * list (string * option QC)) (cls : string) : option QC :=
  match get (snd m) cls with Some q => q | None => Some (fst m) end.

(** academic_quantizer.py 128-151, gen_qconfig_mapping; [convert] is QConfigHandler(cfg).convert(). *)
Variable convert : Cfg -> outcome QC.
Record acfg : Type := { c_global : option Cfg; c_types : list (string * Cfg); c_names : list (string * Cfg) }.
Record amap : Type := { m_global : option QC; m_types : list (string * QC); m_names : list (string * QC) }.
Fixpoint set_types (l : list (string * Cfg)) (d : list (string * QC)) : outcome (list (string * QC)) :=
  match l with [] => Ok d | (s, c) :: r => do q <- convert c; do k <- str2class fc s; set_types r (put d k q) end.
Fixpoint set_names (l : list (string * Cfg)) (d : list (string * QC)) : outcome (list (string * QC)) :=
  match l with [] => Ok d | (n, c) :: r => do q <- convert c; set_names r (put d n q) end.
Definition academic_mapping (c : acfg) : outcome amap :=
  do g <- (match c_global c with None => Ok None | Some x => do q <- convert x; Ok (Some q) end);
  do t <- set_types (c_types c) [];
  do n <- set_names (c_names c) [];
  Ok {| m_global := g; m_types := t; m_names := n |}.
(** What torch uses for the module of that name and class. *)
Definition academic_qconfig (m : amap) (name cls : string) : option QC :=
  match get (m_names m) name with Some q => Some q | None => match get (m_types m) cls with Some q => Some q | None => m_global m end end.
End Mapping.
Arguments acfg : clear implicits.
Arguments amap : clear implicits.

(** ** Rewriter records *)
Section Records.
Context {F M : Type}.
Definition remove (k : string) (d : list (string * F)) : list (string * F) := filter (fun kv => negb (String.eqb (fst kv) k)) d.
(** quantization_util.py 5-24: the backup and the records left. *)
Fixpoint pop_records (l : list string) (backup records : list (string * F)) : list (string * F) * list (string * F) :=
  match l with
  | [] => (backup, records)
  | k :: r => match get records k with Some f => pop_records r (put backup k f) (remove k records) | None => pop_records r backup records end
  end.
(** mm_architecture.py 291-302: one graph for each mode; [prepare] sees the records. *)
Fixpoint prepare_modes (prepare : list (string * F) -> string -> outcome M) (records : list (string * F)) (modes : list string) : outcome (list (string * M)) :=
  match modes with [] => Ok [] | m :: r => do q <- prepare records m; do qs <- prepare_modes prepare records r; Ok ((m, q) :: qs) end.
(** _build_qmodels (256-307) with _pop_function_record_in_rewriter_context (233-254): [cfg] is the deployment configuration, if there is one, with its
    function_record_to_pop; what is returned, the configuration and the records afterwards. *)
Definition build_qmodels (prepare : list (string * F) -> string -> outcome M) (modes skipped : list string) (cfg : option (option (list string))) (records : list (string * F))
  : outcome (list (string * M)) * option (option (list string)) * list (string * F) :=
  match cfg with
  | None => (prepare_modes prepare records modes, None, records)
  | Some listed =>
      let to_pop := (match listed with Some l => l | None => [] end) ++ skipped in
      let cfg' := match listed with Some _ => Some to_pop | None => None end in
      let (backup, left) := pop_records to_pop [] records in
      match prepare_modes prepare left modes with
      | Raise e => (Raise e, Some cfg', left)
      | Ok qs => (Ok qs, Some cfg', fold_left (fun d kv => put d (fst kv) (snd kv)) backup left)
      end
  end.
End Records.

(** ** Fake quantization *)
Section FakeQuant.
Local Open Scope Z_scope.
(** What a FakeQuantize computes of one number with its scale, its zero point and the range of its scheme. *)
Definition zclamp (lo hi z : Z) : Z := Z.min (Z.max z lo) hi.
Definition fq (lo hi : Z) (p : Q * Z) (x : Q) : Q := (fst p * inject_Z (zclamp lo hi (rnd (x / fst p) + snd p) - snd p))%Q.
(** The scheme of weights: symmetric or affine, qint8 or quint8, the range (qconfig.py, C49). *)
Record scheme : Type := { symmetric : bool; signed : bool; lo : Z; hi : Z }.
(** calculate_qparams of a MinMaxObserver that has seen the numbers [ws]; [eps] bounds scales from below. *)
Definition qparams_of (eps : Q) (s : scheme) (ws : list Q) : Q * Z :=
  let mn := fold_right Qmin 0%Q ws in
  let mx := fold_right Qmax 0%Q ws in
  if symmetric s then
    (Qmax (Qmax (- mn) mx / (inject_Z (hi s - lo s) / 2)) eps, if signed s then 0 else (lo s + hi s) / 2)
  else
    let sc := Qmax ((mx - mn) / inject_Z (hi s - lo s)) eps in
    (sc, zclamp (lo s) (hi s) (lo s - rnd (mn / sc))).
End FakeQuant.

(** ** Deployment *)
Section Deploy.
Variables (eps : Q) (s : scheme).
(** A module: a QAT module with its class, weights and the parameters of its weight_fake_quant, one that is neither and has no such module in it, or any
    other module with its children.  Weights are lists of channels (one channel when the scheme is per tensor), each with its own parameters.  No module is
    shared. *)
Inductive dmod : Type :=
  | DQat (cls : string) (w : list (list Q)) (p : list (Q * Z))
  | DFloat (cls : string) (w : list (list Q))
  | DOther (id : nat) (cs : list (string * dmod)).
(** child.to_float(): the class of the float module, and its weights after batch norms are folded. *)
Variable float_class : string -> string.
Variable fold_bn : string -> list (list Q) -> list (list Q).
(** MERGE_BN_MAPPINGS (native_quantizer.py 59-68), of a class that is in it. *)
Variable merge_bn : string -> option string.
Definition fq_weights (w : list (list Q)) (p : list (Q * Z)) : list (list Q) := map (fun cp => map (fq (lo s) (hi s) (snd cp)) (fst cp)) (combine w p).
(** native_quantizer.py 276-324, of one QAT module. *)
Definition deploy1 (update keep : bool) (cls : string) (w : list (list Q)) (p : list (Q * Z)) : dmod :=
  let f := fold_bn cls w in
  let f := if update then fq_weights f p else f in
  if keep then DQat (match merge_bn cls with Some c => c | None => cls end) f (map (qparams_of eps s) f)
  else DFloat (float_class cls) f.
Fixpoint traverse (update keep : bool) (t : dmod) : dmod :=
  match t with
  | DQat cls w p => deploy1 update keep cls w p
  | DFloat _ _ => t
  | DOther i cs => DOther i (map (fun nc => (fst nc, traverse update keep (snd nc))) cs)
  end.
(** post_process_for_deploy (253-328): the root itself is not replaced. *)
Definition post_process (update keep : bool) (t : dmod) : dmod := match t with DOther _ _ => traverse update keep t | _ => t end.
End Deploy.

(** ** Exported files *)
(** str.replace. *)
Fixpoint strip (p s : string) : option string :=
  match p, s with
  | EmptyString, _ => Some s
  | String a p', String b s' => if Ascii.eqb a b then strip p' s' else None
  | String _ _, EmptyString => None
  end.
Fixpoint replace_fuel (n : nat) (old new s : string) : string :=
  match n with
  | O => s
  | S n' =>
      match s with
      | EmptyString => EmptyString
      | String c r => match strip old s with Some rest => (new ++ replace_fuel n' old new rest)%string | None => String c (replace_fuel n' old new r) end
      end
  end.
Definition replace (old new s : string) : string := replace_fuel (String.length s) old new s.
(** openvino_quantizer.py 52 and tensorrt_quantizer.py 50: the file torch.onnx.export writes, from which the exporter writes [output_path]. *)
Definition symbolic_path (output_path : string) : string := replace ".onnx" "_symbolic.onnx" output_path.
