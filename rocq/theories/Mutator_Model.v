(** Model of mmrazor/models/mutators/channel_mutator/{channel,slimmable,one_shot}_channel_mutator.py,
    of mutable_channel/units/{channel_unit,mutable_channel_unit,utils}.py and of the choice-related
    parts of the units in sequential_, one_shot_ and slimmable_channel_unit.py. *)
From Verif Require Import Prelude PyNum Channel_Model Divisible_Model.

(** ** Channels *)

(** channel_unit.py:12-43, [Channel]; module names are numbers.  The module of a channel is the
    module of that name, so it is not stored; [node] is None everywhere. *)
Record chan : Type := { ch_name : nat; ch_start : Z; ch_end : Z; ch_out : bool }.
(** channel_unit.py:100-108, [__eq__]. *)
Definition chan_eqb (a b : chan) : bool :=
  Nat.eqb (ch_name a) (ch_name b) && Z.eqb (ch_start a) (ch_start b)
  && Z.eqb (ch_end a) (ch_end b) && Bool.eqb (ch_out a) (ch_out b).
(** What the code asks of the module of a name: whether it has parameters and whether it is a
    DynamicChannelMixin; None when the model has no such module. *)
Definition minfo : Type := nat -> option (bool * bool).
(** 'input_placeholder' and 'output_placeholder' (channel_unit.py:88-90). *)
Definition placeholder (nm : nat) : bool := Nat.eqb nm 0 || Nat.eqb nm 1.
(** channel_unit.py:80-91, [is_mutable]. *)
Definition chan_mutable (mi : minfo) (c : chan) : bool :=
  match mi (ch_name c) with
  | Some (has_param, is_dynamic) => negb has_param || is_dynamic
  | None => negb (placeholder (ch_name c))
  end.
Definition chan_dynamic (mi : minfo) (c : chan) : bool :=
  match mi (ch_name c) with Some (_, d) => d | None => false end.

(** ** Names and init_args *)

(** channel_unit.py:194-204, [name]: the parts of the formatted string, or the string the name was
    set to.  Simplification: two formatted strings are equal only if their parts are. *)
Inductive uname : Type :=
| UAuto (nm : nat) (start end_ : Z) (n : nat)
| UEmpty (n : nat)
| UGiven (k : nat).
Definition uname_eqb (a b : uname) : bool :=
  match a, b with
  | UAuto x s e n, UAuto x' s' e' n' => Nat.eqb x x' && Z.eqb s s' && Z.eqb e e' && Nat.eqb n n'
  | UEmpty n, UEmpty n' => Nat.eqb n n'
  | UGiven k, UGiven k' => Nat.eqb k k'
  | _, _ => false
  end.

(** A dictionary of keyword arguments of a unit class. *)
Record iargs : Type :=
  { a_n : option nat; a_num : option bool; a_div : option Z; a_min : option Z;
    a_ratio : option Q; a_cands : option (list num) }.
Definition no_args : iargs :=
  {| a_n := None; a_num := None; a_div := None; a_min := None; a_ratio := None; a_cands := None |}.
(** [dict.update]. *)
Definition or_else {A} (new old : option A) : option A :=
  match new with Some x => Some x | None => old end.
Definition args_update (old new : iargs) : iargs :=
  {| a_n := or_else (a_n new) (a_n old); a_num := or_else (a_num new) (a_num old);
     a_div := or_else (a_div new) (a_div old); a_min := or_else (a_min new) (a_min old);
     a_ratio := or_else (a_ratio new) (a_ratio old); a_cands := or_else (a_cands new) (a_cands old) |}.
Definition set_n (a : iargs) (n : nat) : iargs :=
  {| a_n := Some n; a_num := a_num a; a_div := a_div a; a_min := a_min a; a_ratio := a_ratio a;
     a_cands := a_cands a |}.
Definition get_or {A} (o : option A) (d : A) : A := match o with Some x => x | None => d end.

(** ** Units *)

Inductive ucls : Type := CSeq | COneShot | CSlim.
Definition ucls_eqb (a b : ucls) : bool :=
  match a, b with CSeq, CSeq | COneShot, COneShot | CSlim, CSlim => true | _, _ => false end.

(** A unit: its class, its arguments, its candidates (none for CSeq), related channels, [_name]
    and its mutable channel. *)
Record munit : Type :=
  { m_cls : ucls; m_cfg : unit_cfg; m_cands : list num; m_in : list chan; m_out : list chan;
    m_name : option uname; m_ch : seq_channel }.
Definition with_ch (u : munit) (c : seq_channel) : munit :=
  {| m_cls := m_cls u; m_cfg := m_cfg u; m_cands := m_cands u; m_in := m_in u; m_out := m_out u;
     m_name := m_name u; m_ch := c |}.
Definition with_related (u : munit) (i o : list chan) : munit :=
  {| m_cls := m_cls u; m_cfg := m_cfg u; m_cands := m_cands u; m_in := i; m_out := o;
     m_name := m_name u; m_ch := m_ch u |}.
Definition with_name (u : munit) (n : uname) : munit :=
  {| m_cls := m_cls u; m_cfg := m_cfg u; m_cands := m_cands u; m_in := m_in u; m_out := m_out u;
     m_name := Some n; m_ch := m_ch u |}.

(** [cls( **args )]: sequential_mutable_channel_unit.py:34-52, one_shot_mutable_channel_unit.py:33-54,
    slimmable_channel_unit.py:31-39 with the defaults of the signatures.  A missing num_channels
    and an unexpected candidate_choices raise TypeError. *)
Definition default_num (c : ucls) : bool := match c with COneShot => false | _ => true end.
Definition default_cands (c : ucls) : list num :=
  match c with COneShot => [NFloat (f64_lit 1 2); NFloat (f64_of_Z 1)] | _ => [] end.
Definition init_unit (c : ucls) (a : iargs) : outcome munit :=
  match a_n a with
  | None => Raise TypeError
  | Some n =>
      let u := {| u_n := n; u_num := get_or (a_num a) (default_num c);
                  u_div := get_or (a_div a) 1; u_min := get_or (a_min a) 1;
                  u_ratio := get_or (a_ratio a) (9 # 10)%Q |} in
      do cands <-
        (match c, a_cands a with
         | CSeq, Some _ => Raise TypeError
         | CSeq, None => Ok []
         | _, l => oneshot_unit_candidates u (get_or l (default_cands c))
         end);
      Ok {| m_cls := c; m_cfg := u; m_cands := cands; m_in := []; m_out := []; m_name := None;
            m_ch := new_seq n (u_num u) |}
  end.

(** channel_unit.py:194-204. *)
Definition auto_name (i o : list chan) (n : nat) : uname :=
  match o ++ i with
  | c :: _ => UAuto (ch_name c) (ch_start c) (ch_end c) n
  | [] => UEmpty n
  end.
Definition name_of (u : munit) : uname :=
  get_or (m_name u) (auto_name (m_in u) (m_out u) (u_n (m_cfg u))).

(** The [current_choice] setters and getter (sequential_mutable_channel_unit.py:106-115,
    one_shot_mutable_channel_unit.py:89-101). *)
Definition set_choice (u : munit) (v : num) : outcome munit :=
  do c <- (match m_cls u with
           | CSeq => unit_set (m_cfg u) (m_ch u) v
           | _ => oneshot_unit_set (m_cfg u) (m_cands u) (m_ch u) v
           end);
  Ok (with_ch u c).
Definition get_choice (u : munit) : outcome num := seq_get (m_ch u).
(** one_shot_mutable_channel_unit.py:108-116. *)
Definition max_choice (u : munit) : outcome num :=
  match rev (m_cands u) with x :: _ => Ok x | [] => Raise IndexError end.
Definition min_choice (u : munit) : outcome num :=
  match m_cands u with x :: _ => Ok x | [] => Raise IndexError end.

(** channel_unit.py:229-239, [add_output_related] and [add_input_related] (the flag is right by
    construction, see [fill_chan]). *)
Definition add_chan (l : list chan) (c : chan) : list chan :=
  if existsb (chan_eqb c) l then l else l ++ [c].

(** mutable_channel_unit.py:133-140, [traverse], with the break of line 139. *)
Fixpoint traverse (mi : minfo) (l : list chan) (has_dynamic : bool) : bool * bool :=
  match l with
  | [] => (has_dynamic, true)
  | c :: r =>
      if chan_mutable mi c then traverse mi r (has_dynamic || chan_dynamic mi c)
      else (has_dynamic, false)
  end.
(** mutable_channel_unit.py:129-153, [is_mutable]. *)
Definition is_mutable (mi : minfo) (u : munit) : bool :=
  let '(id, ia) := traverse mi (m_in u) false in
  let '(od, oa) := traverse mi (m_out u) false in
  negb (Nat.eqb (length (m_out u)) 0) && negb (Nat.eqb (length (m_in u)) 0)
  && id && ia && od && oa.

(** ** Configs of units *)

(** One entry of config['channels']; 'start' and 'end' may be missing. *)
Record ccfg : Type := { cc_name : nat; cc_start : option Z; cc_end : option Z }.
(** A unit config: 'init_args', 'channels' (input_related, output_related) and 'choice'. *)
Record ucfg : Type :=
  { c_args : option iargs; c_channels : option (list ccfg * list ccfg); c_choice : option num }.

(** channel_unit.py:62-71. *)
Definition chan_template (c : chan) : ccfg :=
  {| cc_name := ch_name c; cc_start := Some (ch_start c); cc_end := Some (ch_end c) |}.
(** channel_unit.py:215-225 with mutable_channel_unit.py:155-171,
    sequential_mutable_channel_unit.py:89-104 and one_shot_mutable_channel_unit.py:73-85. *)
Definition args_template (u : munit) : iargs :=
  {| a_n := Some (u_n (m_cfg u)); a_num := Some (u_num (m_cfg u)); a_div := Some (u_div (m_cfg u));
     a_min := Some (u_min (m_cfg u)); a_ratio := Some (u_ratio (m_cfg u));
     a_cands := match m_cls u with CSeq => None | _ => Some (m_cands u) end |}.
Definition config_template (with_init_args with_channels : bool) (u : munit) : outcome ucfg :=
  do v <- get_choice u;
  Ok {| c_args := if with_init_args then Some (args_template u) else None;
        c_channels := if with_channels
                      then Some (map chan_template (m_in u), map chan_template (m_out u)) else None;
        c_choice := Some v |}.

(** channel_unit.py:141-150 and 45-58: filling in the defaults and building the Channel. *)
Definition fill_chan (n : nat) (is_out : bool) (c : ccfg) : chan :=
  {| ch_name := cc_name c; ch_start := get_or (cc_start c) 0;
     ch_end := get_or (cc_end c) (Z.of_nat n); ch_out := is_out |}.
Definition related (n : nat) (is_out : bool) (l : list ccfg) : list chan :=
  fold_left add_chan (map (fill_chan n is_out) l) [].
(** channel_unit.py:136-167 and mutable_channel_unit.py:45-53, [init_from_cfg]. *)
Definition init_from_cfg (c : ucls) (g : ucfg) : outcome munit :=
  match c_args g with
  | None => Raise KeyError
  | Some a =>
      do u <- init_unit c a;
      let n := u_n (m_cfg u) in
      let u1 := match c_channels g with
                | Some (i, o) => with_related u (related n false i) (related n true o)
                | None => u
                end in
      match c_choice g with
      | Some v => set_choice u1 v
      | None => Ok u1
      end
  end.

(** ** Dictionaries with unit names as keys *)
Fixpoint d_get {A} (d : list (uname * A)) (k : uname) : option A :=
  match d with
  | [] => None
  | (k', v) :: r => if uname_eqb k' k then Some v else d_get r k
  end.
Fixpoint d_put {A} (d : list (uname * A)) (k : uname) (v : A) : list (uname * A) :=
  match d with
  | [] => [(k, v)]
  | (k', v') :: r => if uname_eqb k' k then (k', v) :: r else (k', v') :: d_put r k v
  end.

(** ** The mutator *)

(** [parse_cfg]: its type and whether it holds 'from_cfg'. *)
Inductive ptype : Type := PAnalyzer | PConfig.
Record parse_cfg : Type := { p_type : ptype; p_from_cfg : bool }.
(** A ChannelMutator.  [mt_file] tells that channel_unit_cfg['units'] is the name of a file, which
    holds [mt_disk]; [mt_units_cfg] is [self.units_cfg].  When it is a dictionary,
    channel_unit_cfg['units'] and units_cfg are one object (channel_mutator.py:281-302). *)
Record mutator : Type :=
  { mt_cls : ucls; mt_default : iargs; mt_file : bool; mt_disk : list (uname * ucfg);
    mt_units_cfg : list (uname * ucfg); mt_parse : parse_cfg; mt_units : list munit }.
Definition new_mutator (c : ucls) (default : iargs) (file : bool) (units : list (uname * ucfg))
    (p : parse_cfg) : mutator :=
  {| mt_cls := c; mt_default := default; mt_file := file; mt_disk := units; mt_units_cfg := units;
     mt_parse := p; mt_units := [] |}.

(** The result of [tracer.analyze]: for every key num_channels and the related channels. *)
Definition traced : Type := list (uname * (nat * (list ccfg * list ccfg))).

(** channel_unit.py:169-178, 136-167 and channel_mutator.py:269-279: a unit of the tracer made into
    a mutable unit.  [units_cfg] is [self.units_cfg]; the dictionary of init_args it may hold gets
    the key 'num_channels' as well (the second result). *)
Definition convert_unit (c : ucls) (default : iargs) (units_cfg : list (uname * ucfg))
    (t : nat * (list ccfg * list ccfg)) : outcome (munit * list (uname * ucfg)) :=
  let '(n, (i, o)) := t in
  let i := related n false i in
  let o := related n true o in
  let nm := auto_name i o n in
  match d_get units_cfg nm with
  | Some {| c_args := Some a; c_channels := cs; c_choice := ch |} =>
      do u <- init_unit c (set_n a n);
      Ok (with_related u i o,
          d_put units_cfg nm {| c_args := Some (set_n a n); c_channels := cs; c_choice := ch |})
  | _ =>
      do u <- init_unit c (set_n default n);
      Ok (with_related u i o, units_cfg)
  end.
(** channel_mutator.py:304-320, [_prepare_from_tracer]. *)
Fixpoint from_tracer (c : ucls) (default : iargs) (units_cfg : list (uname * ucfg)) (ts : traced)
  : outcome (list munit * list (uname * ucfg)) :=
  match ts with
  | [] => Ok ([], units_cfg)
  | (_, t) :: r =>
      do uc <- convert_unit c default units_cfg t;
      do ru <- from_tracer c default (snd uc) r;
      Ok (fst uc :: fst ru, snd ru)
  end.

(** channel_mutator.py:322-363, [_prepare_from_cfg] and [_prepare_unit_from_init_cfg], one key.
    [cfg] is the local [config], [own] is [self.units_cfg] when that is another object ([shared] is
    false); [ts] is None when line 334 did not run, in which case [unit_configs] is unbound
    (UnboundLocalError, not a ValueError; shown as GenericException). *)
Definition from_cfg_key (c : ucls) (default : iargs) (shared : bool) (ts : option traced)
    (cfg own : list (uname * ucfg)) (k : uname)
  : outcome (munit * (list (uname * ucfg) * list (uname * ucfg))) :=
  match d_get cfg k with
  | None => Raise KeyError
  | Some g =>
      let a := match c_args g with Some a => args_update default a | None => default end in
      let g1 := {| c_args := Some a; c_channels := c_channels g; c_choice := c_choice g |} in
      let cfg1 := d_put cfg k g1 in
      match c_channels g with
      | Some _ =>
          do u <- init_from_cfg c g1;
          Ok (with_name u k, (cfg1, own))
      | None =>
          match ts with
          | None => Raise GenericException
          | Some ts =>
              match d_get ts k with
              | None => Raise KeyError
              | Some t =>
                  do uc <- convert_unit c default (if shared then cfg1 else own) t;
                  do u <- (match c_choice g with Some v => set_choice (fst uc) v | None => Ok (fst uc) end);
                  Ok (u, if shared then (snd uc, own) else (cfg1, snd uc))
              end
          end
      end
  end.
Fixpoint from_cfg_keys (c : ucls) (default : iargs) (shared : bool) (ts : option traced)
    (cfg own : list (uname * ucfg)) (ks : list uname)
  : outcome (list munit * (list (uname * ucfg) * list (uname * ucfg))) :=
  match ks with
  | [] => Ok ([], (cfg, own))
  | k :: r =>
      do uk <- from_cfg_key c default shared ts cfg own k;
      do ur <- from_cfg_keys c default shared ts (fst (snd uk)) (snd (snd uk)) r;
      Ok (fst uk :: fst ur, snd ur)
  end.

(** The effect of [prepare_for_pruning] on the choice: none for CSeq
    (sequential_mutable_channel_unit.py:61-78), the largest candidate for the others
    (one_shot_mutable_channel_unit.py:65-69, slimmable_channel_unit.py:41-51). *)
Definition prepare_unit (u : munit) : outcome munit :=
  match m_cls u with
  | CSeq => Ok u
  | _ => do v <- max_choice u; set_choice u v
  end.

(** channel_mutator.py:95-126, [prepare_from_supernet] of a mutator with a parse_cfg dictionary
    (without 'Predefined'); [ts] is what the tracer finds.  Line 332 removes 'from_cfg'. *)
Definition prepare_from_supernet (m : mutator) (ts : traced) : outcome mutator :=
  let p := mt_parse m in
  let from_cfg tso :=
    let cfg := if mt_file m then mt_disk m else mt_units_cfg m in
    from_cfg_keys (mt_cls m) (mt_default m) (negb (mt_file m)) tso cfg (mt_units_cfg m) (map fst cfg) in
  do r <-
    (match p_type p with
     | PAnalyzer =>
         if p_from_cfg p
         then do r <- from_cfg (Some ts);
              Ok (fst r, (if mt_file m then snd (snd r) else fst (snd r)),
                  {| p_type := PAnalyzer; p_from_cfg := false |})
         else do r <- from_tracer (mt_cls m) (mt_default m) (mt_units_cfg m) ts;
              Ok (fst r, snd r, p)
     | PConfig =>
         do r <- from_cfg None;
         Ok (fst r, (if mt_file m then snd (snd r) else fst (snd r)), p)
     end);
  let '(units, ucfgs, p') := r in
  do units' <- mapM prepare_unit units;
  Ok {| mt_cls := mt_cls m; mt_default := mt_default m; mt_file := mt_file m; mt_disk := mt_disk m;
        mt_units_cfg := ucfgs; mt_parse := p'; mt_units := units' |}.

(** channel_mutator.py:175-181, the units of [config_template]. *)
Fixpoint units_template (wi wc : bool) (us : list munit) (d : list (uname * ucfg))
  : outcome (list (uname * ucfg)) :=
  match us with
  | [] => Ok d
  | u :: r =>
      do g <- config_template wi wc u;
      units_template wi wc r (d_put d (name_of u) g)
  end.

(** channel_mutator.py:133-192, [config_template] with only_mutable_units = False, and the mutator
    built from it: class, default_args and parse_cfg are the mutator's own. *)
Definition rebuilt (wi wc : bool) (m : mutator) (us : list munit) : outcome mutator :=
  do d <- units_template wi wc us [];
  Ok (new_mutator (mt_cls m) (mt_default m) false d (mt_parse m)).

(** ** Choices *)

(** [self._name2unit[name]] is the last unit of that name (channel_mutator.py:121-124); a unit is
    replaced in place. *)
Fixpoint last_named (us : list munit) (k : uname) : option nat :=
  match us with
  | [] => None
  | u :: r =>
      match last_named r k with
      | Some i => Some (S i)
      | None => if uname_eqb (name_of u) k then Some O else None
      end
  end.
(** channel_mutator.py:216-227, [set_choices]: the units after the call and its outcome. *)
Fixpoint set_choices (us : list munit) (cs : list (uname * num)) : list munit * outcome unit :=
  match cs with
  | [] => (us, Ok tt)
  | (k, v) :: r =>
      match last_named us k with
      | None => (us, Raise KeyError)
      | Some i =>
          match nth_error us i with
          | None => (us, Raise KeyError)
          | Some u =>
              match set_choice u v with
              | Raise e => (us, Raise e)
              | Ok u' => set_choices (upd us i u') r
              end
          end
      end
  end.
(** channel_mutator.py:229-250, [current_choices] and [choice_template]. *)
Fixpoint choice_template (us : list munit) (d : list (uname * num)) : outcome (list (uname * num)) :=
  match us with
  | [] => Ok d
  | u :: r => do v <- get_choice u; choice_template r (d_put d (name_of u) v)
  end.
Definition mutable_units (mi : minfo) (us : list munit) : list munit := filter (is_mutable mi) us.
Definition current_choices (mi : minfo) (us : list munit) : outcome (list (uname * num)) :=
  do d <- choice_template (mutable_units mi us) [];
  choice_template (mutable_units mi us) d.

(** sequential_mutable_channel_unit.py:117-124 and one_shot_mutable_channel_unit.py:103-106,
    [sample_choice]; [r] is what random.randint returns. *)
Definition draw_choice (u : munit) (r : Z) : outcome num :=
  match m_cls u with
  | CSeq => unit_sample (m_cfg u) r
  | _ => match oneshot_unit_sample (m_cands u) (Z.to_nat r) with
         | Some v => Ok v
         | None => Raise IndexError
         end
  end.
(** channel_mutator.py:201-214, [sample_choices]; [draw k] is the random number drawn for key k. *)
Definition sample_key (us : list munit) (draw : uname -> Z) (k : uname) : outcome (uname * num) :=
  match last_named us k with
  | None => Raise KeyError
  | Some i => match nth_error us i with
              | None => Raise KeyError
              | Some u => do v <- draw_choice u (draw k); Ok (k, v)
              end
  end.
Definition sample_choices (mi : minfo) (us : list munit) (draw : uname -> Z)
  : outcome (list (uname * num)) :=
  do d <- choice_template (mutable_units mi us) [];
  mapM (sample_key us draw) (map fst d).

(** slimmable_channel_mutator.py:48-82, [_prepare_subnets] on the candidate_choices of the units. *)
Fixpoint put_row (subnets : list (list (uname * num))) (k : uname) (vs : list num)
  : list (list (uname * num)) :=
  match subnets, vs with
  | s :: sr, v :: vr => d_put s k v :: put_row sr k vr
  | _, _ => subnets
  end.
Fixpoint fill_subnets (n : nat) (rows : list (uname * list num)) (subnets : list (list (uname * num)))
  : outcome (list (list (uname * num))) :=
  match rows with
  | [] => Ok subnets
  | (k, vs) :: r =>
      do _ <- assert_ (Nat.eqb n (length vs));
      fill_subnets n r (put_row subnets k vs)
  end.
Definition prepare_subnets (rows : list (uname * list num)) : outcome (list (list (uname * num))) :=
  let n := match rows with [] => O | (_, vs) :: _ => length vs end in
  fill_subnets n rows (repeat [] n).
(** slimmable_channel_mutator.py:66-80: unit_cfg[key]['init_args']['candidate_choices']. *)
Definition subnet_row (kg : uname * ucfg) : outcome (uname * list num) :=
  match c_args (snd kg) with
  | Some a => match a_cands a with Some vs => Ok (fst kg, vs) | None => Raise KeyError end
  | None => Raise KeyError
  end.
Definition slimmable_subnets (units_cfg : list (uname * ucfg)) : outcome (list (list (uname * num))) :=
  do rows <- mapM subnet_row units_cfg;
  prepare_subnets rows.

(** ** Finding the units that can be pruned *)

(** units/utils.py:47-80, [find_mutable] and [forward_units].  Units are positions; [passes l] tells
    whether the model still runs with the units [l] shrunk and all others at full width.  Results:
    the units kept, and the units tried, call after call.  The fuel is the length of the list. *)
Fixpoint find_mutable (fuel : nat) (passes : list nat -> bool) (try : list nat)
  : list nat * list (list nat) :=
  match try with
  | [] => ([], [])
  | _ =>
      if passes try then (try, [try])
      else match fuel with
           | O => ([], [try])
           | S fuel =>
               if Nat.eqb (length try) 1 then ([], [try])
               else
                 let h := (length try / 2)%nat in
                 let '(l, tl) := find_mutable fuel passes (firstn h try) in
                 let '(r, tr) := find_mutable fuel passes (skipn h try) in
                 (l ++ r, try :: tl ++ tr)
           end
  end.

(** units/utils.py:53-57: the choices of the units after a call of [forward_units]. *)
Definition try_choice (sample : num) : num :=
  let lo := f64_lit 1 10 in
  let hi := f64_lit 9 10 in
  let a := if num_leb sample (NFloat lo) then NFloat lo else sample in
  if num_leb a (NFloat hi) then a else NFloat hi.
(** [forward_units] sets every unit to 1.0, then the tried ones to [try_choice] of a sample
    ([sample i] is what sample_choice returned for unit [i]). *)
Fixpoint set_ones (us : list munit) : outcome (list munit) :=
  match us with
  | [] => Ok []
  | u :: r => do u' <- set_choice u (NFloat (f64_of_Z 1)); do r' <- set_ones r; Ok (u' :: r')
  end.
Fixpoint set_tried (sample : nat -> num) (us : list munit) (try : list nat) : outcome (list munit) :=
  match try with
  | [] => Ok us
  | i :: r =>
      match nth_error us i with
      | None => Raise IndexError
      | Some u => do u' <- set_choice u (try_choice (sample i)); set_tried sample (upd us i u') r
      end
  end.
(** The units after the calls of [find_mutable]: every call sets all units anew, so only the last
    one matters. *)
Definition after_trials (sample : nat -> num) (us : list munit) (tried : list (list nat))
  : outcome (list munit) :=
  match rev tried with
  | [] => Ok us
  | l :: _ => do us1 <- set_ones us; set_tried sample us1 l
  end.
(** channel_analyzer.py:140-178, [_find_mutable_units]: the config of every unit kept
    (MutableChannelUnit.config_template).  [prunable] are the positions of the units that are
    [is_mutable]. *)
Definition analyze_units (passes : list nat -> bool) (sample : nat -> num) (us : list munit)
    (prunable : list nat) : outcome (list ucfg) :=
  let '(kept, tried) := find_mutable (length prunable) passes prunable in
  do us' <- after_trials sample us tried;
  mapM (fun i =>
          match nth_error us' i with
          | None => Raise IndexError
          | Some u =>
              do v <- get_choice u;
              Ok {| c_args := Some (set_n no_args (u_n (m_cfg u)));
                    c_channels := Some (map chan_template (m_in u), map chan_template (m_out u));
                    c_choice := Some v |}
          end) kept.
(** channel_unit.py:180-190, [init_from_channel_analyzer]. *)
Definition init_from_channel_analyzer (c : ucls) (gs : list ucfg) : outcome (list munit) :=
  mapM (init_from_cfg c) gs.
