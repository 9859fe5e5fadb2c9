(** Model of mmrazor/structures/graph/channel_nodes.py, channel_graph.py and of the hash
    caches of channel_flow.py. *)
From Verif Require Import Prelude UnionFind_Model.

(** ** Nodes *)

(** channel_nodes.py: the classes of ChannelNode with the numbers they read off their module.
    [KConv cin cout groups] is ConvNode (317-371), [KLinear] LinearNode (374-395), [KBn]
    BnNode (398-419), [KGn] GroupNormNode (422-447), [KPass] PassChannelNode (171-184),
    [KPassUnion] PassUnionChannelNode (147-168), [KBind] BindChannelNode (203-223), [KCat]
    CatChannelNode (226-246), [KExpand r] ExpandChannelNode (249-273), [KInput c]
    InputChannelNode (276-296), [KEnd] EndNode (299-313). *)
Inductive kind : Type :=
| KConv (cin cout groups : nat)
| KLinear (cin cout : nat)
| KBn (c : nat)
| KGn (c groups : nat)
| KPass | KPassUnion | KBind | KCat
| KExpand (r : nat)
| KInput (c : nat)
| KEnd.

(** A node of the graph.  [c_prev] are the positions of [prev_nodes]; [c_mod] is the identity of
    the module when the node holds one with parameters (channel_graph.py:161-162); [c_name] is
    what line 77 of channel_graph.py puts under 'name'.  A graph is the list of its nodes in the
    order yielded by [topo_traverse] (Graph_Model), so [c_prev] of a node are smaller positions.
    Simplification: [_merge_same_module] iterates over the nodes in insertion order, here in
    topological order. *)
Record cnode : Type := { c_kind : kind; c_prev : list nat; c_mod : option nat; c_name : nat }.

(** ** Channel numbers *)

Definition out_of (tab : list (outcome (nat * nat))) (p : nat) : outcome nat :=
  match nth_error tab p with
  | Some (Ok io) => Ok (snd io)
  | Some (Raise e) => Raise e
  | None => Raise RuntimeError
  end.
(** channel_nodes.py:130-140 with the overrides of lines 173-176 and 240-243. *)
Definition in_by_prev (tab : list (outcome (nat * nat))) (k : kind) (prev : list nat) : outcome nat :=
  match k, prev with
  | KPass, [p] => out_of tab p
  | KPass, _ => Raise AssertionError
  | KCat, [] => Raise AssertionError
  | KCat, _ => do ls <- mapM (out_of tab) prev; Ok (list_sum ls)
  | _, [] => Ok 3%nat
  | _, p :: _ => out_of tab p
  end.
(** channel_nodes.py:93-110: (in_channels, out_channels) of a node, given those of the nodes
    before it. *)
Definition channels_of (tab : list (outcome (nat * nat))) (nd : cnode) : outcome (nat * nat) :=
  match c_kind nd with
  | KConv i o _ | KLinear i o => Ok (i, o)
  | KBn c | KGn c _ | KInput c => Ok (c, c)
  | KExpand r => do i <- in_by_prev tab (c_kind nd) (c_prev nd); Ok (i, (i * r)%nat)
  | k => do i <- in_by_prev tab k (c_prev nd); Ok (i, i)
  end.
Definition channel_table (g : list cnode) : list (outcome (nat * nat)) :=
  fold_left (fun tab nd => tab ++ [channels_of tab nd]) g [].

(** channel_nodes.py:112-115, 221-223, 234-236, 312-313: [check_channel]. *)
Definition check_channel (tab : list (outcome (nat * nat))) (nd : cnode) : outcome bool :=
  match c_kind nd with
  | KEnd => Ok true
  | KCat =>
      do ls <- mapM (out_of tab) (c_prev nd);
      do io <- channels_of tab nd;
      Ok (Nat.eqb (list_sum ls) (fst io))
  | _ =>
      do bs <- mapM (fun p => do o <- out_of tab p; do io <- channels_of tab nd;
                              Ok (Nat.eqb o (fst io))) (c_prev nd);
      Ok (forallb (fun b => b) bs)
  end.

(** ** Forward *)

(** [in_channel_tensor], [out_channel_tensor] and [return_tensor] of a node. *)
Record trip : Type := { t_in : list nat; t_out : list nat; t_ret : list nat }.
(** The elements created so far, the first element of the tensor that created each of them
    (this identifies [owing_tensor]; [index_in_tensoor] is the distance to it), and the tensors
    of the nodes visited so far.  The tensors made by [cat] (channel_flow.py:150-156) and by
    slicing (197-201) create elements that are thrown away at once; these are left out. *)
Record fstate : Type := { f_uf : uf; f_base : list nat; f_nodes : list trip }.
Definition f_init : fstate := {| f_uf := uf_empty; f_base := []; f_nodes := [] |}.

(** channel_flow.py:129-135. *)
Definition fresh (s : fstate) (k : nat) : fstate * list nat :=
  ({| f_uf := fst (new_tensor (f_uf s) k);
      f_base := f_base s ++ repeat (uf_n (f_uf s)) k;
      f_nodes := f_nodes s |}, snd (new_tensor (f_uf s) k)).
Definition with_uf (s : fstate) (u : uf) : fstate :=
  {| f_uf := u; f_base := f_base s; f_nodes := f_nodes s |}.
(** channel_flow.py:139-148. *)
Definition f_union (s : fstate) (a b : list nat) : outcome fstate :=
  do u <- tensor_union (f_uf s) a b; Ok (with_uf s u).
(** channel_flow.py:158-165. *)
Definition f_expand (s : fstate) (t : list nat) (r : nat) : outcome (fstate * list nat) :=
  do ut <- tensor_expand (f_uf s) t r;
  Ok ({| f_uf := fst ut; f_base := f_base s ++ repeat (uf_n (f_uf s)) (r * length t);
         f_nodes := f_nodes s |}, snd ut).

Fixpoint foldM {A B} (f : A -> B -> outcome A) (l : list B) (a : A) : outcome A :=
  match l with
  | [] => Ok a
  | x :: r => do a' <- f a x; foldM f r a'
  end.

(** channel_nodes.py:520-527, [group_union] with the group tensor at hand. *)
Definition group_union (s : fstate) (t : list nat) (groups : nat) (gt : list nat) : outcome fstate :=
  let c := (length t / groups)%nat in
  do _ <- assert_ (Nat.eqb (groups * length gt) (length t));
  foldM (fun s i => f_union s (firstn ((i + 1) * c - i * c) (skipn (i * c) t)) gt)
        (seq 0 groups) s.
(** channel_nodes.py:522-524: the default group tensor ([//] by zero raises). *)
Definition group_union_fresh (s : fstate) (t : list nat) (groups : nat) : outcome fstate :=
  if Nat.eqb groups 0 then Raise ZeroDivisionError
  else let '(s1, gt) := fresh s (length t / groups) in group_union s1 t groups gt.

Definition hd_tensor (ts : list (list nat)) : outcome (list nat) :=
  match ts with
  | t :: _ => Ok t
  | [] => Raise IndexError
  end.
(** channel_nodes.py:155-165. *)
Definition pass_union (s : fstate) (io : outcome (nat * nat)) (ts : list (list nat))
  : outcome (fstate * trip) :=
  do t <- hd_tensor ts;
  do io <- io;
  do _ <- assert_ (Nat.eqb (fst io) (snd io));
  Ok (s, {| t_in := t; t_out := t; t_ret := t |}).
(** channel_nodes.py:190-198. *)
Definition mix (s : fstate) (cout : nat) (ts : list (list nat)) : outcome (fstate * trip) :=
  match ts with
  | [t] => let '(s1, o) := fresh s cout in Ok (s1, {| t_in := t; t_out := o; t_ret := o |})
  | [] => Raise NotImplementedError
  | _ => Raise AssertionError
  end.
(** channel_nodes.py:339-346, [conv_type]. *)
Inductive conv_type : Type := TConv | TDw | TGw.
Definition conv_type_of (cin cout groups : nat) : conv_type :=
  if Nat.eqb groups 1 then TConv
  else if Nat.eqb cin cout && Nat.eqb cout groups then TDw else TGw.

(** The [channel_forward] methods; [io] are the node's channel numbers. *)
Definition channel_forward (s : fstate) (k : kind) (io : outcome (nat * nat)) (ts : list (list nat))
  : outcome (fstate * trip) :=
  match k with
  | KConv cin cout groups =>
      match conv_type_of cin cout groups with
      | TConv => mix s cout ts
      | TDw => pass_union s io ts
      | TGw =>                                        (* channel_nodes.py:351-361 *)
          match ts with
          | [t] =>
              do s1 <- group_union_fresh s t groups;
              let '(s2, o) := fresh s1 cout in
              do s3 <- group_union_fresh s2 o groups;
              Ok (s3, {| t_in := t; t_out := o; t_ret := o |})
          | _ => Raise AssertionError
          end
      end
  | KLinear _ cout => mix s cout ts
  | KBn _ | KPassUnion => pass_union s io ts
  | KGn c groups =>                                   (* channel_nodes.py:440-444 *)
      do r <- pass_union s io ts;
      let '(s1, tr) := r in
      if Nat.eqb groups 0 then Raise ZeroDivisionError
      else let '(s2, gt) := fresh s1 (c / groups) in
           do s3 <- group_union s2 (t_ret tr) groups gt;
           Ok (s3, tr)
  | KPass =>                                          (* channel_nodes.py:178-182 *)
      match ts with
      | [t] => let '(s1, a) := fresh s 1 in let '(s2, b) := fresh s1 1 in
               Ok (s2, {| t_in := a; t_out := b; t_ret := t |})
      | _ => Raise AssertionError
      end
  | KBind =>                                          (* channel_nodes.py:207-215 *)
      match ts with
      | [] => Raise AssertionError
      | t :: r =>
          do s1 <- foldM (fun s t' => f_union s t t') r s;
          Ok (s1, {| t_in := t; t_out := t; t_ret := t |})
      end
  | KCat =>                                           (* channel_nodes.py:229-233 *)
      let t := concat ts in Ok (s, {| t_in := t; t_out := t; t_ret := t |})
  | KExpand r =>                                      (* channel_nodes.py:262-270 *)
      match ts with
      | [t] =>
          do io <- io;
          do _ <- assert_ (Nat.leb (fst io) (snd io));
          if Nat.eqb (fst io) 0 then Raise ZeroDivisionError else
          do _ <- assert_ (Nat.eqb (snd io mod fst io) 0);
          do se <- f_expand s t r;
          Ok (fst se, {| t_in := t; t_out := snd se; t_ret := snd se |})
      | _ => Raise AssertionError
      end
  | KInput c =>                                       (* channel_nodes.py:286-290 *)
      let '(s1, t) := fresh s c in Ok (s1, {| t_in := t; t_out := t; t_ret := t |})
  | KEnd =>                                           (* channel_nodes.py:301-307 *)
      let '(s1, e) := fresh s 1 in
      do s2 <- foldM (fun s t => do se <- f_expand s e (length t); f_union (fst se) t (snd se)) ts s1;
      Ok (s2, {| t_in := e; t_out := e; t_ret := e |})
  end.

(** channel_nodes.py:69-81 and channel_graph.py:112-119: one node.  [numin] is
    [num_input_channel]; every exception is replaced by a plain Exception (line 81). *)
Definition ret_of (s : fstate) (p : nat) : outcome (list nat) :=
  match nth_error (f_nodes s) p with
  | Some tr => Ok (t_ret tr)
  | None => Raise AttributeError
  end.
Definition add_trip (s : fstate) (tr : trip) : fstate :=
  {| f_uf := f_uf s; f_base := f_base s; f_nodes := f_nodes s ++ [tr] |}.
Definition forward_node (numin : nat) (tab : list (outcome (nat * nat))) (s : fstate) (nd : cnode)
  : outcome fstate :=
  let io := channels_of tab nd in
  let r :=
    match c_prev nd with
    | [] => let '(s1, t) := fresh s numin in channel_forward s1 (c_kind nd) io [t]
    | ps => do ts <- mapM (ret_of s) ps; channel_forward s (c_kind nd) io ts
    end in
  match r with
  | Ok (s', tr) => Ok (add_trip s' tr)
  | Raise _ => Raise GenericException
  end.
Definition forward_nodes (numin : nat) (tab : list (outcome (nat * nat))) (g : list cnode)
  : outcome fstate := foldM (forward_node numin tab) g f_init.

(** channel_graph.py:156-177, [_merge_same_module]: positions of the nodes of each module, in
    order of first appearance. *)
Definition mod_of (g : list cnode) (i : nat) : option nat :=
  match nth_error g i with Some nd => c_mod nd | None => None end.
Fixpoint modules (g : list cnode) (seen : list nat) : list nat :=
  match g with
  | [] => rev seen
  | nd :: r =>
      match c_mod nd with
      | Some m => if existsb (Nat.eqb m) seen then modules r seen else modules r (m :: seen)
      | None => modules r seen
      end
  end.
Definition has_mod (g : list cnode) (m i : nat) : bool :=
  match mod_of g i with Some m' => Nat.eqb m' m | None => false end.
Definition nodes_of (g : list cnode) (m : nat) : list nat :=
  filter (has_mod g m) (seq 0 (length g)).
Definition trip_of (s : fstate) (i : nat) : trip :=
  nth i (f_nodes s) {| t_in := []; t_out := []; t_ret := [] |}.
Definition merge_two (s : fstate) (i j : nat) : outcome fstate :=
  do s1 <- f_union s (t_in (trip_of s i)) (t_in (trip_of s j));
  f_union s1 (t_out (trip_of s i)) (t_out (trip_of s j)).
Definition merge_module (g : list cnode) (s : fstate) (m : nat) : outcome fstate :=
  match nodes_of g m with
  | i :: r => foldM (fun s j => merge_two s i j) r s
  | [] => Ok s
  end.
Definition merge_same_module (g : list cnode) (s : fstate) : outcome fstate :=
  foldM (merge_module g) (modules g []) s.

(** channel_graph.py:108-120. *)
Definition forward (g : list cnode) (numin : nat) : outcome fstate :=
  do s <- forward_nodes numin (channel_table g) g;
  merge_same_module g s.

(** ** Units *)

Section Units.
(** [frozenset(...).__hash__()] of the set of owning tensors (channel_flow.py:67-68), given the
    set as the increasing list of its members. *)
Variable hash : list nat -> Z.

(** The union-find state with [_hash_cache] and [_min_elem_set_index_cache]. *)
Record gstate : Type := { g_uf : uf; g_hash : nat -> option Z; g_min : nat -> option Z }.
Definition base_of (base : list nat) (e : nat) : nat := nth e base 0%nat.
Definition index_of (base : list nat) (e : nat) : Z := Z.of_nat (e - base_of base e).
Definition owners (base : list nat) (l : list nat) : list nat :=
  filter (fun b => existsb (fun e => Nat.eqb (base_of base e) b) l) (seq 0 (length base)).
Definition set_all (f : nat -> option Z) (l : list nat) (v : Z) : nat -> option Z :=
  fun x => if existsb (Nat.eqb x) l then Some v else f x.
Definition all_none (f : nat -> option Z) (l : list nat) : bool :=
  forallb (fun x => match f x with None => true | Some _ => false end) l.

(** channel_flow.py:59-73, [elem_set_hash].  The set is computed once instead of twice. *)
Definition elem_set_hash (base : list nat) (s : gstate) (e : nat) : outcome (gstate * Z) :=
  match g_hash s e with
  | Some h => Ok (s, h)
  | None =>
      do ul <- owing_elem_set (g_uf s) e;
      let h := hash (owners base (snd ul)) in
      do _ <- assert_ (all_none (g_hash s) (snd ul));
      Ok ({| g_uf := fst ul; g_hash := set_all (g_hash s) (snd ul) h; g_min := g_min s |}, h)
  end.
(** channel_flow.py:75-88, [min_elem_set_index]. *)
Definition min_elem_set_index (base : list nat) (s : gstate) (e : nat) : outcome (gstate * Z) :=
  match g_min s e with
  | Some m => Ok (s, m)
  | None =>
      do ul <- owing_elem_set (g_uf s) e;
      let m := fold_left (fun m x => Z.min m (index_of base x)) (snd ul) (2 ^ 32) in
      do _ <- assert_ (all_none (g_min s) (snd ul));
      Ok ({| g_uf := fst ul; g_hash := g_hash s; g_min := set_all (g_min s) (snd ul) m |}, m)
  end.
(** channel_flow.py:170-174, [elems_hash_with_index]. *)
Fixpoint hash_with_index (base : list nat) (s : gstate) (t : list nat)
  : outcome (gstate * list (Z * Z)) :=
  match t with
  | [] => Ok (s, [])
  | e :: r =>
      do sh <- elem_set_hash base s e;
      do sm <- min_elem_set_index base (fst sh) e;
      do sr <- hash_with_index base (fst sm) r;
      Ok (fst sr, (snd sh, snd sm) :: snd sr)
  end.
(** channel_flow.py:176-190. *)
Definition hash_ranges (base : list nat) (s : gstate) (t : list nat)
  : outcome (gstate * list ((Z * Z) * Z)) :=
  do sl <- hash_with_index base s t;
  do rs <- elems_hash_ranges (snd sl);
  Ok (fst sl, rs).

(** One entry of 'input_related' / 'output_related': name, start, end. *)
Definition cfg : Type := (nat * (Z * Z))%type.
Definition cfg_eqb (a b : cfg) : bool :=
  Nat.eqb (fst a) (fst b) && Z.eqb (fst (snd a)) (fst (snd b)) && Z.eqb (snd (snd a)) (snd (snd b)).
Record unit_cfg : Type := { u_in : list cfg; u_out : list cfg }.
Definition u_empty : unit_cfg := {| u_in := []; u_out := [] |}.
Definition push_cfg (c : cfg) (l : list cfg) : list cfg :=
  if existsb (cfg_eqb c) l then l else l ++ [c].
Definition add_cfg (is_out : bool) (c : cfg) (u : unit_cfg) : unit_cfg :=
  if is_out then {| u_in := u_in u; u_out := push_cfg c (u_out u) |}
  else {| u_in := push_cfg c (u_in u); u_out := u_out u |}.
(** channel_graph.py:82-88 on the dictionary [unit_hash_dict]. *)
Fixpoint dict_add (d : list (Z * unit_cfg)) (h : Z) (is_out : bool) (c : cfg) : list (Z * unit_cfg) :=
  match d with
  | [] => [(h, add_cfg is_out c u_empty)]
  | (h', u) :: r => if Z.eqb h' h then (h', add_cfg is_out c u) :: r else (h', u) :: dict_add r h is_out c
  end.
(** channel_graph.py:67-88, [process_tensor]. *)
Definition process_tensor (base : list nat) (nm : nat) (is_out : bool) (t : list nat)
    (sd : gstate * list (Z * unit_cfg)) : outcome (gstate * list (Z * unit_cfg)) :=
  do sr <- hash_ranges base (fst sd) t;
  Ok (fst sr, fold_left (fun d r => dict_add d (snd r) is_out (nm, fst r)) (snd sr) (snd sd)).
Definition process_node (base : list nat) (sd : gstate * list (Z * unit_cfg)) (nt : nat * trip)
  : outcome (gstate * list (Z * unit_cfg)) :=
  do sd1 <- process_tensor base (fst nt) true (t_out (snd nt)) sd;
  process_tensor base (fst nt) false (t_in (snd nt)) sd1.

(** channel_graph.py:213-220 and channel_flow.py:210-213, 54-57. *)
Definition clear (f : nat -> option Z) (l : list nat) : nat -> option Z :=
  fun x => if existsb (Nat.eqb x) l then None else f x.
Definition reset_node (s : gstate) (tr : trip) : gstate :=
  {| g_uf := g_uf s;
     g_hash := clear (clear (g_hash s) (t_in tr)) (t_out tr);
     g_min := clear (clear (g_min s) (t_in tr)) (t_out tr) |}.
Definition reset_cache (trips : list trip) (s : gstate) : gstate := fold_left reset_node trips s.

(** channel_graph.py:90-101, [fill_num_channels]. *)
Definition num_channels (u : unit_cfg) : Z :=
  fold_left (fun m c => Z.min m (snd (snd c) - fst (snd c))) (u_in u ++ u_out u) (2 ^ 32).

(** channel_graph.py:33-109, [generate_units_config]: the state with the caches left behind, and
    for every hash 'num_channels' and the related channels. *)
Definition generate_units_config (names : list nat) (f : fstate) (s : gstate)
  : outcome (gstate * list (Z * (Z * unit_cfg))) :=
  do sd <- foldM (process_node (f_base f)) (combine names (f_nodes f))
                 (reset_cache (f_nodes f) s, []);
  Ok (fst sd, map (fun hu => (fst hu, (num_channels (snd hu), snd hu))) (snd sd)).

(** The state right after [forward]. *)
Definition g_start (f : fstate) : gstate :=
  {| g_uf := f_uf f; g_hash := fun _ => None; g_min := fun _ => None |}.
End Units.

(** ** Expand nodes *)

(** channel_graph.py:179-205, the inner loop of [_insert_expand_node] for one node: [cin] is its
    in_channels, [prevs] the out_channels of its [prev_nodes], each with the ratio of the
    expand node it goes through if there is one.  Python iterates over the list by position
    while the body appends the new node and removes [pre_node]; [idx] is the position. *)
Definition wants_expand (cin : nat) (p : nat) : bool :=
  Nat.ltb p cin && Nat.eqb (cin mod p) 0.
Definition remove_at {A} (i : nat) (l : list A) : list A := firstn i l ++ skipn (S i) l.
Fixpoint expand_loop (fuel : nat) (cin : nat) (idx : nat) (prevs : list (nat * option nat))
  : list (nat * option nat) :=
  match fuel with
  | O => prevs
  | S fuel =>
      match nth_error prevs idx with
      | None => prevs
      | Some (p, r) =>
          let out := match r with None => p | Some r => (p * r)%nat end in
          if wants_expand cin out
          then expand_loop fuel cin (S idx) (remove_at idx prevs ++ [(p, Some (cin / p)%nat)])
          else expand_loop fuel cin (S idx) prevs
      end
  end.
Definition insert_expand (cin : nat) (prevs : list nat) : list (nat * option nat) :=
  expand_loop (length prevs) cin 0 (map (fun p => (p, None)) prevs).

(** base_graph.py:28-40 and channel_graph.py:24-31 through base_graph.py:92-95: [prev_nodes] of a
    node after connecting it to the nodes it takes as arguments, in that order. *)
Definition add_prev (prevs : list nat) (p : nat) : list nat :=
  if existsb (Nat.eqb p) prevs then prevs else prevs ++ [p].
Definition connect_args (args : list nat) : list nat := fold_left add_prev args [].
