(** * Lattice: [LatticeGraph], src/lattice_abstract/{mod,nodes,neighbors,edges}.rs.

    A slot of an array is an [option]: [None] is memory that was never written.
    Handing out a reference to a slot is modelled by reading it, so an
    uninitialised slot makes the call [Fail FUB]. *)

From Verif Require Import Machine Store Axes Shapes.

(** mod.rs:24-32 *)
Record LatticeGraph (C A D N E : Type) := mkGraph {
  g_nodes : Array2 (option N);
  g_edges : list (Array2 (option E));
  g_s : Shape C A D
}.
Arguments mkGraph {C A D N E}.
Arguments g_nodes {C A D N E}.
Arguments g_edges {C A D N E}.
Arguments g_s {C A D N E}.

(** petgraph's [EdgeRef] items: edges.rs:7-15.  The [edge_weight] reference is
    modelled by the value behind it. *)
Record EdgeReference (C E D : Type) := mkEdgeRef {
  er_source : C;
  er_target : C;
  er_weight : E;
  er_direction : D
}.
Arguments mkEdgeRef {C E D}.
Arguments er_source {C E D}.
Arguments er_target {C E D}.
Arguments er_weight {C E D}.
Arguments er_direction {C E D}.

(** petgraph's [Direction]. *)
Inductive PetDirection := Outgoing | Incoming.

(** edges.rs:76-115: the three [DtMarker] types of [Edges]. *)
Inductive DtMarker := AxisMarker | AxisDirMarker | PetMarker (d : PetDirection).

(** edges.rs:111, 114, 119 [DtMarker::DIRECTED] *)
Definition dt_DIRECTED (k : DtMarker) : bool :=
  match k with AxisMarker => true | AxisDirMarker => false | PetMarker _ => false end.

(** edges.rs:104-107, 140-142 *)
Definition dt_need_reverse (k : DtMarker) : bool :=
  match k with PetMarker Incoming => true | _ => false end.

(** edges.rs:68-74 (without the graph reference). *)
Record EdgesState (C : Type) := mkEdges {
  ed_node : C;
  ed_offset : Offset;
  ed_state : nat;
  ed_directed : DtMarker
}.
Arguments mkEdges {C}.
Arguments ed_node {C}.
Arguments ed_offset {C}.
Arguments ed_state {C}.
Arguments ed_directed {C}.

(** edges.rs:288-292 (without the graph reference). *)
Record EdgeRefsState (C : Type) := mkEdgeRefs {
  ers_e : option (EdgesState C);
  ers_index : Z
}.
Arguments mkEdgeRefs {C}.
Arguments ers_e {C}.
Arguments ers_index {C}.

Section Graph.
  Context {C A D N E : Type}.
  Notation shape := (Shape C A D).
  Notation graph := (LatticeGraph C A D N E).

  (** ** Construction *)

  (** mod.rs:52-55 the loop that allocates one array per axis. *)
  Fixpoint uninit_edges (s : shape) (count : nat) : outcome (list (Array2 (option E))) :=
    match count with
    | O => Ok []
    | S k =>
        let! a := array_uninit (sh_horizontal s) (sh_vertical s) in
        let! l := uninit_edges s k in
        Ok (a :: l)
    end.

  (** mod.rs:49-58 *)
  Definition new_uninit (m : mode) (s : shape) : outcome graph :=
    let! nodes := array_uninit (sh_horizontal s) (sh_vertical s) in
    let! edges := uninit_edges s (ax_COUNT (sh_axis s)) in
    let! _ := debug_assert m (Nat.eqb (length edges) (ax_COUNT (sh_axis s))) in
    Ok (mkGraph nodes edges s).

  (** mod.rs:162-172.  Only the type of the slots changes, which the model does not
      distinguish. *)
  Definition assume_init (g : graph) : graph := g.

  Section NewWith.
    (** The two closures are [FnMut]; they are modelled as functions passing a state
        of type [St] that both can use (for instance a log of the calls).  Closures that
        panic are the subject of [new_with_p] below. *)
    Context {St : Type} (s : shape) (n : St -> C -> N * St) (e : St -> C -> A -> E * St).

    (** mod.rs:83-93 the inner loop over the axes; [j] is [enumerate]'s index. *)
    Fixpoint new_edges_loop (m : mode) (offset : Offset) (c : C) (j : nat)
      (edges : list (Array2 (option E))) (st : St)
      : outcome (list (Array2 (option E)) * St) :=
      match edges with
      | [] => Ok ([], st)
      | edge :: rest =>
          let! a := ax_from_index_unchecked (sh_axis s) m j in
          let! d := ax_foward (sh_axis s) m a in
          let! t := sh_move_coord s m c d in
          let (edge', st') :=
            match t with
            | None => (edge, st)
            | Some _ =>
                let (ex, st') := e st c a in
                (match array_set edge (fst offset) (snd offset) (Some ex) with
                 | Some edge' => edge'
                 | None => edge
                 end, st')
            end in
          let! (rest', st'') := new_edges_loop m offset c (S j) rest st' in
          Ok (edge' :: rest', st'')
      end.

    (** mod.rs:79-94 one round of the outer loop.  [nodes] is the array of nodes; it is
        written through its flat slice ([as_slice_mut] succeeds on a fresh array). *)
    Definition new_with_step (m : mode)
      (acc : Array2 (option N) * list (Array2 (option E)) * St) (i : Z)
      : outcome (Array2 (option N) * list (Array2 (option E)) * St) :=
      let '(nodes, edges, st) := acc in
      let! offset := sh_index_to_offset s i in
      let! c := sh_offset_to_coordinate s m offset in
      let (nw, st) := n st c in
      let! nodes :=
        if (0 <=? i) && (i <? Z.of_nat (length (cells nodes)))
        then Ok (mkArray2 (nrows nodes) (ncols nodes)
                   (list_set (cells nodes) (Z.to_nat i) (Some nw)))
        else Fail FUB in
      let! (edges, st) := new_edges_loop m offset c 0 edges st in
      Ok (nodes, edges, st).

    (** mod.rs:70-96 *)
    Definition new_with (m : mode) (st : St) : outcome (graph * St) :=
      let! u := new_uninit m s in
      let! count := sh_node_count s m in
      let! (nodes, edges, st) :=
        fold_outcome (new_with_step m) (zrange count) (g_nodes u, g_edges u, st) in
      Ok (assume_init (mkGraph nodes edges s), st).
  End NewWith.

  (** mod.rs:61-67 [new] (also [new_s], mod.rs:106-112, and [default], 196-205). *)
  Definition new_default (m : mode) (s : shape) (dn : N) (de : E) : outcome graph :=
    let! (g, _) := new_with s (fun st _ => (dn, st)) (fun st _ _ => (de, st)) m tt in
    Ok g.

  (** ** Weights *)

  (** [Vec::get_unchecked]: undefined behaviour outside. *)
  Definition edges_get_unchecked (g : graph) (ax : nat) : outcome (Array2 (option E)) :=
    match nth_error (g_edges g) ax with Some a => Ok a | None => Fail FUB end.

  (** mod.rs:218-222 *)
  Definition node_weight (m : mode) (g : graph) (id : C) : outcome (option N) :=
    let! o := sh_to_offset (g_s g) m id in
    match o with
    | None => Ok None
    | Some o =>
        let! x := array_uget m (g_nodes g) (fst o) (snd o) in
        let! w := read_slot x in Ok (Some w)
    end.

  (** mod.rs:224-239 *)
  Definition edge_weight (m : mode) (g : graph) (id : C * A) : outcome (option E) :=
    let! o := sh_to_offset (g_s g) m (fst id) in
    match o with
    | None => Ok None
    | Some o =>
        let ax := ax_to_index (sh_axis (g_s g)) (snd id) in
        let! d := ax_foward (sh_axis (g_s g)) m (snd id) in
        let! t := sh_move_coord (g_s g) m (fst id) d in
        match t with
        | None => Ok None
        | Some _ =>
            let! a := edges_get_unchecked g ax in
            let! x := array_uget m a (fst o) (snd o) in
            let! w := read_slot x in Ok (Some w)
        end
    end.

  (** The two [_mut] accessors hand out a mutable reference; the model takes the update
      [f] which the caller applies to the slot and returns the new graph ([None] when
      the method returns [None]). *)

  Definition set_nodes (g : graph) (a : Array2 (option N)) : graph :=
    mkGraph a (g_edges g) (g_s g).
  Definition set_edges (g : graph) (ax : nat) (a : Array2 (option E)) : graph :=
    mkGraph (g_nodes g) (list_set (g_edges g) ax a) (g_s g).

  Definition update_slot {X} (m : mode) (a : Array2 (option X)) (o : Offset)
    (f : option X -> option X) : outcome (Array2 (option X)) :=
    let! x := array_uget m a (fst o) (snd o) in
    match array_set a (fst o) (snd o) (f x) with
    | Some a' => Ok a'
    | None => unreachable_debug_checked m
    end.

  (** mod.rs:243-248 *)
  Definition node_weight_mut (m : mode) (g : graph) (id : C) (f : option N -> option N)
    : outcome (option graph) :=
    let! o := sh_to_offset (g_s g) m id in
    match o with
    | None => Ok None
    | Some o => let! a := update_slot m (g_nodes g) o f in Ok (Some (set_nodes g a))
    end.

  (** mod.rs:250-263 *)
  Definition edge_weight_mut (m : mode) (g : graph) (id : C * A) (f : option E -> option E)
    : outcome (option graph) :=
    let! o := sh_to_offset (g_s g) m (fst id) in
    match o with
    | None => Ok None
    | Some o =>
        let ax := ax_to_index (sh_axis (g_s g)) (snd id) in
        let! d := ax_foward (sh_axis (g_s g)) m (snd id) in
        let! t := sh_move_coord (g_s g) m (fst id) d in
        match t with
        | None => Ok None
        | Some _ =>
            let! a := edges_get_unchecked g ax in
            let! a' := update_slot m a o f in
            Ok (Some (set_edges g ax a'))
        end
    end.

  (** mod.rs:280-287 *)
  Definition node_weight_unchecked_raw (g : graph) (o : Offset) : outcome N :=
    let! x := unwrap_unchecked (array_get (g_nodes g) (fst o) (snd o)) in
    read_slot x.

  (** mod.rs:269-276 *)
  Definition node_weight_unchecked (m : mode) (g : graph) (id : C) : outcome N :=
    let! o := sh_to_offset_unchecked (g_s g) m id in
    node_weight_unchecked_raw g o.

  (** mod.rs:302-310 *)
  Definition edge_weight_unchecked_raw (g : graph) (o : Offset) (ax : nat) : outcome E :=
    let! a := edges_get_unchecked g ax in
    let! x := unwrap_unchecked (array_get a (fst o) (snd o)) in
    read_slot x.

  (** mod.rs:291-298 *)
  Definition edge_weight_unchecked (m : mode) (g : graph) (id : C * A) : outcome E :=
    let! o := sh_to_offset_unchecked (g_s g) m (fst id) in
    edge_weight_unchecked_raw g o (ax_to_index (sh_axis (g_s g)) (snd id)).

  (** [get_mut(..).unwrap_unchecked()] followed by the caller's update. *)
  Definition update_slot_unchecked {X} (a : Array2 (option X)) (o : Offset)
    (f : option X -> option X) : outcome (Array2 (option X)) :=
    let! x := unwrap_unchecked (array_get a (fst o) (snd o)) in
    unwrap_unchecked (array_set a (fst o) (snd o) (f x)).

  (** mod.rs:314-323 *)
  Definition node_weight_mut_unchecked (m : mode) (g : graph) (id : C)
    (f : option N -> option N) : outcome graph :=
    let! o := sh_to_offset_unchecked (g_s g) m id in
    let! a := update_slot_unchecked (g_nodes g) o f in
    Ok (set_nodes g a).

  (** mod.rs:327-337 *)
  Definition edge_weight_mut_unchecked (m : mode) (g : graph) (id : C * A)
    (f : option E -> option E) : outcome graph :=
    let! o := sh_to_offset_unchecked (g_s g) m (fst id) in
    let ax := ax_to_index (sh_axis (g_s g)) (snd id) in
    let! a := edges_get_unchecked g ax in
    let! a' := update_slot_unchecked a o f in
    Ok (set_edges g ax a').

  (** mod.rs:340-352 [is_directed] of the graph's [EdgeType]. *)
  Definition is_directed (g : graph) : bool := ax_DIRECTED (sh_axis (g_s g)).

  (** ** Nodes *)

  (** nodes.rs:87-92, 94-98 [node_count] and [node_bound] *)
  Definition node_count (m : mode) (g : graph) : outcome Z := sh_node_count (g_s g) m.
  Definition node_bound (m : mode) (g : graph) : outcome Z := sh_node_count (g_s g) m.

  (** nodes.rs:100-103 *)
  Definition to_index (m : mode) (g : graph) (a : C) : outcome Z :=
    let! i := sh_to_index (g_s g) m a in unwrap i.

  (** nodes.rs:105-108 *)
  Definition from_index (m : mode) (g : graph) (i : Z) : outcome C :=
    sh_index_to_coordinate (g_s g) m i.

  (** nodes.rs:19-27 [NodeIndices::next]; the state is [index]. *)
  Definition node_indices_next (m : mode) (s : shape) (index : Z)
    : outcome (option C * Z) :=
    let! count := sh_node_count s m in
    if index <? count then
      let! x := sh_index_to_coordinate s m index in
      let! index := usize_add m index 1 in
      Ok (Some x, index)
    else Ok (None, index).

  (** nodes.rs:29-32 *)
  Definition node_indices_size_hint (m : mode) (s : shape) (index : Z)
    : outcome (Z * option Z) :=
    let! count := sh_node_count s m in
    let! len := usize_sub m count index in
    Ok (len, Some len).

  (** nodes.rs:42-47 [node_identifiers]: initial state. *)
  Definition node_identifiers (g : graph) : Z := 0.

  (** nodes.rs:59-67 *)
  Definition node_references_next (m : mode) (g : graph) (index : Z)
    : outcome (option (C * N) * Z) :=
    let! count := sh_node_count (g_s g) m in
    if index <? count then
      let! x := sh_index_to_coordinate (g_s g) m index in
      let! index := usize_add m index 1 in
      let! w := node_weight_unchecked m g x in
      Ok (Some (x, w), index)
    else Ok (None, index).

  (** nodes.rs:56-68 has no [size_hint], so it is [Iterator]'s default. *)
  Definition node_references_size_hint (index : Z) : outcome (Z * option Z) :=
    Ok (0, None).

  (** [ExactSizeIterator::len] (its default, used by nodes.rs:37 and 72):
      [assert_eq!(upper, Some(lower))]. *)
  Definition exact_len (hint : outcome (Z * option Z)) : outcome Z :=
    let! (lower, upper) := hint in
    match upper with
    | Some u => if u =? lower then Ok lower else Fail FPanic
    | None => Fail FPanic
    end.

  (** nodes.rs:79-84 *)
  Definition node_references (g : graph) : Z := 0.

  (** ** Neighbours *)

  (** neighbors.rs:34-46.  [rounds] is the number of rounds the [while] can still make,
      [UNDIRECTED_COUNT - state]. *)
  Fixpoint neighbors_loop (m : mode) (s : shape) (node : C) (rounds state : nat)
    : outcome (option C * nat) :=
    match rounds with
    | O => Ok (None, state)
    | S rounds' =>
        let! d := dir_from_index_unchecked (ax_dir (sh_axis s)) m state in
        let! n := sh_move_coord s m node d in
        match n with
        | Some target => Ok (Some target, S state)
        | None => neighbors_loop m s node rounds' (S state)
        end
    end.

  Definition neighbors_next (m : mode) (g : graph) (node : C) (state : nat)
    : outcome (option C * nat) :=
    neighbors_loop m (g_s g) node (ax_UNDIRECTED_COUNT (sh_axis (g_s g)) - state) state.

  (** neighbors.rs:48-51 *)
  Definition neighbors_size_hint (m : mode) (g : graph) (state : nat)
    : outcome (Z * option Z) :=
    let! x := usize_sub m (Z.of_nat (ax_UNDIRECTED_COUNT (sh_axis (g_s g))))
                (Z.of_nat state) in
    Ok (0, Some x).

  (** neighbors.rs:71-73 and 84-86: initial states. *)
  Definition neighbors (g : graph) (a : C) : nat := 0.
  Definition neighbors_directed (g : graph) (a : C) (_ : PetDirection) : nat := 0.

  (** neighbors.rs:97-99 *)
  Definition is_adjacent (m : mode) (g : graph) (a b : C) : outcome bool :=
    sh_is_neighbor (g_s g) m a b.

  (** ** Edges of a node *)

  (** edges.rs:87-103 the default [get_raw_id].  [st - COUNT] on a smaller [st] panics
      in debug; in release it wraps to an index outside of the edge arrays. *)
  Definition default_get_raw_id (m : mode) (s : shape) (d : D) (source : Offset)
    (target : C) (st : nat) : outcome (Offset * nat) :=
    let! f := ax_is_forward_direction (sh_axis s) m d in
    if f then Ok (source, st)
    else
      let! o := sh_to_offset_unchecked s m target in
      if Nat.ltb st (ax_COUNT (sh_axis s)) then unreachable_debug_checked m
      else Ok (o, (st - ax_COUNT (sh_axis s))%nat).

  (** edges.rs:121-139 *)
  Definition get_raw_id (m : mode) (k : DtMarker) (s : shape) (d : D) (source : Offset)
    (target : C) (st : nat) : outcome (Offset * nat) :=
    match k, ax_DIRECTED (sh_axis s) with
    | PetMarker Incoming, true =>
        let! a := ax_from_direction (sh_axis s) m d in
        let! b := ax_backward (sh_axis s) m a in
        let da := dir_to_index (ax_dir (sh_axis s)) b in
        let! o := sh_to_offset_unchecked s m target in
        Ok (o, da)
    | _, _ => default_get_raw_id m s d source target st
    end.

  (** edges.rs:159-172 *)
  Definition edges_new_d (m : mode) (g : graph) (a : C) (k : DtMarker)
    : outcome (EdgesState C) :=
    let! offset := sh_to_offset (g_s g) m a in
    let state := match offset with
                 | Some _ => 0%nat | None => ax_UNDIRECTED_COUNT (sh_axis (g_s g)) end in
    match offset with
    | Some o => Ok (mkEdges a o state k)
    | None => unreachable_debug_checked m
    end.

  (** edges.rs:174-186 *)
  Definition edges_new_unchecked (m : mode) (g : graph) (a : C) (k : DtMarker)
    : outcome (EdgesState C) :=
    let! offset := sh_to_offset (g_s g) m a in
    match offset with
    | Some o => Ok (mkEdges a o 0%nat k)
    | None => unreachable_debug_checked m
    end.

  (** edges.rs:200-205 the bound of [state]. *)
  Definition edges_bound (s : shape) (k : DtMarker) : nat :=
    if dt_DIRECTED k then ax_COUNT (sh_axis s) else ax_UNDIRECTED_COUNT (sh_axis s).

  (** edges.rs:199-235.  [rounds] as in [neighbors_loop]. *)
  Fixpoint edges_loop (m : mode) (g : graph) (it : EdgesState C) (rounds : nat)
    : outcome (option (EdgeReference C E D) * EdgesState C) :=
    match rounds with
    | O => Ok (None, it)
    | S rounds' =>
        let s := g_s g in
        let ax := sh_axis s in
        let st := ed_state it in
        let! d := dir_from_index_unchecked (ax_dir ax) m st in
        let! n := sh_move_coord s m (ed_node it) d in
        let it' := mkEdges (ed_node it) (ed_offset it) (S st) (ed_directed it) in
        match n with
        | Some target =>
            let! (nx, ne) := get_raw_id m (ed_directed it) s d (ed_offset it) target st in
            let! a := ax_from_direction ax m d in
            let! _ := debug_assert m (Nat.eqb (ax_to_index ax a) ne) in
            let! w := edge_weight_unchecked_raw g nx ne in
            let (source_id, target_id) :=
              if dt_need_reverse (ed_directed it) then (target, ed_node it)
              else (ed_node it, target) in
            Ok (Some (mkEdgeRef source_id target_id w d), it')
        | None => edges_loop m g it' rounds'
        end
    end.

  Definition edges_next (m : mode) (g : graph) (it : EdgesState C)
    : outcome (option (EdgeReference C E D) * EdgesState C) :=
    edges_loop m g it (edges_bound (g_s g) (ed_directed it) - ed_state it).

  (** edges.rs:237-244 *)
  Definition edges_size_hint (m : mode) (g : graph) (it : EdgesState C)
    : outcome (Z * option Z) :=
    let! x := usize_sub m (Z.of_nat (edges_bound (g_s g) (ed_directed it)))
                (Z.of_nat (ed_state it)) in
    Ok (0, Some x).

  (** edges.rs:263-265 and 280-282 *)
  Definition edges (m : mode) (g : graph) (a : C) : outcome (EdgesState C) :=
    edges_new_d m g a AxisDirMarker.
  Definition edges_directed (m : mode) (g : graph) (a : C) (d : PetDirection)
    : outcome (EdgesState C) :=
    edges_new_d m g a (PetMarker d).

  (** edges.rs:60-62 [EdgeRef::id] *)
  Definition er_id (m : mode) (s : shape) (r : EdgeReference C E D) : outcome (C * A) :=
    let! a := ax_from_direction (sh_axis s) m (er_direction r) in
    Ok (er_source r, a).

  (** ** All edges *)

  (** edges.rs:353-359 *)
  Definition edge_references (g : graph) : EdgeRefsState C := mkEdgeRefs None 0.

  (** edges.rs:303-320 *)
  Definition edge_references_next (m : mode) (g : graph) (it : EdgeRefsState C)
    : outcome (option (EdgeReference C E D) * EdgeRefsState C) :=
    loop (fun it =>
      let! (next, it) :=
        match ers_e it with
        | Some e =>
            let! (next, e') := edges_next m g e in
            Ok (next, mkEdgeRefs (Some e') (ers_index it))
        | None => Ok (None, it)
        end in
      match next with
      | Some r => Ok (inr (Some r, it))
      | None =>
          let! count := sh_node_count (g_s g) m in
          if ers_index it <? count then
            let! x := sh_index_to_coordinate (g_s g) m (ers_index it) in
            let! index := usize_add m (ers_index it) 1 in
            let! e := edges_new_unchecked m g x AxisMarker in
            Ok (inl (mkEdgeRefs (Some e) index))
          else Ok (inr (None, it))
      end) it.

  (** edges.rs:322-331 *)
  Definition edge_references_size_hint (m : mode) (g : graph) (it : EdgeRefsState C)
    : outcome (Z * option Z) :=
    let! count := node_count m g in
    let! node_len := usize_sub m count (ers_index it) in
    let! x := usize_mul m node_len (Z.of_nat (ax_UNDIRECTED_COUNT (sh_axis (g_s g)))) in
    let! y :=
      match ers_e it with
      | None => Ok 0
      | Some e =>
          let! (_, u) := edges_size_hint m g e in
          Ok (match u with Some u => u | None => 0 end)
      end in
    let! maxlen := usize_add m x y in
    Ok (0, Some maxlen).

  (** ** Visit map *)

  (** mod.rs:354-359 (the shape is the graph's). *)
  Definition VisMap : Type := list FixedBitSet.

  (** mod.rs:362-370, 406-408 *)
  Definition visit_map (g : graph) : VisMap :=
    repeat (bits_new (sh_vertical (g_s g))) (Z.to_nat (sh_horizontal (g_s g))).

  (** mod.rs:374-381 *)
  Definition vm_visit (m : mode) (s : shape) (vm : VisMap) (a : C)
    : outcome (bool * VisMap) :=
    let! o := sh_to_offset s m a in
    match o with
    | Some o =>
        let! b := vec_index vm (fst o) in
        let! (old, b') := bits_put b (snd o) in
        Ok (negb old, list_set vm (Z.to_nat (fst o)) b')
    | None => Ok (false, vm)
    end.

  (** mod.rs:383-390 *)
  Definition vm_is_visited (m : mode) (s : shape) (vm : VisMap) (a : C) : outcome bool :=
    let! o := sh_to_offset s m a in
    match o with
    | Some o => let! b := vec_index vm (fst o) in Ok (bits_contains b (snd o))
    | None => Ok false
    end.

  (** mod.rs:392-400 *)
  Definition vm_unvisit (m : mode) (s : shape) (vm : VisMap) (a : C)
    : outcome (bool * VisMap) :=
    let! o := sh_to_offset s m a in
    match o with
    | Some o =>
        let! b := vec_index vm (fst o) in
        let! b' := bits_set b (snd o) false in
        Ok (true, list_set vm (Z.to_nat (fst o)) b')
    | None => Ok (false, vm)
    end.

  (** mod.rs:410-412 *)
  Definition reset_map (g : graph) (vm : VisMap) : VisMap := map bits_clear vm.

  (** ** Clone and comparison, derived in mod.rs:24 *)

  (** Cloning an array: [Vec::clone] copies the memory when the element type is [Copy]
      ([copy = true]); otherwise it calls [clone] on every element, which reads it. *)
  Definition clone_array {X} (copy : bool) (a : Array2 (option X))
    : outcome (Array2 (option X)) :=
    if copy then Ok a
    else
      let! l := fold_outcome (fun l x => let! w := read_slot x in Ok (l ++ [Some w]))
                  (cells a) [] in
      Ok (mkArray2 (nrows a) (ncols a) l).

  Definition clone_graph (copy_n copy_e : bool) (g : graph) : outcome graph :=
    let! nodes := clone_array copy_n (g_nodes g) in
    let! edges := fold_outcome (fun l a => let! a' := clone_array copy_e a in Ok (l ++ [a']))
                    (g_edges g) [] in
    Ok (mkGraph nodes edges (g_s g)).

  (** Comparing two arrays element by element; both elements are read. *)
  Fixpoint eq_cells {X} (eqb : X -> X -> bool) (l1 l2 : list (option X)) : outcome bool :=
    match l1, l2 with
    | x :: l1', y :: l2' =>
        let! a := read_slot x in
        let! b := read_slot y in
        if eqb a b then eq_cells eqb l1' l2' else Ok false
    | _, _ => Ok true
    end.

  Definition eq_array {X} (eqb : X -> X -> bool) (a b : Array2 (option X)) : outcome bool :=
    if (nrows a =? nrows b) && (ncols a =? ncols b)
    then eq_cells eqb (cells a) (cells b) else Ok false.

  Fixpoint eq_arrays {X} (eqb : X -> X -> bool) (l1 l2 : list (Array2 (option X)))
    : outcome bool :=
    match l1, l2 with
    | [], [] => Ok true
    | a :: l1', b :: l2' =>
        let! r := eq_array eqb a b in
        if r then eq_arrays eqb l1' l2' else Ok false
    | _, _ => Ok false
    end.

  (** Derived [PartialEq]: nodes, then edges, then the shapes ([seq] is their result). *)
  Definition eq_graph (neq : N -> N -> bool) (eeq : E -> E -> bool) (seq : bool)
    (g1 g2 : graph) : outcome bool :=
    let! a := eq_array neq (g_nodes g1) (g_nodes g2) in
    if a then
      let! b := eq_arrays eeq (g_edges g1) (g_edges g2) in
      Ok (b && seq)
    else Ok false.

  (** ** Drop, mod.rs:175-194 *)

  (** A run of a destructor: on the node in cell [k], or on the edge value that lay in
      cell [k] of the array of axis [j].  [init] tells whether the cell had been
      written. *)
  Inductive DropEvent :=
  | DropNode (k : nat) (init : bool)
  | DropEdge (j k : nat) (init : bool).

  Definition is_init {X} (x : option X) : bool :=
    match x with Some _ => true | None => false end.

  (** mod.rs:185-189 the loop over the zipped coordinates and edge values of axis [j];
      [index] is the state of [ni], [k] the position in the array.  [drop_in_place] runs
      the destructor once; the loop variable [e], owned by the loop body, is dropped at
      the end of every round. *)
  Fixpoint drop_zip (m : mode) (s : shape) (d : D) (j : nat) (index : Z) (k : nat)
    (l : list (option E)) : outcome (list DropEvent) :=
    let! (c, index') := node_indices_next m s index in
    match c, l with
    | Some c, x :: l' =>
        let! t := sh_move_coord s m c d in
        let here := DropEdge j k (is_init x) in
        let evs := match t with Some _ => [here; here] | None => [here] end in
        let! rest := drop_zip m s d j index' (S k) l' in
        Ok (evs ++ rest)
    | _, _ =>
        (* the zip ends; the iterator over the array drops what it has left *)
        Ok (map (fun p => DropEdge j (fst p) (is_init (snd p)))
              (combine (List.seq k (length l)) l))
    end.

  (** mod.rs:183-190 *)
  Fixpoint drop_axes (m : mode) (s : shape) (j : nat) (l : list (Array2 (option E)))
    : outcome (list DropEvent) :=
    match l with
    | [] => Ok []
    | a :: l' =>
        let! ax := ax_from_index_unchecked (sh_axis s) m j in
        let! d := ax_foward (sh_axis s) m ax in
        let! evs := drop_zip m s d j 0 0 (cells a) in
        let! rest := drop_axes m s (S j) l' in
        Ok (evs ++ rest)
    end.

  (** The destructor (mod.rs:176-193) followed by the drop glue of the fields: the nodes
      array runs the destructor of every node.  [needs_drop_n], [needs_drop_e]: the
      values of [needs_drop::<N>()] and [needs_drop::<E>()]. *)
  Definition drop_graph (m : mode) (needs_drop_n needs_drop_e : bool) (g : graph)
    : outcome (list DropEvent) :=
    let! evs := if needs_drop_e then drop_axes m (g_s g) 0 (g_edges g) else Ok [] in
    let nodes :=
      if needs_drop_n
      then map (fun p => DropNode (fst p) (is_init (snd p)))
             (combine (List.seq 0 (length (cells (g_nodes g)))) (cells (g_nodes g)))
      else [] in
    Ok (evs ++ nodes).

  (** ** [new_with] with closures that may panic *)

  Section NewWithPanics.
    (** A call that panics gives [None] (and may have changed the state before). *)
    Context {St : Type} (s : shape) (n : St -> C -> option N * St)
      (e : St -> C -> A -> option E * St).

    (** mod.rs:83-93 as [new_edges_loop]; the flag is [false] after a panic. *)
    Fixpoint new_edges_loop_p (m : mode) (offset : Offset) (c : C) (j : nat)
      (edges : list (Array2 (option E))) (st : St)
      : outcome (list (Array2 (option E)) * St * bool) :=
      match edges with
      | [] => Ok ([], st, true)
      | edge :: rest =>
          let! a := ax_from_index_unchecked (sh_axis s) m j in
          let! d := ax_foward (sh_axis s) m a in
          let! t := sh_move_coord s m c d in
          match t with
          | None =>
              let! (rest', st', ok) := new_edges_loop_p m offset c (S j) rest st in
              Ok (edge :: rest', st', ok)
          | Some _ =>
              let (ex, st') := e st c a in
              match ex with
              | None => Ok (edge :: rest, st', false)
              | Some ex =>
                  let edge' :=
                    match array_set edge (fst offset) (snd offset) (Some ex) with
                    | Some edge' => edge'
                    | None => edge
                    end in
                  let! (rest', st'', ok) := new_edges_loop_p m offset c (S j) rest st' in
                  Ok (edge' :: rest', st'', ok)
              end
          end
      end.

    (** mod.rs:79-94 as [new_with_step]; after a panic nothing more is done. *)
    Definition new_with_step_p (m : mode)
      (acc : Array2 (option N) * list (Array2 (option E)) * St * bool) (i : Z)
      : outcome (Array2 (option N) * list (Array2 (option E)) * St * bool) :=
      let '(nodes, edges, st, ok) := acc in
      if (ok : bool) then
        let! offset := sh_index_to_offset s i in
        let! c := sh_offset_to_coordinate s m offset in
        let (nw, st) := n st c in
        match nw with
        | None => Ok (nodes, edges, st, false)
        | Some nw =>
            let! nodes :=
              if (0 <=? i) && (i <? Z.of_nat (length (cells nodes)))
              then Ok (mkArray2 (nrows nodes) (ncols nodes)
                         (list_set (cells nodes) (Z.to_nat i) (Some nw)))
              else Fail FUB in
            let! (edges, st, ok) := new_edges_loop_p m offset c 0 edges st in
            Ok (nodes, edges, st, ok)
        end
      else Ok acc.

    (** mod.rs:70-96.  [inl]: the graph; [inr]: a closure panicked, and unwinding dropped the
        local [uninit], a graph whose weights are [MaybeUninit], which need no drop. *)
    Definition new_with_p (m : mode) (st : St)
      : outcome ((graph * St) + (list DropEvent * St)) :=
      let! u := new_uninit m s in
      let! count := sh_node_count s m in
      let! (nodes, edges, st, ok) :=
        fold_outcome (new_with_step_p m) (zrange count) (g_nodes u, g_edges u, st, true) in
      let uninit := mkGraph nodes edges s in
      if (ok : bool) then Ok (inl (assume_init uninit, st))
      else let! evs := drop_graph m false false uninit in Ok (inr (evs, st)).
  End NewWithPanics.
End Graph.
