(** * SquareGraph: the deprecated [square::SquareGraph], src/square/*.rs.

    File names in the citations are relative to /repo/src/square.  The markers [Ix] and
    [S], type parameters in Rust, are parameters of the type of graphs here too.  All slots
    of these arrays are initialised, so weights are stored as they are. *)

From Verif Require Import Machine Store.

(** ** Index types *)

(** The types for which petgraph implements [IndexType] (on a 64-bit target). *)
Inductive IxType := IxU8 | IxU16 | IxU32 | IxUsize.

(** The number of values of the type. *)
Definition ix_size (ix : IxType) : Z :=
  match ix with IxU8 => 2 ^ 8 | IxU16 => 2 ^ 16 | IxU32 => 2 ^ 32 | IxUsize => 2 ^ 64 end.

(** [Ix::new(x)] is [x as Ix], which truncates; [Ix::index] is [as usize], which changes
    nothing; [Ix::default()] is 0. *)
Definition ix_new (ix : IxType) (x : Z) : Z := x mod ix_size ix.

(** ** index.rs *)

(** index.rs:4-8 *)
Inductive SqAxis := Horizontal | Vertical.

(** index.rs:23-26 *)
Inductive SquareDirection := Foward (a : SqAxis) | Backward (a : SqAxis).

(** index.rs:12-14 *)
Definition axis_is_horizontal (a : SqAxis) : bool :=
  match a with Horizontal => true | Vertical => false end.
(** index.rs:16-18 *)
Definition axis_is_vertical (a : SqAxis) : bool :=
  match a with Horizontal => false | Vertical => true end.

(** index.rs:30-44 *)
Definition sd_up : SquareDirection := Foward Vertical.
Definition sd_down : SquareDirection := Backward Vertical.
Definition sd_left : SquareDirection := Backward Horizontal.
Definition sd_right : SquareDirection := Foward Horizontal.

(** index.rs:45-49 *)
Definition sd_is_horizontal (d : SquareDirection) : bool :=
  match d with Foward x | Backward x => axis_is_horizontal x end.
(** index.rs:50-54 *)
Definition sd_is_vertical (d : SquareDirection) : bool :=
  match d with Foward x | Backward x => axis_is_vertical x end.

(** index.rs:57-65 *)
Definition sd_of_pair (p : SqAxis * bool) : SquareDirection :=
  if snd p then Foward (fst p) else Backward (fst p).
(** index.rs:67-74 *)
Definition sd_to_pair (d : SquareDirection) : SqAxis * bool :=
  match d with Backward x => (x, false) | Foward x => (x, true) end.

(** index.rs:78-81: (horizontal, vertical), both values of type [Ix]. *)
Definition NodeIndex : Type := (Z * Z)%type.

(** index.rs:174-177: (node, axis). *)
Definition EdgeIndex : Type := (NodeIndex * SqAxis)%type.

(** index.rs:93-97.  [unsigned_abs] cannot overflow. *)
Definition ni_distance (m : mode) (n t : NodeIndex) : outcome Z :=
  let! dh := isize_sub m (as_isize (fst n)) (as_isize (fst t)) in
  let! dv := isize_sub m (as_isize (snd n)) (as_isize (snd t)) in
  usize_add m (Z.abs dh) (Z.abs dv).

(** index.rs:122-127 *)
Definition ni_up (ix : IxType) (m : mode) (n : NodeIndex) : outcome NodeIndex :=
  let! y := usize_add m (snd n) 1 in Ok (fst n, ix_new ix y).
(** index.rs:130-135 *)
Definition ni_down (ix : IxType) (m : mode) (n : NodeIndex) : outcome NodeIndex :=
  let! y := usize_sub m (snd n) 1 in Ok (fst n, ix_new ix y).
(** index.rs:138-143 *)
Definition ni_right (ix : IxType) (m : mode) (n : NodeIndex) : outcome NodeIndex :=
  let! x := usize_add m (fst n) 1 in Ok (ix_new ix x, snd n).
(** index.rs:146-151 *)
Definition ni_left (ix : IxType) (m : mode) (n : NodeIndex) : outcome NodeIndex :=
  let! x := usize_sub m (fst n) 1 in Ok (ix_new ix x, snd n).

(** index.rs:106-119, also [From<(NodeIndex, SquareDirection)>], 185-189. *)
Definition ni_get_edge_id_unchecked (ix : IxType) (m : mode) (n : NodeIndex)
  (dir : SquareDirection) : outcome EdgeIndex :=
  match dir with
  | Foward x => Ok (n, x)
  | Backward Vertical =>
      let! y := usize_sub m (snd n) 1 in Ok ((fst n, ix_new ix y), Vertical)
  | Backward Horizontal =>
      let! x := usize_sub m (fst n) 1 in Ok ((ix_new ix x, snd n), Horizontal)
  end.

(** index.rs:160-164 [From<(usize, usize)>] *)
Definition ni_of_pair (ix : IxType) (p : Z * Z) : NodeIndex :=
  (ix_new ix (fst p), ix_new ix (snd p)).

(** ** mod.rs: markers *)

(** mod.rs:88-128: the four marker types.  (The trait is public; other implementations are
    not modelled.) *)
Inductive LoopShape := DefaultShape | HorizontalLoop | VerticalLoop | HVLoop.

(** mod.rs:36, 100, 123 *)
Definition LOOP_HORIZONTAL (s : LoopShape) : bool :=
  match s with HorizontalLoop | HVLoop => true | _ => false end.
(** mod.rs:38, 111, 122 *)
Definition LOOP_VERTICAL (s : LoopShape) : bool :=
  match s with VerticalLoop | HVLoop => true | _ => false end.

(** mod.rs:67-85: the four [SizeInfo] types; [None] for a component that is (). *)
Definition SizeInfo : Type := (option Z * option Z)%type.

(** mod.rs:93, 102-104, 113-115, 125-127 *)
Definition get_sizeinfo (s : LoopShape) (h v : Z) : SizeInfo :=
  match s with
  | DefaultShape => (None, None)
  | HorizontalLoop => (Some h, None)
  | VerticalLoop => (None, Some v)
  | HVLoop => (Some h, Some v)
  end.

(** mod.rs:53-55, 69-71, 79-81 *)
Definition horizontal_size (m : mode) (s : SizeInfo) : outcome Z :=
  match fst s with Some h => Ok h | None => unreachable_debug_checked m end.
(** mod.rs:62-64, 74-76, 82-84 *)
Definition vertical_size (m : mode) (s : SizeInfo) : outcome Z :=
  match snd s with Some v => Ok v | None => unreachable_debug_checked m end.

(** ** mod.rs: the graph *)

(** mod.rs:140-150 *)
Record SquareGraph (N E : Type) (ix : IxType) (S : LoopShape) := mkSquare {
  sg_nodes : Array2 N;
  sg_horizontal : Array2 E;
  sg_vertical : Array2 E
}.
Arguments mkSquare {N E ix S}.
Arguments sg_nodes {N E ix S}.
Arguments sg_horizontal {N E ix S}.
Arguments sg_vertical {N E ix S}.

(** edges.rs:25-31; the [edge_weight] reference is modelled by the value behind it. *)
Record SqEdgeReference (E : Type) := mkSqRef {
  sr_id : EdgeIndex;
  sr_weight : E;
  sr_direction : bool;
  sr_s : SizeInfo
}.
Arguments mkSqRef {E}.
Arguments sr_id {E}.
Arguments sr_weight {E}.
Arguments sr_direction {E}.
Arguments sr_s {E}.

(** nodes.rs:23-29 *)
Record SqNodeIndices := mkNI { ni_h_max : Z; ni_h : Z; ni_v_max : Z; ni_v : Z }.

(** nodes.rs:88-91; the array iterator is the list of the elements to come. *)
Record SqNodeReferences (N : Type) := mkNR { nr_indices : SqNodeIndices; nr_nodes : list N }.
Arguments mkNR {N}.
Arguments nr_indices {N}.
Arguments nr_nodes {N}.

(** edges.rs:98-104 (without the references to the arrays). *)
Record SqEdgeReferences := mkER { er_nodes : SqNodeIndices; er_prv : option NodeIndex }.

(** neighbors.rs:11-17 *)
Record SqNeighbors := mkNB { nb_node : NodeIndex; nb_state : Z; nb_h : Z; nb_v : Z }.

(** edges.rs:174-178 (without the graph reference). *)
Record SqEdges := mkSE { se_node : NodeIndex; se_state : Z }.

Section Square.
  Context {N E : Type} {ix : IxType} {S : LoopShape}.
  Notation graph := (SquareGraph N E ix S).

  (** mod.rs:356-358, 361-363 *)
  Definition horizontal_node_count (g : graph) : Z := nrows (sg_nodes g).
  Definition vertical_node_count (g : graph) : Z := ncols (sg_nodes g).

  (** mod.rs:238-245 ([&&] is lazy) *)
  Definition check_gen (m : mode) (g : graph) : outcome bool :=
    let! x := usize_add m (nrows (sg_horizontal g)) (if LOOP_HORIZONTAL S then 0 else 1) in
    if (nrows (sg_nodes g) =? x)
       && (ncols (sg_nodes g) =? ncols (sg_horizontal g))
       && (nrows (sg_nodes g) =? nrows (sg_vertical g))
    then
      let! y := usize_add m (ncols (sg_vertical g)) (if LOOP_VERTICAL S then 0 else 1) in
      Ok (ncols (sg_nodes g) =? y)
    else Ok false.

  (** mod.rs:166-176.  The argument of [debug_assert!] is not evaluated in release. *)
  Definition new_raw (m : mode) (nodes : Array2 N) (horizontal vertical : Array2 E)
    : outcome graph :=
    let s := mkSquare nodes horizontal vertical in
    match m with
    | Debug => let! b := check_gen m s in let! _ := debug_assert m b in Ok s
    | Release => Ok s
    end.

  (** mod.rs:197-201, 211-215, 226-230: two nested loops pushing one element per round; the
      closure is [FnMut], modelled by passing a state. *)
  Definition fill {St X : Type} (f : St -> Z -> Z -> X * St) (h v : Z) (st : St)
    : list X * St :=
    fold_left (fun acc hi =>
      fold_left (fun acc vi =>
        let '(l, st) := acc in
        let '(x, st) := f st hi vi in
        (l ++ [x], st)) (zrange v) acc) (zrange h) ([], st).

  (** mod.rs:188-235.  Running out of memory (in [Vec::with_capacity] and [push]) and
      panics of the closures are not modelled. *)
  Definition sg_new_with {St : Type} (m : mode) (h v : Z)
    (fnode : St -> Z -> Z -> N * St) (fedge : St -> Z -> Z -> SqAxis -> E * St) (st : St)
    : outcome (graph * St) :=
    if negb (0 <? h) then Fail FPanic else
    let! _ := usize_mul m h v in
    let '(nodes_vec, st) := fill fnode h v st in
    let! nodes := array_from_vec h v nodes_vec in
    let! mh := if LOOP_HORIZONTAL S then Ok h else usize_sub m h 1 in
    let! _ := usize_mul m mh v in
    let '(horizontal_vec, st) := fill (fun st x y => fedge st x y Horizontal) mh v st in
    let! horizontal := array_from_vec mh v horizontal_vec in
    let! mv := if LOOP_VERTICAL S then Ok v else usize_sub m v 1 in
    let! _ := usize_mul m h mv in
    let '(vertical_vec, st) := fill (fun st x y => fedge st x y Vertical) h mv st in
    let! vertical := array_from_vec h mv vertical_vec in
    let! g := new_raw m nodes horizontal vertical in
    Ok (g, st).

  (** mod.rs:179-185 *)
  Definition sg_new (m : mode) (h v : Z) (dn : N) (de : E) : outcome graph :=
    let! (g, _) := sg_new_with m h v (fun st _ _ => (dn, st)) (fun st _ _ _ => (de, st)) tt in
    Ok g.

  (** mod.rs:249-324.  The guards of the arms are tried in order. *)
  Definition get_edge_id (m : mode) (g : graph) (node : NodeIndex) (dir : SquareDirection)
    : outcome (option (EdgeIndex * bool)) :=
    let x := fst node in
    let y := snd node in
    match dir with
    | Foward Vertical =>
        let! y1 := usize_add m y 1 in
        if y1 <? vertical_node_count g then Ok (Some ((node, Vertical), true))
        else if LOOP_VERTICAL S && (y1 =? vertical_node_count g)
        then Ok (Some (((x, 0), Vertical), true))
        else Ok None
    | Foward Horizontal =>
        let! x1 := usize_add m x 1 in
        if x1 <? horizontal_node_count g then Ok (Some ((node, Horizontal), true))
        else if LOOP_HORIZONTAL S && (x1 =? horizontal_node_count g)
        then Ok (Some (((0, y), Horizontal), true))
        else Ok None
    | Backward Vertical =>
        if negb (y =? 0) then
          let! n := ni_down ix m node in Ok (Some ((n, Vertical), false))
        else if LOOP_VERTICAL S && (y =? 0) then
          let! v1 := usize_sub m (vertical_node_count g) 1 in
          Ok (Some (((x, ix_new ix v1), Vertical), false))
        else Ok None
    | Backward Horizontal =>
        if negb (x =? 0) then
          let! n := ni_left ix m node in Ok (Some ((n, Horizontal), false))
        else if LOOP_HORIZONTAL S && (x =? 0) then
          let! h1 := usize_sub m (horizontal_node_count g) 1 in
          Ok (Some (((ix_new ix h1, y), Horizontal), false))
        else Ok None
    end.

  (** mod.rs:328-348 *)
  Definition get_edge_reference (m : mode) (g : graph) (n : NodeIndex) (dir : SquareDirection)
    : outcome (option (SqEdgeReference E)) :=
    let! r := get_edge_id m g n dir in
    match r with
    | None => Ok None
    | Some (e, fo) =>
        let! w :=
          if sd_is_horizontal dir
          then array_uget m (sg_horizontal g) (fst (fst e)) (snd (fst e))
          else array_uget m (sg_vertical g) (fst (fst e)) (snd (fst e)) in
        Ok (Some (mkSqRef e w fo
              (get_sizeinfo S (horizontal_node_count g) (vertical_node_count g))))
    end.

  (** mod.rs:430-432 *)
  Definition sg_node_weight (g : graph) (id : NodeIndex) : option N :=
    array_get (sg_nodes g) (fst id) (snd id).

  (** mod.rs:434-440 *)
  Definition sg_edge_weight (g : graph) (id : EdgeIndex) : option E :=
    array_get (match snd id with Horizontal => sg_horizontal g | Vertical => sg_vertical g end)
      (fst (fst id)) (snd (fst id)).

  (** [Array2::get_mut] followed by the caller's update [f] of the element. *)
  Definition array_update {X} (a : Array2 X) (r c : Z) (f : X -> X) : option (Array2 X) :=
    match array_get a r c with
    | Some x => array_set a r c (f x)
    | None => None
    end.

  (** mod.rs:447-450 *)
  Definition sg_node_weight_mut (g : graph) (id : NodeIndex) (f : N -> N) : option graph :=
    option_map (fun a => mkSquare a (sg_horizontal g) (sg_vertical g))
      (array_update (sg_nodes g) (fst id) (snd id) f).

  (** mod.rs:452-458 *)
  Definition sg_edge_weight_mut (g : graph) (id : EdgeIndex) (f : E -> E) : option graph :=
    match snd id with
    | Horizontal =>
        option_map (fun a => mkSquare (sg_nodes g) a (sg_vertical g))
          (array_update (sg_horizontal g) (fst (fst id)) (snd (fst id)) f)
    | Vertical =>
        option_map (fun a => mkSquare (sg_nodes g) (sg_horizontal g) a)
          (array_update (sg_vertical g) (fst (fst id)) (snd (fst id)) f)
    end.

  (** mod.rs:381-393: the whole array can be exchanged through the reference. *)
  Definition nodes_mut (g : graph) (f : Array2 N -> Array2 N) : graph :=
    mkSquare (f (sg_nodes g)) (sg_horizontal g) (sg_vertical g).
  Definition horizontal_mut (g : graph) (f : Array2 E -> Array2 E) : graph :=
    mkSquare (sg_nodes g) (f (sg_horizontal g)) (sg_vertical g).
  Definition vertical_mut (g : graph) (f : Array2 E -> Array2 E) : graph :=
    mkSquare (sg_nodes g) (sg_horizontal g) (f (sg_vertical g)).

  (** ** nodes.rs *)

  (** nodes.rs:31-40 *)
  Definition node_indices_new (h v : Z) : SqNodeIndices := mkNI h 0 v 0.

  (** nodes.rs:16-18 *)
  Definition sg_node_identifiers (g : graph) : SqNodeIndices :=
    node_indices_new (horizontal_node_count g) (vertical_node_count g).

  (** nodes.rs:46-59 *)
  Definition sg_node_indices_next (m : mode) (it : SqNodeIndices)
    : outcome (option NodeIndex * SqNodeIndices) :=
    if ni_v it <? ni_v_max it then
      let! v := usize_add m (ni_v it) 1 in
      Ok (Some (ix_new ix (ni_h it), ix_new ix (ni_v it)),
          mkNI (ni_h_max it) (ni_h it) (ni_v_max it) v)
    else
      let! h1 := usize_add m (ni_h it) 1 in
      if h1 <? ni_h_max it
      then Ok (Some (ix_new ix h1, ix_new ix 0), mkNI (ni_h_max it) h1 (ni_v_max it) 1)
      else Ok (None, it).

  (** nodes.rs:61-64 *)
  Definition sg_node_indices_size_hint (m : mode) (it : SqNodeIndices)
    : outcome (Z * option Z) :=
    let! a := usize_sub m (ni_h_max it) (ni_h it) in
    let! b := usize_mul m (ni_v_max it) a in
    let! len := usize_sub m b (ni_v it) in
    Ok (len, Some len).

  (** nodes.rs:78-83; ndarray iterates in row major order. *)
  Definition sg_node_references (g : graph) : SqNodeReferences N :=
    mkNR (sg_node_identifiers g) (cells (sg_nodes g)).

  (** nodes.rs:100-103 *)
  Definition sg_node_references_next (m : mode) (it : SqNodeReferences N)
    : outcome (option (NodeIndex * N) * SqNodeReferences N) :=
    match nr_nodes it with
    | [] => Ok (None, it)
    | n :: rest =>
        let! (i, indices) := sg_node_indices_next m (nr_indices it) in
        Ok (match i with Some i => Some (i, n) | None => None end, mkNR indices rest)
    end.

  (** nodes.rs:105-107 *)
  Definition sg_node_references_size_hint (it : SqNodeReferences N) : Z * option Z :=
    let n := Z.of_nat (length (nr_nodes it)) in (n, Some n).

  (** nodes.rs:137-139, 146-148 *)
  Definition sg_node_count (g : graph) : Z := Z.of_nat (length (cells (sg_nodes g))).
  Definition sg_node_bound (g : graph) : Z := Z.of_nat (length (cells (sg_nodes g))).

  (** mod.rs:461-466 [is_directed] of the graph's [EdgeType], which is [Undirected]. *)
  Definition sg_is_directed (g : graph) : bool := false.

  (** nodes.rs:150-152 *)
  Definition sg_to_index (m : mode) (g : graph) (a : NodeIndex) : outcome Z :=
    let! x := usize_mul m (fst a) (vertical_node_count g) in
    usize_add m x (snd a).

  (** nodes.rs:154-157 *)
  Definition sg_from_index (g : graph) (i : Z) : outcome NodeIndex :=
    let h := vertical_node_count g in
    let! x := usize_div i h in
    let! y := usize_rem i h in
    Ok (ni_of_pair ix (x, y)).

  (** ** neighbors.rs *)

  (** neighbors.rs:82-90 (also [neighbors_directed], 100-112). *)
  Definition sg_neighbors (g : graph) (a : NodeIndex) : SqNeighbors :=
    mkNB a 0 (horizontal_node_count g) (vertical_node_count g).

  (** neighbors.rs:29-57: the value of the [match] when an arm with a node is taken, [None]
      for the arm that continues. *)
  Definition neighbor_at (m : mode) (it : SqNeighbors) : outcome (option NodeIndex) :=
    let n := nb_node it in
    let x := fst n in
    let y := snd n in
    if nb_state it =? 0 then
      if negb (x =? 0) then let! t := ni_left ix m n in Ok (Some t)
      else if LOOP_HORIZONTAL S && (x =? 0) then
        let! h1 := usize_sub m (nb_h it) 1 in Ok (Some (ix_new ix h1, y))
      else Ok None
    else if nb_state it =? 1 then
      let! x1 := usize_add m x 1 in
      if x1 <? nb_h it then let! t := ni_right ix m n in Ok (Some t)
      else if LOOP_HORIZONTAL S && (x1 =? nb_h it) then Ok (Some (ix_new ix 0, y))
      else Ok None
    else if nb_state it =? 2 then
      if negb (y =? 0) then let! t := ni_down ix m n in Ok (Some t)
      else if LOOP_VERTICAL S && (y =? 0) then
        let! v1 := usize_sub m (nb_v it) 1 in Ok (Some (x, ix_new ix v1))
      else Ok None
    else
      let! y1 := usize_add m y 1 in
      if y1 <? nb_v it then let! t := ni_up ix m n in Ok (Some t)
      else if LOOP_VERTICAL S && (y1 =? nb_v it) then Ok (Some (x, ix_new ix 0))
      else Ok None.

  (** neighbors.rs:26-61 *)
  Definition sg_neighbors_next (m : mode) (it : SqNeighbors)
    : outcome (option NodeIndex * SqNeighbors) :=
    loop (fun it =>
      if 4 <=? nb_state it then Ok (inr (None, it)) else
      let! t := neighbor_at m it in
      let! st := usize_add m (nb_state it) 1 in
      let it' := mkNB (nb_node it) st (nb_h it) (nb_v it) in
      match t with
      | Some t => Ok (inr (Some t, it'))
      | None => Ok (inl it')
      end) it.

  (** neighbors.rs:63-65 *)
  Definition sg_neighbors_size_hint (m : mode) (it : SqNeighbors) : outcome (Z * option Z) :=
    let! x := usize_sub m 4 (nb_state it) in Ok (0, Some x).

  (** ** edges.rs *)

  (** edges.rs:43-69 *)
  Definition sr_get_node (m : mode) (r : SqEdgeReference E) (is_source : bool)
    : outcome NodeIndex :=
    let node := fst (sr_id r) in
    if is_source then Ok node else
    match snd (sr_id r) with
    | Horizontal =>
        let! wraps :=
          if LOOP_HORIZONTAL S then
            let! x1 := usize_add m (fst node) 1 in
            let! h := horizontal_size m (sr_s r) in
            Ok (x1 =? h)
          else Ok false in
        if wraps then Ok (ix_new ix 0, snd node) else ni_right ix m node
    | Vertical =>
        let! wraps :=
          if LOOP_VERTICAL S then
            let! y1 := usize_add m (snd node) 1 in
            let! v := vertical_size m (sr_s r) in
            Ok (y1 =? v)
          else Ok false in
        if wraps then Ok (fst node, ix_new ix 0) else ni_up ix m node
    end.

  (** edges.rs:78-80, 83-85 *)
  Definition sr_source (m : mode) (r : SqEdgeReference E) : outcome NodeIndex :=
    sr_get_node m r (sr_direction r).
  Definition sr_target (m : mode) (r : SqEdgeReference E) : outcome NodeIndex :=
    sr_get_node m r (negb (sr_direction r)).

  (** edges.rs:107-115, 18-20 *)
  Definition sg_edge_references (g : graph) : SqEdgeReferences :=
    mkER (node_indices_new (horizontal_node_count g) (vertical_node_count g)) None.

  (** edges.rs:125-169 *)
  Definition sg_edge_references_next (m : mode) (g : graph) (it : SqEdgeReferences)
    : outcome (option (SqEdgeReference E) * SqEdgeReferences) :=
    let s := get_sizeinfo S (ni_h_max (er_nodes it)) (ni_v_max (er_nodes it)) in
    loop (fun it =>
      match er_prv it with
      | None =>
          let! (x, nodes) := sg_node_indices_next m (er_nodes it) in
          match x with
          | None => Ok (inr (None, mkER nodes (er_prv it)))
          | Some x =>
              let it' := mkER nodes (Some x) in
              match array_get (sg_horizontal g) (fst x) (snd x) with
              | Some ew => Ok (inr (Some (mkSqRef (x, Horizontal) ew true s), it'))
              | None => Ok (inl it')
              end
          end
      | Some x =>
          let it' := mkER (er_nodes it) None in
          match array_get (sg_vertical g) (fst x) (snd x) with
          | Some ew => Ok (inr (Some (mkSqRef (x, Vertical) ew true s), it'))
          | None => Ok (inl it')
          end
      end) it.

  (** edges.rs:308-314 *)
  Definition sg_edges (g : graph) (a : NodeIndex) : SqEdges := mkSE a 0.

  (** edges.rs:193-280: the value of the [match], [None] for [break 'inner]. *)
  Definition edge_at (m : mode) (g : graph) (it : SqEdges)
    : outcome (option (SqEdgeReference E)) :=
    let n := se_node it in
    let x := fst n in
    let y := snd n in
    let s := get_sizeinfo S (horizontal_node_count g) (vertical_node_count g) in
    if se_state it =? 0 then
      if (x =? 0) && negb (LOOP_HORIZONTAL S) then Ok None else
      let! new_n :=
        if x =? 0 then
          let! h1 := usize_sub m (horizontal_node_count g) 1 in Ok (ix_new ix h1, y)
        else ni_left ix m n in
      let! w := array_uget m (sg_horizontal g) (fst new_n) (snd new_n) in
      Ok (Some (mkSqRef (new_n, Horizontal) w false s))
    else if se_state it =? 1 then
      let! _ := debug_assert m (x <? horizontal_node_count g) in
      let! last := if LOOP_HORIZONTAL S then Ok false else
                   let! x1 := usize_add m x 1 in Ok (x1 =? horizontal_node_count g) in
      if (last : bool) then Ok None else
      let! w := array_uget m (sg_horizontal g) x y in
      Ok (Some (mkSqRef (n, Horizontal) w true s))
    else if se_state it =? 2 then
      if (y =? 0) && negb (LOOP_VERTICAL S) then Ok None else
      let! new_n :=
        if y =? 0 then
          let! v1 := usize_sub m (vertical_node_count g) 1 in Ok (x, ix_new ix v1)
        else ni_down ix m n in
      let! w := array_uget m (sg_vertical g) (fst new_n) (snd new_n) in
      Ok (Some (mkSqRef (new_n, Vertical) w false s))
    else
      let! _ := debug_assert m (y <? vertical_node_count g) in
      let! last := if LOOP_VERTICAL S then Ok false else
                   let! y1 := usize_add m y 1 in Ok (y1 =? vertical_node_count g) in
      if (last : bool) then Ok None else
      let! w := array_uget m (sg_vertical g) x y in
      Ok (Some (mkSqRef (n, Vertical) w true s)).

  (** edges.rs:187-286 *)
  Definition sg_edges_next (m : mode) (g : graph) (it : SqEdges)
    : outcome (option (SqEdgeReference E) * SqEdges) :=
    loop (fun it =>
      if 4 <=? se_state it then Ok (inr (None, it)) else
      let! er := edge_at m g it in
      let! st := usize_add m (se_state it) 1 in
      let it' := mkSE (se_node it) st in
      match er with
      | Some er => Ok (inr (Some er, it'))
      | None => Ok (inl it')
      end) it.

  (** edges.rs:288-290 *)
  Definition sg_edges_size_hint (m : mode) (it : SqEdges) : outcome (Z * option Z) :=
    let! x := usize_sub m 4 (se_state it) in Ok (0, Some x).

  (** ** Visit map *)

  (** mod.rs:475-481, 505-507 *)
  Definition sg_visit_map (g : graph) : list FixedBitSet :=
    repeat (bits_new (vertical_node_count g)) (Z.to_nat (horizontal_node_count g)).

  (** mod.rs:485-487 *)
  Definition svm_visit (vm : list FixedBitSet) (a : NodeIndex)
    : outcome (bool * list FixedBitSet) :=
    let! b := vec_index vm (fst a) in
    let! (old, b') := bits_put b (snd a) in
    Ok (negb old, list_set vm (Z.to_nat (fst a)) b').

  (** mod.rs:489-491 *)
  Definition svm_is_visited (vm : list FixedBitSet) (a : NodeIndex) : outcome bool :=
    let! b := vec_index vm (fst a) in Ok (bits_contains b (snd a)).

  (** mod.rs:493-496 *)
  Definition svm_unvisit (vm : list FixedBitSet) (a : NodeIndex)
    : outcome (bool * list FixedBitSet) :=
    let! b := vec_index vm (fst a) in
    let! b' := bits_set b (snd a) false in
    Ok (true, list_set vm (Z.to_nat (fst a)) b').

  (** mod.rs:509-511 *)
  Definition sg_reset_map (g : graph) (vm : list FixedBitSet) : list FixedBitSet :=
    map bits_clear vm.
End Square.

(** mod.rs:402-407 *)
Definition sg_new_edge_graph {E ix S St} (m : mode) (h v : Z)
  (fedge : St -> Z -> Z -> SqAxis -> E * St) (st : St)
  : outcome (SquareGraph unit E ix S * St) :=
  sg_new_with m h v (fun st _ _ => (tt, st)) fedge st.
