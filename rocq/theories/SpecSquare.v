(** * SpecSquare: what [SquareGraph] is supposed to be.

    The nodes are the positions (x, y) of a rectangle of [h] columns and [v] rows.  The
    neighbour in a direction is one step away; on a looped board positions are taken modulo
    the size.  Nothing here refers to how the code stores or moves positions. *)

From Verif Require Import Machine Store Axes Spec SquareGraph.

(** ** Directions and sizes *)

Definition sq_axis_vec (a : SqAxis) : Vec :=
  match a with Horizontal => (1, 0) | Vertical => (0, 1) end.
Definition sq_dir_vec (d : SquareDirection) : Vec :=
  match d with Foward a => sq_axis_vec a | Backward a => vneg (sq_axis_vec a) end.

Definition loops_h (S : LoopShape) : bool :=
  match S with DefaultShape | VerticalLoop => false | HorizontalLoop | HVLoop => true end.
Definition loops_v (S : LoopShape) : bool :=
  match S with DefaultShape | HorizontalLoop => false | VerticalLoop | HVLoop => true end.

(** The sizes for which a graph can be made: at least one column, at least one row unless
    the board is looped vertically, and not more nodes than ndarray's limit. *)
Definition sq_size (S : LoopShape) (h v : Z) : Prop :=
  1 <= h /\ (if loops_v S then 0 else 1) <= v /\ h * Z.max 1 v < 2 ^ 63.

(** The index type has a value for every column and every row. *)
Definition sq_index_fits (ix : IxType) (h v : Z) : Prop :=
  h <= ix_size ix /\ v <= ix_size ix.

Definition sq_nodes (h v : Z) : list NodeIndex := board h v (fun x y => (x, y)).

Definition on_board (h v : Z) (n : NodeIndex) : Prop :=
  0 <= fst n < h /\ 0 <= snd n < v.

(** ** Adjacency *)

Definition wrapped (loop : bool) (n x : Z) : option Z :=
  if (0 <=? x) && (x <? n) then Some x
  else if loop then Some (x mod n) else None.

Definition sq_neighbour (S : LoopShape) (h v : Z) (n : NodeIndex) (d : SquareDirection)
  : option NodeIndex :=
  match wrapped (loops_h S) h (fst n + fst (sq_dir_vec d)),
        wrapped (loops_v S) v (snd n + snd (sq_dir_vec d)) with
  | Some x, Some y => Some (x, y)
  | _, _ => None
  end.

(** Left, right, down, up. *)
Definition sq_directions : list SquareDirection :=
  [Backward Horizontal; Foward Horizontal; Backward Vertical; Foward Vertical].

Definition sq_neighbours (S : LoopShape) (h v : Z) (n : NodeIndex) : list NodeIndex :=
  flat_map (fun d => match sq_neighbour S h v n d with Some t => [t] | None => [] end)
    sq_directions.

(** ** Edges *)

(** The edge (n, a) joins [n] to the node one step forward along [a]. *)
Definition sq_edge_exists (S : LoopShape) (h v : Z) (e : EdgeIndex) : Prop :=
  on_board h v (fst e) /\ sq_neighbour S h v (fst e) (Foward (snd e)) <> None.

(** The name of the edge that joins [n] to its neighbour [t] in direction [d]. *)
Definition sq_edge_name (n : NodeIndex) (d : SquareDirection) (t : NodeIndex) : EdgeIndex :=
  match d with Foward a => (n, a) | Backward a => (t, a) end.

(** What can be observed of a reference to an edge: id, weight, source and target. *)
Definition EdgeView (E : Type) : Type := (EdgeIndex * E * NodeIndex * NodeIndex)%type.

Definition sq_view {E} (ix : IxType) (S : LoopShape) (m : mode) (r : SqEdgeReference E)
  : outcome (EdgeView E) :=
  let! s := sr_source (ix := ix) (S := S) m r in
  let! t := sr_target (ix := ix) (S := S) m r in
  Ok (sr_id r, sr_weight r, s, t).

Definition view_id {E} (x : EdgeView E) : EdgeIndex := fst (fst (fst x)).
Definition plain_view {E} (x : EdgeView E) : NodeIndex * NodeIndex * E :=
  let '(_, w, s, t) := x in (s, t, w).

Section Edges.
  Context {E : Type} (S : LoopShape) (h v : Z) (ef : EdgeIndex -> E).

  Definition sq_edge_view (n : NodeIndex) (d : SquareDirection) : option (EdgeView E) :=
    match sq_neighbour S h v n d with
    | Some t => Some (sq_edge_name n d t, ef (sq_edge_name n d t), n, t)
    | None => None
    end.

  (** The edges of a node, in the order of its neighbours. *)
  Definition sq_edges_of (n : NodeIndex) : list (EdgeView E) :=
    flat_map (fun d => match sq_edge_view n d with Some x => [x] | None => [] end)
      sq_directions.

  (** All edges: by node, the horizontal one before the vertical one. *)
  Definition sq_all_edges : list (EdgeView E) :=
    flat_map (fun n =>
      flat_map (fun a => match sq_edge_view n (Foward a) with Some x => [x] | None => [] end)
        [Horizontal; Vertical]) (sq_nodes h v).
End Edges.

(** The numbers of columns of horizontal edges and of rows of vertical edges. *)
Definition edge_columns (S : LoopShape) (h : Z) : Z := if loops_h S then h else h - 1.
Definition edge_rows (S : LoopShape) (v : Z) : Z := if loops_v S then v else v - 1.

(** ** Construction and writes *)

(** The closures of [new_with] as functions of the node and of the edge. *)
Definition node_fun {N St} (fn : St -> NodeIndex -> N * St) (st : St) (x y : Z) : N * St :=
  fn st (x, y).
Definition edge_fun {E St} (fe : St -> NodeIndex -> SqAxis -> E * St)
  (st : St) (x y : Z) (a : SqAxis) : E * St := fe st (x, y) a.

(** The calls that construction makes: all nodes, all horizontal edges, all vertical
    edges. *)
Definition sq_calls (S : LoopShape) (h v : Z) : list (Call SqAxis) :=
  map (fun n => CallNode n) (sq_nodes h v) ++
  map (fun n => CallEdge n Horizontal) (sq_nodes (edge_columns S h) v) ++
  map (fun n => CallEdge n Vertical) (sq_nodes h (edge_rows S v)).

(** The arrays have the same number of rows, of columns and of elements. *)
Definition same_size {X} (a b : Array2 X) : Prop :=
  nrows a = nrows b /\ ncols a = ncols b /\ length (cells a) = length (cells b).

(** An array with [r] rows and [c] columns. *)
Definition is_array {X} (a : Array2 X) (r c : Z) : Prop :=
  nrows a = r /\ ncols a = c /\ Z.of_nat (length (cells a)) = r * c.

(** [SqBuilt m h v g nf ef]: [g] was made by [new_with] with sizes [h] and [v], or by
    [new_raw] from arrays of the sizes that belong to them, and then changed by any number of writes through the accessors, or by exchanging one of its arrays
    for another one of the same size; [nf] and [ef] say what the weights should be by now. *)
Inductive SqBuilt {N E ix S} (m : mode) (h v : Z)
  : SquareGraph N E ix S -> (NodeIndex -> N) -> (EdgeIndex -> E) -> Prop :=
| sq_built_new nf ef g :
    sg_new_with m h v (node_fun (fun u n => (nf n, u))) (edge_fun (fun u n a => (ef (n, a), u))) tt
      = Ok (g, tt) ->
    SqBuilt m h v g nf ef
| sq_built_raw na ha va nf ef g :
    is_array na h v -> is_array ha (edge_columns S h) v -> is_array va h (edge_rows S v) ->
    new_raw m na ha va = Ok g ->
    (forall x y w, array_get na x y = Some w -> nf (x, y) = w) ->
    (forall x y w, array_get ha x y = Some w -> ef ((x, y), Horizontal) = w) ->
    (forall x y w, array_get va x y = Some w -> ef ((x, y), Vertical) = w) ->
    SqBuilt m h v g nf ef
| sq_built_node g nf ef n f nf' g' :
    SqBuilt m h v g nf ef ->
    sg_node_weight_mut g n f = Some g' ->
    nf' n = f (nf n) -> (forall n', n' <> n -> nf' n' = nf n') ->
    SqBuilt m h v g' nf' ef
| sq_built_edge g nf ef e f ef' g' :
    SqBuilt m h v g nf ef ->
    sg_edge_weight_mut g e f = Some g' ->
    ef' e = f (ef e) -> (forall e', e' <> e -> ef' e' = ef e') ->
    SqBuilt m h v g' nf ef'
| sq_built_nodes g nf ef f nf' :
    SqBuilt m h v g nf ef ->
    same_size (f (sg_nodes g)) (sg_nodes g) ->
    (forall x y w, array_get (f (sg_nodes g)) x y = Some w -> nf' (x, y) = w) ->
    SqBuilt m h v (nodes_mut g f) nf' ef
| sq_built_horizontal g nf ef f ef' :
    SqBuilt m h v g nf ef ->
    same_size (f (sg_horizontal g)) (sg_horizontal g) ->
    (forall x y w, array_get (f (sg_horizontal g)) x y = Some w -> ef' ((x, y), Horizontal) = w) ->
    (forall n, ef' (n, Vertical) = ef (n, Vertical)) ->
    SqBuilt m h v (horizontal_mut g f) nf ef'
| sq_built_vertical g nf ef f ef' :
    SqBuilt m h v g nf ef ->
    same_size (f (sg_vertical g)) (sg_vertical g) ->
    (forall x y w, array_get (f (sg_vertical g)) x y = Some w -> ef' ((x, y), Vertical) = w) ->
    (forall n, ef' (n, Horizontal) = ef (n, Horizontal)) ->
    SqBuilt m h v (vertical_mut g f) nf ef'.

(** Histories of writes. *)
Inductive SqWrite (N E : Type) :=
| SqWriteNode (n : NodeIndex) (f : N -> N)
| SqWriteEdge (e : EdgeIndex) (f : E -> E).
Arguments SqWriteNode {N E}.
Arguments SqWriteEdge {N E}.

(** The answers tell whether the accessor returned a reference. *)
Fixpoint sq_write_run {N E ix S} (g : SquareGraph N E ix S) (ops : list (SqWrite N E))
  : list bool * SquareGraph N E ix S :=
  match ops with
  | [] => ([], g)
  | op :: ops =>
      let r := match op with
               | SqWriteNode n f => sg_node_weight_mut g n f
               | SqWriteEdge e f => sg_edge_weight_mut g e f
               end in
      let g' := match r with Some g' => g' | None => g end in
      let (l, g'') := sq_write_run g' ops in
      (match r with Some _ => true | None => false end :: l, g'')
  end.

Definition sq_axis_eqb (a b : SqAxis) : bool := veqb (sq_axis_vec a) (sq_axis_vec b).
Definition on_board_b (h v : Z) (n : NodeIndex) : bool :=
  (0 <=? fst n) && (fst n <? h) && (0 <=? snd n) && (snd n <? v).

(** The same writes on two maps. *)
Fixpoint sq_write_spec {N E} (S : LoopShape) (h v : Z) (nf : NodeIndex -> N)
  (ef : EdgeIndex -> E) (ops : list (SqWrite N E))
  : list bool * (NodeIndex -> N) * (EdgeIndex -> E) :=
  match ops with
  | [] => ([], nf, ef)
  | SqWriteNode n f :: ops =>
      let b := on_board_b h v n in
      let nf' := fun n' : NodeIndex => if b && same_cell n' n then f (nf n') else nf n' in
      let '(l, nf, ef) := sq_write_spec S h v nf' ef ops in
      (b :: l, nf, ef)
  | SqWriteEdge e f :: ops =>
      let b := on_board_b h v (fst e) &&
               match sq_neighbour S h v (fst e) (Foward (snd e)) with
               | Some _ => true | None => false end in
      let ef' := fun e' : EdgeIndex => if b && same_cell (fst e') (fst e) && sq_axis_eqb (snd e') (snd e)
                           then f (ef e') else ef e' in
      let '(l, nf, ef) := sq_write_spec S h v nf ef' ops in
      (b :: l, nf, ef)
  end.

(** A step forward over the rim of a looped board with more than one column (row). *)
Definition forward_wrap (S : LoopShape) (h v : Z) (n : NodeIndex) (d : SquareDirection) : Prop :=
  match d with
  | Foward Horizontal => loops_h S = true /\ fst n + 1 = h /\ h <> 1
  | Foward Vertical => loops_v S = true /\ snd n + 1 = v /\ v <> 1
  | Backward _ => False
  end.

(** ** Visit maps *)

(** The operations of [VisitOp] (Spec.v) on the map of a [SquareGraph]; the answers of
    [unvisit] and [reset_map] are left out. *)
Definition sq_visit_op {N E ix S} (g : SquareGraph N E ix S) (vm : list FixedBitSet)
  (op : VisitOp) : outcome (option bool * list FixedBitSet) :=
  match op with
  | Visit c => let! (b, vm) := svm_visit vm c in Ok (Some b, vm)
  | Unvisit c => let! (b, vm) := svm_unvisit vm c in Ok (None, vm)
  | IsVisited c => let! b := svm_is_visited vm c in Ok (Some b, vm)
  | ResetMap => Ok (None, sg_reset_map g vm)
  end.
Fixpoint sq_visit_run {N E ix S} (g : SquareGraph N E ix S) (vm : list FixedBitSet)
  (ops : list VisitOp) : outcome (list (option bool) * list FixedBitSet) :=
  match ops with
  | [] => Ok ([], vm)
  | op :: ops =>
      let! (b, vm) := sq_visit_op g vm op in
      let! (l, vm) := sq_visit_run g vm ops in
      Ok (b :: l, vm)
  end.

(** The operation is called with a position of the board. *)
Definition sq_visit_allowed (h v : Z) (op : VisitOp) : Prop :=
  match op with
  | Visit c | Unvisit c | IsVisited c => on_board h v c
  | ResetMap => True
  end.

(** ** Paths *)

(** [SqPath m g n a b]: following [neighbors] leads from [a] to [b] in [n] steps. *)
Inductive SqPath {N E ix S} (m : mode) (g : SquareGraph N E ix S)
  : nat -> NodeIndex -> NodeIndex -> Prop :=
| sq_path_here a : SqPath m g 0 a a
| sq_path_step n a b c l :
    Drains (sg_neighbors_next (ix := ix) (S := S) m) (sg_neighbors g a) l -> In b l ->
    SqPath m g n b c -> SqPath m g (Datatypes.S n) a c.

(** The Manhattan distance. *)
Definition manhattan (a b : NodeIndex) : Z := Z.abs (fst a - fst b) + Z.abs (snd a - snd b).

(** [n] is the length of a shortest path from [a] to [b]. *)
Definition sq_shortest {N E ix S} (m : mode) (g : SquareGraph N E ix S) (a b : NodeIndex) (n : Z)
  : Prop :=
  (exists k, SqPath m g k a b /\ Z.of_nat k = n) /\
  forall k, SqPath m g k a b -> n <= Z.of_nat k.

(** The distance of [x] and [y] on a line of [n] cells, or on a ring if it is looped. *)
Definition ring_distance (looped : bool) (n x y : Z) : Z :=
  if looped then Z.min (Z.abs (x - y)) (n - Z.abs (x - y)) else Z.abs (x - y).
(** The distance on the board with the loops of [S]. *)
Definition sq_distance (S : LoopShape) (h v : Z) (a b : NodeIndex) : Z :=
  ring_distance (loops_h S) h (fst a) (fst b) + ring_distance (loops_v S) v (snd a) (snd b).

(** Components that are also values of [isize]; those of nodes on a board always are. *)
Definition small_index (n : NodeIndex) : Prop := 0 <= fst n < 2 ^ 63 /\ 0 <= snd n < 2 ^ 63.

(** ** Misuse *)

(** Both components are values of the index type. *)
Definition is_index (ix : IxType) (n : NodeIndex) : Prop :=
  0 <= fst n < ix_size ix /\ 0 <= snd n < ix_size ix.

(** What an access outside an array leads to: a panic with debug assertions, undefined
    behaviour without. *)
Definition out_of_bounds (m : mode) : fault :=
  match m with Debug => FPanic | Release => FUB end.

(** Iterating yields some items, or none, and then fails with [f]. *)
Definition Breaks {St X} (next : St -> outcome (option X * St)) (it : St) (f : fault) : Prop :=
  exists l it', Consumed next it l it' /\ next it' = Fail f.

(** ** The successor *)

(** The axes of [SquareShape] by their names here. *)
Definition new_axis (a : SquareAxis) : SqAxis := match a with SX => Horizontal | SY => Vertical end.
