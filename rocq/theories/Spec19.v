(** * Spec19: what a shape made by a user has to keep to.

    src/lattice_abstract/shapes.rs:1-3: "If you want to create your own lattice based graph,
    use this to implement your own lattice".  The traits are documented method by method; the
    records below collect what the documentation asks for, in terms of the methods alone.

    Coordinates are pairs of numbers, as everywhere in this model, so this is about shapes
    whose coordinate type can be read as pairs. *)

From Verif Require Import Machine Store Axes Shapes Lattice Spec.

(** All directions, in index order: those along the axes, and for an undirected axis type
    those against the axes (shapes.rs:215-222, [UNDIRECTED_COUNT]). *)
Definition all_dirs {A D} (directed : bool) (axes : list A) (fwd : A -> D) (opp : D -> D)
  : list D :=
  map fwd axes ++ (if directed then [] else map (fun a => opp (fwd a)) axes).

(** What the implementation [ax] of [Axis] (shapes.rs:211-251) and of [AxisDirection]
    (shapes.rs:253-276) has to keep to in build mode [m].  [axes] lists the axes, [fwd a] is
    the direction in which [a] points, and [opp d] the direction opposite to [d]. *)
Record AxisContract {A D} (m : mode) (ax : AxisOps A D)
  (axes : list A) (fwd : A -> D) (opp : D -> D) : Prop := {
  (* [to_index], [from_index] and [from_index_unchecked] number the axes *)
  axc_count : ax_COUNT ax = length axes;
  axc_to_index : forall a, nth_error axes (ax_to_index ax a) = Some a;
  axc_from_index : forall i, ax_from_index ax i = nth_error axes i;
  axc_index : forall i a, nth_error axes i = Some a -> ax_to_index ax a = i;
  axc_unchecked : forall i a, nth_error axes i = Some a -> ax_from_index_unchecked ax m i = Ok a;
  (* the same of the directions *)
  axc_size : Z.of_nat (ax_UNDIRECTED_COUNT ax) < 2 ^ 64;
  axc_dcount : ax_UNDIRECTED_COUNT ax = length (all_dirs (ax_DIRECTED ax) axes fwd opp);
  axc_dto_index : forall d, nth_error (all_dirs (ax_DIRECTED ax) axes fwd opp)
    (dir_to_index (ax_dir ax) d) = Some d;
  axc_dfrom_index : forall i, dir_from_index (ax_dir ax) i
    = nth_error (all_dirs (ax_DIRECTED ax) axes fwd opp) i;
  axc_dindex : forall i d, nth_error (all_dirs (ax_DIRECTED ax) axes fwd opp) i = Some d ->
    dir_to_index (ax_dir ax) d = i;
  axc_dunchecked : forall i d, nth_error (all_dirs (ax_DIRECTED ax) axes fwd opp) i = Some d ->
    dir_from_index_unchecked (ax_dir ax) m i = Ok d;
  (* [foward] and [backward] *)
  axc_foward : forall a, ax_foward ax m a = Ok (fwd a);
  axc_backward : forall a, ax_backward ax m a = Ok (opp (fwd a));
  axc_opp : forall d, opp (opp d) = d;
  axc_turn : forall d, opp d <> d;
  (* [from_direction] and [is_forward_direction] *)
  axc_from : forall a, ax_from_direction ax m (fwd a) = Ok a;
  axc_forward : forall a, ax_is_forward_direction ax m (fwd a) = Ok true;
  axc_from_back : ax_DIRECTED ax = false ->
    forall a, ax_from_direction ax m (opp (fwd a)) = Ok a;
  axc_back : ax_DIRECTED ax = false ->
    forall a, ax_is_forward_direction ax m (opp (fwd a)) = Ok false
}.

(** What the implementation [s] of [Shape] (shapes.rs:10-126) has to keep to.  [cell x y] is
    the coordinate stored at offset (x, y), [step c d] where a move from [c] in direction [d]
    leads, if anywhere, and [coord] holds of the values of the coordinate type. *)
Record ShapeContract {A D} (m : mode) (s : Shape Cell A D)
  (axes : list A) (fwd : A -> D) (opp : D -> D)
  (cell : Z -> Z -> Cell) (step : Cell -> D -> option Cell) (coord : Cell -> Prop) : Prop := {
  shc_axis : AxisContract m (sh_axis s) axes fwd opp;
  (* the board can be allocated *)
  shc_fits : fits (sh_horizontal s) (sh_vertical s);
  shc_eqb : forall a b, sh_eqb s a b = true <-> a = b;
  (* [to_offset] and [offset_to_coordinate] are inverse to each other *)
  shc_cell : forall x y, 0 <= x < sh_horizontal s -> 0 <= y < sh_vertical s ->
    coord (cell x y) /\
    sh_offset_to_coordinate s m (x, y) = Ok (cell x y) /\
    sh_to_offset s m (cell x y) = Ok (Some (x, y)) /\
    sh_to_offset_unchecked s m (cell x y) = Ok (x, y);
  (* and [to_offset] is an error everywhere else *)
  shc_outside : forall c, coord c ->
    ~ In c (board (sh_horizontal s) (sh_vertical s) cell) -> sh_to_offset s m c = Ok None;
  (* moves stay on the board, and the opposite move leads back *)
  shc_move : forall c d, In c (board (sh_horizontal s) (sh_vertical s) cell) ->
    sh_move_coord s m c d = Ok (step c d);
  shc_move_unchecked : forall c d c', In c (board (sh_horizontal s) (sh_vertical s) cell) ->
    step c d = Some c' -> sh_move_coord_unchecked s m c d = Ok c';
  shc_stay : forall c d c', step c d = Some c' ->
    In c' (board (sh_horizontal s) (sh_vertical s) cell);
  shc_return : forall c d c', In c (board (sh_horizontal s) (sh_vertical s) cell) ->
    step c d = Some c' -> step c' (opp d) = Some c;
  (* [is_neighbor] is not overridden *)
  shc_is_neighbor : sh_is_neighbor s =
    default_is_neighbor (sh_axis s) (sh_eqb s) (sh_move_coord s)
}.

(** The geometry of such a shape.  The vectors only tell which directions are opposite: the
    two directions of a pair get a number and its negative. *)
Definition contract_geometry {A D} (s : Shape Cell A D)
  (axes : list A) (fwd : A -> D) (opp : D -> D)
  (cell : Z -> Z -> Cell) (step : Cell -> D -> option Cell) (coord : Cell -> Prop)
  : Geometry A D :=
  let number d := Z.of_nat (dir_to_index (ax_dir (sh_axis s)) d) in {|
  geo_ax := {|
    ag_axes := axes;
    ag_dirs := all_dirs (ax_DIRECTED (sh_axis s)) axes fwd opp;
    ag_fwd := fwd;
    ag_vec := fun d => if number d <? number (opp d) then (number d + 1, 0)
                       else (- (number (opp d) + 1), 0);
    ag_directed := ax_DIRECTED (sh_axis s) |};
  geo_nodes := board (sh_horizontal s) (sh_vertical s) cell;
  geo_step := step;
  geo_coord := coord;
  geo_extreme := fun _ => False |}.

(** The neighbours of [c], one for each direction in which a move is possible. *)
Definition step_neighbors {D} (dirs : list D) (step : Cell -> D -> option Cell) (c : Cell)
  : list Cell :=
  flat_map (fun d => match step c d with Some c' => [c'] | None => [] end) dirs.

(** The edges at [c]: those that start at [c], and if the graph is undirected those that
    start at the neighbours against the axes. *)
Definition step_edges {A D E} (directed : bool) (axes : list A) (fwd : A -> D) (opp : D -> D)
  (step : Cell -> D -> option Cell) (ef : Cell -> A -> E) (c : Cell)
  : list (EdgeReference Cell E D) :=
  flat_map (fun a => match step c (fwd a) with
                     | Some c' => [mkEdgeRef c c' (ef c a) (fwd a)]
                     | None => [] end) axes ++
  (if directed then [] else
   flat_map (fun a => match step c (opp (fwd a)) with
                      | Some c' => [mkEdgeRef c c' (ef c' a) (opp (fwd a))]
                      | None => [] end) axes).

(** All edges: each once, at the node and axis where it starts. *)
Definition step_edge_references {A D E} (nodes : list Cell) (axes : list A) (fwd : A -> D)
  (step : Cell -> D -> option Cell) (ef : Cell -> A -> E) : list (EdgeReference Cell E D) :=
  flat_map (fun c => flat_map (fun a =>
    match step c (fwd a) with
    | Some c' => [mkEdgeRef c c' (ef c a) (fwd a)]
    | None => [] end) axes) nodes.
