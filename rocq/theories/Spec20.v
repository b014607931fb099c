(** * Spec20: shapes whose moves are not undone by the opposite move.

    [Shape::move_coord] (src/lattice_abstract/shapes.rs:80-88) is documented as "Move coordinates
    to the next coordinate in the direction"; that the opposite direction has to lead back is
    not written there, and [Shape] is a safe trait. *)

From Verif Require Import Machine Store Axes Shapes Lattice Spec Spec19.

(** [ShapeContract] (Spec19.v) without its field [shc_return]. *)
Record OneWayContract {A D} (m : mode) (s : Shape Cell A D)
  (axes : list A) (fwd : A -> D) (opp : D -> D)
  (cell : Z -> Z -> Cell) (step : Cell -> D -> option Cell) (coord : Cell -> Prop) : Prop := {
  owc_axis : AxisContract m (sh_axis s) axes fwd opp;
  owc_fits : fits (sh_horizontal s) (sh_vertical s);
  owc_eqb : forall a b, sh_eqb s a b = true <-> a = b;
  owc_cell : forall x y, 0 <= x < sh_horizontal s -> 0 <= y < sh_vertical s ->
    coord (cell x y) /\
    sh_offset_to_coordinate s m (x, y) = Ok (cell x y) /\
    sh_to_offset s m (cell x y) = Ok (Some (x, y)) /\
    sh_to_offset_unchecked s m (cell x y) = Ok (x, y);
  owc_outside : forall c, coord c ->
    ~ In c (board (sh_horizontal s) (sh_vertical s) cell) -> sh_to_offset s m c = Ok None;
  owc_move : forall c d, In c (board (sh_horizontal s) (sh_vertical s) cell) ->
    sh_move_coord s m c d = Ok (step c d);
  owc_move_unchecked : forall c d c', In c (board (sh_horizontal s) (sh_vertical s) cell) ->
    step c d = Some c' -> sh_move_coord_unchecked s m c d = Ok c';
  owc_stay : forall c d c', step c d = Some c' ->
    In c' (board (sh_horizontal s) (sh_vertical s) cell);
  owc_is_neighbor : sh_is_neighbor s =
    default_is_neighbor (sh_axis s) (sh_eqb s) (sh_move_coord s)
}.

(** The references that [edges] gives along, and against, the axes of the list [l]. *)
Definition along {A D E} (fwd : A -> D) (step : Cell -> D -> option Cell) (ef : Cell -> A -> E)
  (c : Cell) (l : list A) : list (EdgeReference Cell E D) :=
  flat_map (fun a => match step c (fwd a) with
                     | Some c' => [mkEdgeRef c c' (ef c a) (fwd a)]
                     | None => [] end) l.
Definition against {A D E} (fwd : A -> D) (opp : D -> D) (step : Cell -> D -> option Cell)
  (ef : Cell -> A -> E) (c : Cell) (l : list A) : list (EdgeReference Cell E D) :=
  flat_map (fun a => match step c (opp (fwd a)) with
                     | Some c' => [mkEdgeRef c c' (ef c' a) (opp (fwd a))]
                     | None => [] end) l.

(** The step from [c] against the axis [a] leads to a node that has an edge along [a]. *)
Definition has_weight {A D} (fwd : A -> D) (opp : D -> D) (step : Cell -> D -> option Cell)
  (c : Cell) (a : A) : Prop :=
  forall c', step c (opp (fwd a)) = Some c' -> step c' (fwd a) <> None.

(** The references with their ends exchanged. *)
Definition turned {E D} (r : EdgeReference Cell E D) : EdgeReference Cell E D :=
  mkEdgeRef (er_target r) (er_source r) (er_weight r) (er_direction r).

(** What [edges_directed(Incoming)] of a directed graph lists for the axes of the list [l].
    [back a] is the axis opposite to [a]. *)
Definition sources {A D E} (fwd : A -> D) (back : A -> A) (step : Cell -> D -> option Cell)
  (ef : Cell -> A -> E) (c : Cell) (l : list A) : list (EdgeReference Cell E D) :=
  flat_map (fun a => match step c (fwd a) with
                     | Some c' => [mkEdgeRef c' c (ef c' (back a)) (fwd a)]
                     | None => [] end) l.
