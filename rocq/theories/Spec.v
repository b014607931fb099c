(** * Spec: what the graphs are supposed to be.

    A lattice is described geometrically: the board is a list of cells, every cell has
    a position in the plane, every direction is a vector.  The neighbour of a cell in a
    direction is the board cell found at position + vector (on looped boards: modulo
    the board's period).  Nothing here refers to how the code stores or moves
    coordinates; the only things taken from the model are the names of the axes and
    directions, and, at the end, the public functions whose behaviour is specified. *)

From Verif Require Import Machine Axes Shapes Lattice.

Definition Cell : Type := (Z * Z)%type.
Definition Vec : Type := (Z * Z)%type.

Definition vadd (a b : Vec) : Vec := (fst a + fst b, snd a + snd b).
Definition vneg (a : Vec) : Vec := (- fst a, - snd a).
Definition veqb (a b : Vec) : bool := (fst a =? fst b) && (snd a =? snd b).

(** ** Axes and directions *)

(** [ag_axes], [ag_dirs]: all axes and all directions, in index order.
    [ag_fwd a]: the direction in which axis [a] points.  [ag_vec d]: the vector of the
    direction.  [ag_directed]: whether each direction is an axis of its own. *)
Record AxisGeo (A D : Type) := {
  ag_axes : list A;
  ag_dirs : list D;
  ag_fwd : A -> D;
  ag_vec : D -> Vec;
  ag_directed : bool
}.
Arguments ag_axes {A D}.
Arguments ag_dirs {A D}.
Arguments ag_fwd {A D}.
Arguments ag_vec {A D}.
Arguments ag_directed {A D}.

(** Opposite directions have opposite vectors. *)
Definition opposite {A D} (g : AxisGeo A D) (d d' : D) : Prop :=
  ag_vec g d' = vneg (ag_vec g d).

Definition square_vec (d : DirectedSquareAxis) : Vec :=
  match d with DX => (1, 0) | DY => (0, 1) | DRX => (-1, 0) | DRY => (0, -1) end.
Definition square_axes : AxisGeo SquareAxis DirectedSquareAxis := {|
  ag_axes := [SX; SY];
  ag_dirs := [DX; DY; DRX; DRY];
  ag_fwd := fun a => match a with SX => DX | SY => DY end;
  ag_vec := square_vec;
  ag_directed := false |}.

Definition diagonal_vec (d : DirectedSquareDiagonalAxis) : Vec :=
  match d with
  | DN => (0, 1) | DNE => (1, 1) | DE => (1, 0) | DSE => (1, -1)
  | DS => (0, -1) | DSW => (-1, -1) | DW => (-1, 0) | DNW => (-1, 1)
  end.
Definition diagonal_axes : AxisGeo SquareDiagonalAxis DirectedSquareDiagonalAxis := {|
  ag_axes := [GN; GNE; GE; GSE];
  ag_dirs := [DN; DNE; DE; DSE; DS; DSW; DW; DNW];
  ag_fwd := fun a => match a with GN => DN | GNE => DNE | GE => DE | GSE => DSE end;
  ag_vec := diagonal_vec;
  ag_directed := false |}.

(** Point-top hexagons: rows are one unit apart, cells of a row two units apart, and
    neighbouring rows are shifted by one unit. *)
Definition hexr_vec (d : AxisDR) : Vec :=
  match d with
  | RNE => (1, 1) | RE => (2, 0) | RSE => (1, -1)
  | RSW => (-1, -1) | RW => (-2, 0) | RNW => (-1, 1)
  end.
Definition hexr_axes : AxisGeo AxisR AxisDR := {|
  ag_axes := [ANE; AE; ASE];
  ag_dirs := [RNE; RE; RSE; RSW; RW; RNW];
  ag_fwd := fun a => match a with ANE => RNE | AE => RE | ASE => RSE end;
  ag_vec := hexr_vec;
  ag_directed := false |}.

(** Flat-top hexagons: columns one unit apart, cells of a column two units apart. *)
Definition hexq_vec (d : AxisDQ) : Vec :=
  match d with
  | QN => (0, 2) | QNE => (1, 1) | QSE => (1, -1)
  | QS => (0, -2) | QSW => (-1, -1) | QNW => (-1, 1)
  end.
Definition hexq_axes : AxisGeo AxisQ AxisDQ := {|
  ag_axes := [BN; BNE; BSE];
  ag_dirs := [QN; QNE; QSE; QS; QSW; QNW];
  ag_fwd := fun a => match a with BN => QN | BNE => QNE | BSE => QSE end;
  ag_vec := hexq_vec;
  ag_directed := false |}.

(** The directed variant: every direction is its own axis. *)
Definition directed_axes {A D} (g : AxisGeo A D) : AxisGeo D D := {|
  ag_axes := ag_dirs g;
  ag_dirs := ag_dirs g;
  ag_fwd := fun d => d;
  ag_vec := ag_vec g;
  ag_directed := true |}.

(** ** Boards *)

(** [geo_nodes]: the coordinates on the board.  [geo_step c d]: the neighbour of [c] in
    direction [d], if there is one.  [geo_coord]: the values the coordinate type can hold.
    [geo_extreme]: off-board values so large that locating them overflows a machine integer
    (a panic in debug builds). *)
Record Geometry (A D : Type) := {
  geo_ax : AxisGeo A D;
  geo_nodes : list Cell;
  geo_step : Cell -> D -> option Cell;
  geo_coord : Cell -> Prop;
  geo_extreme : Cell -> Prop
}.
Arguments geo_ax {A D}.
Arguments geo_nodes {A D}.
Arguments geo_step {A D}.
Arguments geo_coord {A D}.
Arguments geo_extreme {A D}.

(** [c] is a value of the coordinate type and locating it does not overflow. *)
Definition locatable {A D} (m : mode) (G : Geometry A D) (c : Cell) : Prop :=
  geo_coord G c /\ (m = Debug -> ~ geo_extreme G c).

(** [a] and [b] are the same place: their difference is a multiple of the period. *)
Definition same_place (period a b : Vec) : bool :=
  let dx := fst a - fst b in
  let dy := snd a - snd b in
  if fst period =? 0 then (dx =? 0) && (dy =? 0)
  else (dx mod fst period =? 0) && (dy =? dx / fst period * snd period).

(** The neighbour of [c] in direction [d] is the board cell found at the position of [c]
    plus the vector of [d].  [pos]: where a coordinate lies in the plane.  [period]: on a
    looped board, cells that differ by a multiple of this vector are the same place; (0, 0)
    on boards without loop. *)
Definition place_step {A D} (ax : AxisGeo A D) (nodes : list Cell) (pos : Cell -> Vec)
  (period : Vec) (c : Cell) (d : D) : option Cell :=
  find (fun c' => same_place period (vadd (pos c) (ag_vec ax d)) (pos c')) nodes.

(** The cells of a [w] by [h] board, column by column. *)
Definition board (w h : Z) (cell : Z -> Z -> Cell) : list Cell :=
  flat_map (fun x => map (fun y => cell x y) (zrange h)) (zrange w).

(** Coordinates are pairs of [usize]. *)
Definition rect_geometry {A D} (ax : AxisGeo A D) (w h : Z) (pos : Cell -> Vec)
  (period : Vec) : Geometry A D := {|
  geo_ax := ax;
  geo_nodes := board w h (fun x y => (x, y));
  geo_step := place_step ax (board w h (fun x y => (x, y))) pos period;
  geo_coord := fun c => 0 <= fst c < 2 ^ 64 /\ 0 <= snd c < 2 ^ 64;
  geo_extreme := fun _ => False |}.

(** Square lattices: the coordinate is the position. *)
Definition square_geometry {A D} (ax : AxisGeo A D) (w h : Z) : Geometry A D :=
  rect_geometry ax w h (fun c => c) (0, 0).

(** Rows of point-top hexagons: odd rows shifted to the right by half a cell (OddR), or
    even rows (EvenR). *)
Definition offset_r_pos (b : HexR) (c : Cell) : Vec :=
  match b with
  | OddR => (2 * fst c + snd c mod 2, snd c)
  | EvenR => (2 * fst c + (1 - snd c mod 2), snd c)
  end.
Definition offset_r_geometry {A} (ax : AxisGeo A AxisDR) (b : HexR) (w h : Z)
  : Geometry A AxisDR := rect_geometry ax w h (offset_r_pos b) (0, 0).
(** Looped in E-W direction: the board repeats after [w] cells, that is 2w units. *)
Definition offset_r_loop_geometry {A} (ax : AxisGeo A AxisDR) (b : HexR) (w h : Z)
  : Geometry A AxisDR := rect_geometry ax w h (offset_r_pos b) (2 * w, 0).

(** Axial coordinates (r, q): the [x]-th cell of row [y] has q = y and
    r = x - (y + co) / 2 where co is 0 (odd) or 1 (even). *)
Definition co_r (b : HexR) : Z := match b with OddR => 0 | EvenR => 1 end.
Definition co_q (b : HexQ) : Z := match b with OddQ => 0 | EvenQ => 1 end.
Definition axial_cell (co : Z) (x y : Z) : Cell := (x - (y + co) / 2, y).

(** The values of the coordinate type: [HexAxial] is a pair of [isize],
    [hex2d::Coordinate<I>] a pair of [I] with values lo..=hi. *)
Definition axial_coord (k : AxialKind) (c : Cell) : Prop :=
  match k with
  | HAxial => - 2 ^ 63 <= fst c < 2 ^ 63 /\ - 2 ^ 63 <= snd c < 2 ^ 63
  | Hex2d lo hi => lo <= fst c <= hi /\ lo <= snd c <= hi
  end.

(** Locating (r, q) computes r + (q + co) / 2 when q is a row of the board. *)
Definition axial_geometry {A D} (ax : AxisGeo A D) (k : AxialKind) (co w h : Z)
  (pos : Cell -> Vec) (period : Vec) : Geometry A D := {|
  geo_ax := ax;
  geo_nodes := board w h (axial_cell co);
  geo_step := place_step ax (board w h (axial_cell co)) pos period;
  geo_coord := axial_coord k;
  geo_extreme := fun c => 0 <= snd c < h /\ 2 ^ 63 <= fst c + (snd c + co) / 2 |}.

(** Point-top: r counts to the east, q to the north-east. *)
Definition axial_r_pos (c : Cell) : Vec := (2 * fst c + snd c, snd c).
(** Flat-top: r counts to the north-east, q to the north. *)
Definition axial_q_pos (c : Cell) : Vec := (fst c, 2 * snd c + fst c).

Definition axial_r_geometry {A} (ax : AxisGeo A AxisDR) (k : AxialKind) (b : HexR)
  (w h : Z) :=
  axial_geometry ax k (co_r b) w h axial_r_pos (0, 0).
Definition axial_r_loop_geometry {A} (ax : AxisGeo A AxisDR) (k : AxialKind) (b : HexR)
  (w h : Z) :=
  axial_geometry ax k (co_r b) w h axial_r_pos (2 * w, 0).
Definition axial_q_geometry {A} (ax : AxisGeo A AxisDQ) (k : AxialKind) (b : HexQ)
  (w h : Z) :=
  axial_geometry ax k (co_q b) w h axial_q_pos (0, 0).
(** [w] steps of r: [w] columns to the right and [w] units up. *)
Definition axial_q_loop_geometry {A} (ax : AxisGeo A AxisDQ) (k : AxialKind) (b : HexQ)
  (w h : Z) :=
  axial_geometry ax k (co_q b) w h axial_q_pos (w, w).

(** ** The shapes the theorems are about *)

(** The board can be allocated: the product of the non-zero sides is a positive [isize]. *)
Definition fits (w h : Z) : Prop :=
  0 <= w /\ 0 <= h /\ Z.max 1 w * Z.max 1 h < 2 ^ 63.

(** The coordinates of the board and those one step outside of it can be represented.
    [HexAxial] holds every [isize]. *)
Definition axial_fits (k : AxialKind) (co w h : Z) : Prop :=
  match k with
  | HAxial => True
  | Hex2d lo hi =>
      - 2 ^ 63 <= lo /\ lo <= - ((h - 1 + co) / 2) - 1 /\ lo <= -1 /\
      w <= hi /\ h <= hi /\ hi < 2 ^ 63
  end.

(** [Supported s G]: [s] is one of the crate's shapes, on a board of allocatable size,
    and [G] is the lattice it is meant to implement.

    Not in this list because the code does not implement a lattice there (see the
    [_refuted] theorems): offset coordinates with [OddQ]/[EvenQ], double coordinates,
    and axial boards with a loop that have more than two rows ([OddR], [OddQ]) or more
    than one row ([EvenR], [EvenQ]). *)
Inductive Supported : forall A D : Type, Shape Cell A D -> Geometry A D -> Prop :=
| sup_square w h :
    fits w h ->
    Supported _ _ (square_shape w h) (square_geometry square_axes w h)
| sup_square_dir w h :
    fits w h ->
    Supported _ _ (square_dir_shape w h) (square_geometry (directed_axes square_axes) w h)
| sup_diagonal w h :
    fits w h ->
    Supported _ _ (diagonal_shape w h) (square_geometry diagonal_axes w h)
| sup_diagonal_dir w h :
    fits w h ->
    Supported _ _ (diagonal_dir_shape w h)
      (square_geometry (directed_axes diagonal_axes) w h)
| sup_offset_r b w h :
    fits w h ->
    Supported _ _ (hex_offset_r b w h) (offset_r_geometry hexr_axes b w h)
| sup_offset_r_dir b w h :
    fits w h ->
    Supported _ _ (hex_offset_r_dir b w h)
      (offset_r_geometry (directed_axes hexr_axes) b w h)
| sup_offset_r_loop b w h :
    fits w h ->
    Supported _ _ (hex_offset_r_lew b w h) (offset_r_loop_geometry hexr_axes b w h)
| sup_axial_r k b w h :
    fits w h -> axial_fits k (co_r b) w h ->
    Supported _ _ (hex_axial_r k b w h) (axial_r_geometry hexr_axes k b w h)
| sup_axial_r_dir k b w h :
    fits w h -> axial_fits k (co_r b) w h ->
    Supported _ _ (hex_axial_r_dir k b w h)
      (axial_r_geometry (directed_axes hexr_axes) k b w h)
| sup_axial_q k b w h :
    fits w h -> axial_fits k (co_q b) w h ->
    Supported _ _ (hex_axial_q k b w h) (axial_q_geometry hexq_axes k b w h)
| sup_axial_q_dir k b w h :
    fits w h -> axial_fits k (co_q b) w h ->
    Supported _ _ (hex_axial_q_dir k b w h)
      (axial_q_geometry (directed_axes hexq_axes) k b w h)
| sup_axial_r_loop k b w h :
    fits w h -> axial_fits k (co_r b) w h -> h + co_r b <= 2 ->
    Supported _ _ (hex_axial_r_lew k b w h) (axial_r_loop_geometry hexr_axes k b w h)
| sup_axial_r_dir_loop k b w h :
    fits w h -> axial_fits k (co_r b) w h -> h + co_r b <= 2 ->
    Supported _ _ (hex_axial_r_dir_lew k b w h)
      (axial_r_loop_geometry (directed_axes hexr_axes) k b w h)
| sup_axial_q_loop k b w h :
    fits w h -> axial_fits k (co_q b) w h -> h + co_q b <= 2 ->
    Supported _ _ (hex_axial_q_lew k b w h) (axial_q_loop_geometry hexq_axes k b w h)
| sup_axial_q_dir_loop k b w h :
    fits w h -> axial_fits k (co_q b) w h -> h + co_q b <= 2 ->
    Supported _ _ (hex_axial_q_dir_lew k b w h)
      (axial_q_loop_geometry (directed_axes hexq_axes) k b w h).
Arguments Supported {A D}.

(** ** All shapes of the crate *)

(** For the shapes that do not implement a lattice there is no geometry to compare with.
    Their boards are still described independently; a "neighbour" is whatever the shape's own
    [move_coord] answers, on the board or not. *)
Definition code_geometry {A D} (ax : AxisGeo A D) (s : Shape Cell A D) (nodes : list Cell)
  (coord extreme : Cell -> Prop) : Geometry A D := {|
  geo_ax := ax;
  geo_nodes := nodes;
  geo_step := fun c d =>
    match sh_move_coord s Release c d with Ok t => t | Fail _ => None end;
  geo_coord := coord;
  geo_extreme := extreme |}.

Definition rect_code_geometry {A D} (ax : AxisGeo A D) (s : Shape Cell A D) (w h : Z)
  : Geometry A D :=
  code_geometry ax s (board w h (fun x y => (x, y)))
    (fun c => 0 <= fst c < 2 ^ 64 /\ 0 <= snd c < 2 ^ 64) (fun _ => False).
Definition axial_code_geometry {A D} (ax : AxisGeo A D) (s : Shape Cell A D) (k : AxialKind)
  (co w h : Z) : Geometry A D :=
  code_geometry ax s (board w h (axial_cell co)) (axial_coord k)
    (fun c => 0 <= snd c < h /\ 2 ^ 63 <= fst c + (snd c + co) / 2).

(** Doubled coordinates: the x-th cell of row y is (2x, y) in even rows and (2x + 1, y) in
    odd rows; only coordinates whose components have the same parity are in use. *)
Definition double_cell (x y : Z) : Cell := (2 * x + y mod 2, y).
Definition double_code_geometry (w h : Z) : Geometry AxisR AxisDR :=
  code_geometry hexr_axes (double_shape w h) (board w h double_cell)
    (fun c => 0 <= fst c < 2 ^ 64 /\ 0 <= snd c < 2 ^ 64 /\ fst c mod 2 = snd c mod 2)
    (fun _ => False).

(** [Stored s G]: any shape of the crate on a board of allocatable size.  Without the
    directed and [EvenR] variants of double coordinates, which have no [Shape] instance. *)
Inductive Stored : forall A D : Type, Shape Cell A D -> Geometry A D -> Prop :=
| st_supported A D (s : Shape Cell A D) G : Supported s G -> Stored _ _ s G
| st_offset_q b w h :
    fits w h ->
    Stored _ _ (hex_offset_q b w h) (rect_code_geometry hexq_axes (hex_offset_q b w h) w h)
| st_offset_q_dir b w h :
    fits w h ->
    Stored _ _ (hex_offset_q_dir b w h)
      (rect_code_geometry (directed_axes hexq_axes) (hex_offset_q_dir b w h) w h)
| st_offset_q_loop b w h :
    fits w h ->
    Stored _ _ (hex_offset_q_lew b w h)
      (rect_code_geometry hexq_axes (hex_offset_q_lew b w h) w h)
| st_axial_r_loop k b w h :
    fits w h -> axial_fits k (co_r b) w h ->
    Stored _ _ (hex_axial_r_lew k b w h)
      (axial_code_geometry hexr_axes (hex_axial_r_lew k b w h) k (co_r b) w h)
| st_axial_r_dir_loop k b w h :
    fits w h -> axial_fits k (co_r b) w h ->
    Stored _ _ (hex_axial_r_dir_lew k b w h)
      (axial_code_geometry (directed_axes hexr_axes) (hex_axial_r_dir_lew k b w h)
         k (co_r b) w h)
| st_axial_q_loop k b w h :
    fits w h -> axial_fits k (co_q b) w h ->
    Stored _ _ (hex_axial_q_lew k b w h)
      (axial_code_geometry hexq_axes (hex_axial_q_lew k b w h) k (co_q b) w h)
| st_axial_q_dir_loop k b w h :
    fits w h -> axial_fits k (co_q b) w h ->
    Stored _ _ (hex_axial_q_dir_lew k b w h)
      (axial_code_geometry (directed_axes hexq_axes) (hex_axial_q_dir_lew k b w h)
         k (co_q b) w h)
| st_double w h :
    fits w h ->
    Stored _ _ (double_shape w h) (double_code_geometry w h).
Arguments Stored {A D}.

(** [Traversable s G]: the shapes on which every edge that [edges] reads through its other
    end has been written.  [Untraversable s G]: all other shapes and sizes. *)
Inductive Traversable : forall A D : Type, Shape Cell A D -> Geometry A D -> Prop :=
| tr_supported A D (s : Shape Cell A D) G : Supported s G -> Traversable _ _ s G
| tr_offset_q_dir b w h :
    fits w h ->
    Traversable _ _ (hex_offset_q_dir b w h)
      (rect_code_geometry (directed_axes hexq_axes) (hex_offset_q_dir b w h) w h)
| tr_axial_r_loop k b w h :
    fits w h -> axial_fits k (co_r b) w h ->
    Traversable _ _ (hex_axial_r_lew k b w h)
      (axial_code_geometry hexr_axes (hex_axial_r_lew k b w h) k (co_r b) w h)
| tr_axial_r_dir_loop k b w h :
    fits w h -> axial_fits k (co_r b) w h ->
    Traversable _ _ (hex_axial_r_dir_lew k b w h)
      (axial_code_geometry (directed_axes hexr_axes) (hex_axial_r_dir_lew k b w h)
         k (co_r b) w h)
| tr_axial_q_loop k b w h :
    fits w h -> axial_fits k (co_q b) w h ->
    Traversable _ _ (hex_axial_q_lew k b w h)
      (axial_code_geometry hexq_axes (hex_axial_q_lew k b w h) k (co_q b) w h)
| tr_axial_q_dir_loop k b w h :
    fits w h -> axial_fits k (co_q b) w h ->
    Traversable _ _ (hex_axial_q_dir_lew k b w h)
      (axial_code_geometry (directed_axes hexq_axes) (hex_axial_q_dir_lew k b w h)
         k (co_q b) w h)
| tr_offset_q b w h :
    fits w h -> w <= 1 \/ h = 0 \/ h mod 2 = co_q b ->
    Traversable _ _ (hex_offset_q b w h)
      (rect_code_geometry hexq_axes (hex_offset_q b w h) w h)
| tr_offset_q_loop b w h :
    fits w h -> w <= 1 \/ h = 0 \/ (b = EvenQ /\ h mod 2 = 1) ->
    Traversable _ _ (hex_offset_q_lew b w h)
      (rect_code_geometry hexq_axes (hex_offset_q_lew b w h) w h)
| tr_double w h :
    fits w h -> w * h <= 1 ->
    Traversable _ _ (double_shape w h) (double_code_geometry w h).
Arguments Traversable {A D}.

Inductive Untraversable : forall A D : Type, Shape Cell A D -> Geometry A D -> Prop :=
| un_offset_q b w h :
    fits w h -> 2 <= w -> 1 <= h -> h mod 2 <> co_q b ->
    Untraversable _ _ (hex_offset_q b w h)
      (rect_code_geometry hexq_axes (hex_offset_q b w h) w h)
| un_offset_q_loop b w h :
    fits w h -> 2 <= w -> 1 <= h -> b = OddQ \/ h mod 2 = 0 ->
    Untraversable _ _ (hex_offset_q_lew b w h)
      (rect_code_geometry hexq_axes (hex_offset_q_lew b w h) w h)
| un_double w h :
    fits w h -> 2 <= w * h ->
    Untraversable _ _ (double_shape w h) (double_code_geometry w h).
Arguments Untraversable {A D}.

(** ** Edges *)

Section SpecEdges.
  Context {A D : Type} (G : Geometry A D).
  Notation ax := (geo_ax G).

  (** Edge slots are named by a cell and an axis.  Edge ([c], [a]) exists when [c] is on
      the board and so is its neighbour in the direction of [a]. *)
  Definition edge_exists (c : Cell) (a : A) : Prop :=
    In c (geo_nodes G) /\ geo_step G c (ag_fwd ax a) <> None.

  (** The name of the edge that leads from [c] in direction [d] to [c']: if [d] is the
      direction of an axis, the edge starts at [c]; otherwise it is the edge of the
      opposite axis that starts at [c']. *)
  Definition edge_name (c : Cell) (d : D) (c' : Cell) : option (Cell * A) :=
    match find (fun a => veqb (ag_vec ax (ag_fwd ax a)) (ag_vec ax d)) (ag_axes ax) with
    | Some a => Some (c, a)
    | None =>
        match find (fun a => veqb (ag_vec ax (ag_fwd ax a)) (vneg (ag_vec ax d)))
                (ag_axes ax) with
        | Some a => Some (c', a)
        | None => None
        end
    end.

  (** Neighbours of [c], one entry per direction. *)
  Definition spec_neighbors (c : Cell) : list Cell :=
    flat_map (fun d => match geo_step G c d with Some c' => [c'] | None => [] end)
      (ag_dirs ax).

  (** Edges at [c] with their weights, one entry per direction; [ef] gives the weight of
      each edge name. *)
  Definition spec_edges {E} (ef : Cell -> A -> E) (c : Cell)
    : list (EdgeReference Cell E D) :=
    flat_map (fun d =>
      match geo_step G c d with
      | Some c' =>
          match edge_name c d c' with
          | Some (x, a) => [mkEdgeRef c c' (ef x a) d]
          | None => []
          end
      | None => []
      end) (ag_dirs ax).

  (** All edges: by cell, then by axis. *)
  Definition spec_edge_references {E} (ef : Cell -> A -> E)
    : list (EdgeReference Cell E D) :=
    flat_map (fun c =>
      flat_map (fun a =>
        match geo_step G c (ag_fwd ax a) with
        | Some c' => [mkEdgeRef c c' (ef c a) (ag_fwd ax a)]
        | None => []
        end) (ag_axes ax)) (geo_nodes G).

  (** The names of all edges. *)
  Definition spec_edge_names : list (Cell * A) :=
    flat_map (fun c =>
      flat_map (fun a =>
        match geo_step G c (ag_fwd ax a) with Some _ => [(c, a)] | None => [] end)
        (ag_axes ax)) (geo_nodes G).
End SpecEdges.

(** The references to the edges that arrive at [c]: for each direction [d] with a
    neighbour [c'] there is the edge from [c'] to [c], which leads in the direction
    opposite to [d].  The reference's own direction is [d] (seen from [c]). *)
Definition spec_incoming {A D E} (G : Geometry A D) (ef : Cell -> A -> E) (c : Cell)
  : list (EdgeReference Cell E D) :=
  let ax := geo_ax G in
  flat_map (fun d =>
    match geo_step G c d,
          find (fun d' => veqb (ag_vec ax d') (vneg (ag_vec ax d))) (ag_dirs ax) with
    | Some c', Some d' =>
        match edge_name G c' d' c with
        | Some (x, a) => [mkEdgeRef c' c (ef x a) d]
        | None => []
        end
    | _, _ => []
    end) (ag_dirs ax).

(** ** The calls that construction makes to the user's closures *)

Inductive Call (A : Type) :=
| CallNode (c : Cell)
| CallEdge (c : Cell) (a : A).
Arguments CallNode {A}.
Arguments CallEdge {A}.

(** One node call per cell in board order; after it one edge call for every axis along
    which the cell has a neighbour. *)
Definition spec_calls {A D} (G : Geometry A D) : list (Call A) :=
  flat_map (fun c =>
    CallNode c ::
    flat_map (fun a => match geo_step G c (ag_fwd (geo_ax G) a) with
                       | Some _ => [CallEdge c a] | None => [] end)
      (ag_axes (geo_ax G)))
    (geo_nodes G).

(** Calling closures that may panic ([None]) until one does: whether none did, and the state
    of the closures. *)
Fixpoint until_panic {A N E St} (n : St -> Cell -> option N * St)
  (e : St -> Cell -> A -> option E * St) (calls : list (Call A)) (st : St) : bool * St :=
  match calls with
  | [] => (true, st)
  | CallNode c :: calls =>
      let (x, st) := n st c in
      match x with Some _ => until_panic n e calls st | None => (false, st) end
  | CallEdge c a :: calls =>
      let (x, st) := e st c a in
      match x with Some _ => until_panic n e calls st | None => (false, st) end
  end.

(** The state of the closures [n] and [e] after a list of calls. *)
Definition call_state {A N E St} (n : St -> Cell -> N * St) (e : St -> Cell -> A -> E * St)
  (st : St) (k : Call A) : St :=
  match k with CallNode c => snd (n st c) | CallEdge c a => snd (e st c a) end.
Definition state_after {A N E St} (n : St -> Cell -> N * St) (e : St -> Cell -> A -> E * St)
  (calls : list (Call A)) (st : St) : St := fold_left (call_state n e) calls st.

(** ** Visit maps *)

Definition mem (c : Cell) (l : list Cell) : bool :=
  existsb (fun c' => (fst c =? fst c') && (snd c =? snd c')) l.

Inductive VisitOp :=
| Visit (c : Cell)
| Unvisit (c : Cell)
| IsVisited (c : Cell)
| ResetMap.

(** A set of marked cells; coordinates outside of the board are ignored.  The answer is
    [None] for operations about whose answer nothing is said here. *)
Definition visit_spec (board : list Cell) (marked : list Cell) (op : VisitOp)
  : option bool * list Cell :=
  match op with
  | Visit c =>
      if mem c board then (Some (negb (mem c marked)), c :: marked) else (Some false, marked)
  | Unvisit c =>
      (None, filter (fun c' => negb ((fst c =? fst c') && (snd c =? snd c'))) marked)
  | IsVisited c => (Some (mem c marked), marked)
  | ResetMap => (None, [])
  end.

(** The same operations on the crate's map [vm] of graph [g]; the answers of [unvisit] and
    [reset_map] are left out. *)
Definition visit_op {A D N E} (m : mode) (g : LatticeGraph Cell A D N E) (vm : VisMap)
  (op : VisitOp) : outcome (option bool * VisMap) :=
  match op with
  | Visit c => let! (b, vm) := vm_visit m (g_s g) vm c in Ok (Some b, vm)
  | Unvisit c => let! (b, vm) := vm_unvisit m (g_s g) vm c in Ok (None, vm)
  | IsVisited c => let! b := vm_is_visited m (g_s g) vm c in Ok (Some b, vm)
  | ResetMap => Ok (None, reset_map g vm)
  end.

(** Running a history: the answers in order. *)
Fixpoint visit_run {A D N E} (m : mode) (g : LatticeGraph Cell A D N E) (vm : VisMap)
  (ops : list VisitOp) : outcome (list (option bool)) :=
  match ops with
  | [] => Ok []
  | op :: ops =>
      let! (b, vm) := visit_op m g vm op in
      let! l := visit_run m g vm ops in
      Ok (b :: l)
  end.
Fixpoint visit_spec_run (board marked : list Cell) (ops : list VisitOp)
  : list (option bool) :=
  match ops with
  | [] => []
  | op :: ops =>
      let (b, marked) := visit_spec board marked op in
      b :: visit_spec_run board marked ops
  end.

(** ** Graphs made by construction and writes *)

(** [Filling m s G g nf ef]: [g] was made by [new_uninit] and some of its weights were
    written through [node_weight_mut] and [edge_weight_mut]; [nf] and [ef] tell which, and
    with what. *)
Inductive Filling {A D N E} (m : mode) (s : Shape Cell A D) (G : Geometry A D)
  : LatticeGraph Cell A D N E -> (Cell -> option N) -> (Cell -> A -> option E) -> Prop :=
| filling_new g :
    new_uninit m s = Ok g -> Filling m s G g (fun _ => None) (fun _ _ => None)
| filling_node g nf ef c w nf' g' :
    Filling m s G g nf ef -> geo_coord G c ->
    node_weight_mut m g c (fun _ => Some w) = Ok (Some g') ->
    nf' c = Some w -> (forall c', c' <> c -> nf' c' = nf c') ->
    Filling m s G g' nf' ef
| filling_edge g nf ef c a w ef' g' :
    Filling m s G g nf ef -> geo_coord G c ->
    edge_weight_mut m g (c, a) (fun _ => Some w) = Ok (Some g') ->
    ef' c a = Some w -> (forall c' a', (c', a') <> (c, a) -> ef' c' a' = ef c' a') ->
    Filling m s G g' nf ef'.

(** [Built m s G g nf ef]: [g] was made by [new_with] on shape [s] in build mode [m], or by
    [new_uninit], writes of every node and edge, and [assume_init], and then changed by any
    number of successful writes, at any values of the coordinate type; [nf] and [ef] say
    what the weights should be by now. *)
Inductive Built {A D N E} (m : mode) (s : Shape Cell A D) (G : Geometry A D)
  : LatticeGraph Cell A D N E -> (Cell -> N) -> (Cell -> A -> E) -> Prop :=
| built_new nf ef g :
    new_with s (fun st c => (nf c, st)) (fun st c a => (ef c a, st)) m tt = Ok (g, tt) ->
    Built m s G g nf ef
| built_init g nf ef nf' ef' :
    Filling m s G g nf ef ->
    (forall c, In c (geo_nodes G) -> nf c = Some (nf' c)) ->
    (forall c a, edge_exists G c a -> ef c a = Some (ef' c a)) ->
    Built m s G (assume_init g) nf' ef'
| built_node g nf ef c w nf' g' :
    Built m s G g nf ef -> geo_coord G c ->
    node_weight_mut m g c (fun _ => Some w) = Ok (Some g') ->
    nf' c = w -> (forall c', c' <> c -> nf' c' = nf c') ->
    Built m s G g' nf' ef
| built_edge g nf ef c a w ef' g' :
    Built m s G g nf ef -> geo_coord G c ->
    edge_weight_mut m g (c, a) (fun _ => Some w) = Ok (Some g') ->
    ef' c a = w -> (forall c' a', (c', a') <> (c, a) -> ef' c' a' = ef c' a') ->
    Built m s G g' nf ef'.

(** ** Histories of writes *)

Inductive WriteOp (A N E : Type) :=
| WriteNode (c : Cell) (f : N -> N)
| WriteEdge (c : Cell) (a : A) (f : E -> E).
Arguments WriteNode {A N E}.
Arguments WriteEdge {A N E}.

Definition write_coord {A N E} (op : WriteOp A N E) : Cell :=
  match op with WriteNode c _ => c | WriteEdge c _ _ => c end.

(** One write on the crate's graph.  The answer tells whether the accessor returned
    [Some]; in that case the weight behind the reference is replaced by [f] of it. *)
Definition write_op {A D N E} (m : mode) (g : LatticeGraph Cell A D N E) (op : WriteOp A N E)
  : outcome (bool * LatticeGraph Cell A D N E) :=
  let! r :=
    match op with
    | WriteNode c f => node_weight_mut m g c (option_map f)
    | WriteEdge c a f => edge_weight_mut m g (c, a) (option_map f)
    end in
  match r with
  | Some g' => Ok (true, g')
  | None => Ok (false, g)
  end.

Fixpoint write_run {A D N E} (m : mode) (g : LatticeGraph Cell A D N E)
  (ops : list (WriteOp A N E)) : outcome (list bool * LatticeGraph Cell A D N E) :=
  match ops with
  | [] => Ok ([], g)
  | op :: ops =>
      let! (b, g) := write_op m g op in
      let! (l, g) := write_run m g ops in
      Ok (b :: l, g)
  end.

(** The same writes on two maps. *)
Definition same_cell (c c' : Cell) : bool := (fst c =? fst c') && (snd c =? snd c').

Definition write_spec {A D N E} (G : Geometry A D)
  (nf : Cell -> N) (ef : Cell -> A -> E) (op : WriteOp A N E)
  : bool * (Cell -> N) * (Cell -> A -> E) :=
  let vec a := ag_vec (geo_ax G) (ag_fwd (geo_ax G) a) in
  match op with
  | WriteNode c f =>
      if mem c (geo_nodes G)
      then (true, fun c' => if same_cell c' c then f (nf c') else nf c', ef)
      else (false, nf, ef)
  | WriteEdge c a f =>
      if mem c (geo_nodes G) &&
         match geo_step G c (ag_fwd (geo_ax G) a) with Some _ => true | None => false end
      then (true, nf, fun c' a' => if same_cell c' c && veqb (vec a') (vec a)
                                   then f (ef c' a') else ef c' a')
      else (false, nf, ef)
  end.

Fixpoint write_spec_run {A D N E} (G : Geometry A D)
  (nf : Cell -> N) (ef : Cell -> A -> E) (ops : list (WriteOp A N E))
  : list bool * (Cell -> N) * (Cell -> A -> E) :=
  match ops with
  | [] => ([], nf, ef)
  | op :: ops =>
      let '(b, nf, ef) := write_spec G nf ef op in
      let '(l, nf, ef) := write_spec_run G nf ef ops in
      (b :: l, nf, ef)
  end.

(** The visit map after a history. *)
Fixpoint visit_state {A D N E} (m : mode) (g : LatticeGraph Cell A D N E) (vm : VisMap)
  (ops : list VisitOp) : outcome VisMap :=
  match ops with
  | [] => Ok vm
  | op :: ops => let! (_, vm) := visit_op m g vm op in visit_state m g vm ops
  end.
(** The set of marked cells after a history. *)
Fixpoint marked_after (board marked : list Cell) (ops : list VisitOp) : list Cell :=
  match ops with
  | [] => marked
  | op :: ops => marked_after board (snd (visit_spec board marked op)) ops
  end.

(** The coordinates an operation is called with can be located. *)
Definition visit_allowed {A D} (m : mode) (G : Geometry A D) (op : VisitOp) : Prop :=
  match op with
  | Visit c | Unvisit c | IsVisited c => locatable m G c
  | ResetMap => True
  end.

(** ** The crate's axis types *)

Inductive KnownAxis : forall A D : Type, AxisOps A D -> AxisGeo A D -> Prop :=
| known_square : KnownAxis _ _ sq_axis square_axes
| known_square_dir : KnownAxis _ _ dsq_axis (directed_axes square_axes)
| known_diagonal : KnownAxis _ _ dg_axis diagonal_axes
| known_diagonal_dir : KnownAxis _ _ ddg_axis (directed_axes diagonal_axes)
| known_hexr : KnownAxis _ _ r_axis hexr_axes
| known_hexr_dir : KnownAxis _ _ dr_axis (directed_axes hexr_axes)
| known_hexq : KnownAxis _ _ q_axis hexq_axes
| known_hexq_dir : KnownAxis _ _ dq_axis (directed_axes hexq_axes).
Arguments KnownAxis {A D}.
