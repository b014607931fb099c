(** * Spec2: shapes compared with each other, paths, and numbers of edges. *)

From Verif Require Import Machine Axes Shapes Lattice Spec.

(** ** The same board in offset and in axial coordinates *)

(** [SameHexBoard s s']: [s] uses offset coordinates and [s'] axial coordinates, with the
    same parity, size, direction type and loop. *)
Inductive SameHexBoard : forall A : Type,
  Shape Cell A AxisDR -> Geometry A AxisDR ->
  Shape Cell A AxisDR -> Geometry A AxisDR -> Prop :=
| same_hex k b w h : fits w h -> axial_fits k (co_r b) w h ->
    SameHexBoard _ (hex_offset_r b w h) (offset_r_geometry hexr_axes b w h)
      (hex_axial_r k b w h) (axial_r_geometry hexr_axes k b w h)
| same_hex_dir k b w h : fits w h -> axial_fits k (co_r b) w h ->
    SameHexBoard _ (hex_offset_r_dir b w h)
      (offset_r_geometry (directed_axes hexr_axes) b w h)
      (hex_axial_r_dir k b w h) (axial_r_geometry (directed_axes hexr_axes) k b w h)
| same_hex_loop k b w h : fits w h -> axial_fits k (co_r b) w h -> h + co_r b <= 2 ->
    SameHexBoard _ (hex_offset_r_lew b w h) (offset_r_loop_geometry hexr_axes b w h)
      (hex_axial_r_lew k b w h) (axial_r_loop_geometry hexr_axes k b w h).
Arguments SameHexBoard {A}.

(** The coordinate [c'] of shape [s'] is stored at the offset that is written [c] in offset
    coordinates. *)
Definition stored_at {A D} (m : mode) (s' : Shape Cell A D) (c c' : Cell) : Prop :=
  sh_to_offset s' m c' = Ok (Some c).

(** Two references to edges agree but for the coordinates they are written in. *)
Definition same_reference {A D E} (m : mode) (s' : Shape Cell A D)
  (r r' : EdgeReference Cell E D) : Prop :=
  stored_at m s' (er_source r) (er_source r') /\
  stored_at m s' (er_target r) (er_target r') /\
  er_weight r = er_weight r' /\ er_direction r = er_direction r'.

(** ** Undirected shapes and their directed variants *)

Inductive Variants : forall A D : Type, Shape Cell A D -> Shape Cell D D -> Prop :=
| var_square w h : Variants _ _ (square_shape w h) (square_dir_shape w h)
| var_diagonal w h : Variants _ _ (diagonal_shape w h) (diagonal_dir_shape w h)
| var_offset_r b w h : Variants _ _ (hex_offset_r b w h) (hex_offset_r_dir b w h)
| var_offset_q b w h : Variants _ _ (hex_offset_q b w h) (hex_offset_q_dir b w h)
| var_axial_r k b w h : Variants _ _ (hex_axial_r k b w h) (hex_axial_r_dir k b w h)
| var_axial_q k b w h : Variants _ _ (hex_axial_q k b w h) (hex_axial_q_dir k b w h)
| var_axial_r_loop k b w h :
    Variants _ _ (hex_axial_r_lew k b w h) (hex_axial_r_dir_lew k b w h)
| var_axial_q_loop k b w h :
    Variants _ _ (hex_axial_q_lew k b w h) (hex_axial_q_dir_lew k b w h).
Arguments Variants {A D}.

(** ** What axial boards with a loop really do *)

(** [t] is the cell one step away if the board were endless; its column in row [snd t] is
    [fst t + (snd t + co) / 2], and only columns 0 .. w-1 are on the board. *)
Definition axial_loop_step (co w h : Z) (t : Cell) : option Cell :=
  let x := fst t + (snd t + co) / 2 in
  if (0 <=? snd t) && (snd t <? h) then
    if x =? -1 then Some (fst t + w, snd t)
    else if (x =? w) && (snd t + co <? 2) then Some (fst t - w, snd t)
    else Some t
  else None.

(** ** The layout drawn in the documentation of axial graphs with a Q base *)

(** The cell in column [x] and row [y] (src/hex/axial_based/mod.rs:22-40). *)
Definition documented_cell (co x y : Z) : Cell := (x, y - (x + co) / 2).

(** ** Walks *)

(** Move in each of the directions in turn; [Ok None] if one of the moves is refused. *)
Fixpoint walk {A D} (s : Shape Cell A D) (m : mode) (c : Cell) (ds : list D)
  : outcome (option Cell) :=
  match ds with
  | [] => Ok (Some c)
  | d :: ds =>
      let! c' := sh_move_coord s m c d in
      match c' with Some c' => walk s m c' ds | None => Ok None end
  end.

(** [Reachable m g a b]: following [neighbors] leads from [a] to [b]. *)
Inductive Reachable {A D N E} (m : mode) (g : LatticeGraph Cell A D N E)
  : Cell -> Cell -> Prop :=
| reach_here c : Reachable m g c c
| reach_step a b c l :
    Drains (neighbors_next m g a) (neighbors g a) l -> In b l -> Reachable m g b c ->
    Reachable m g a c.

(** ** How many edges a board has *)

(** For [w] columns and [h] rows, both positive. *)
Definition square_total (w h : Z) : Z := (w - 1) * h + w * (h - 1).
Definition diagonal_total (w h : Z) : Z :=
  (w - 1) * h + w * (h - 1) + 2 * ((w - 1) * (h - 1)).
(** [w - 1] edges in each row and, between two rows, [2 w - 1] edges. *)
Definition hex_total (w h : Z) : Z := (w - 1) * h + (2 * w - 1) * (h - 1).
(** A looped row has [w] edges, and there are [2 w] between two rows. *)
Definition hex_loop_total (w h : Z) : Z := w * h + 2 * w * (h - 1).

(** Equality of directions. *)
Definition square_dir_eqb (a b : DirectedSquareAxis) : bool :=
  veqb (square_vec a) (square_vec b).

Inductive EdgeTotal : forall A D : Type, Shape Cell A D -> Geometry A D -> Z -> Prop :=
| total_square w h :
    EdgeTotal _ _ (square_shape w h) (square_geometry square_axes w h) (square_total w h)
| total_square_dir w h :
    EdgeTotal _ _ (square_dir_shape w h) (square_geometry (directed_axes square_axes) w h)
      (2 * square_total w h)
| total_diagonal w h :
    EdgeTotal _ _ (diagonal_shape w h) (square_geometry diagonal_axes w h)
      (diagonal_total w h)
| total_diagonal_dir w h :
    EdgeTotal _ _ (diagonal_dir_shape w h)
      (square_geometry (directed_axes diagonal_axes) w h) (2 * diagonal_total w h)
| total_offset_r b w h :
    EdgeTotal _ _ (hex_offset_r b w h) (offset_r_geometry hexr_axes b w h) (hex_total w h)
| total_offset_r_dir b w h :
    EdgeTotal _ _ (hex_offset_r_dir b w h)
      (offset_r_geometry (directed_axes hexr_axes) b w h) (2 * hex_total w h)
| total_offset_r_loop b w h :
    EdgeTotal _ _ (hex_offset_r_lew b w h) (offset_r_loop_geometry hexr_axes b w h)
      (hex_loop_total w h)
| total_axial_r k b w h :
    EdgeTotal _ _ (hex_axial_r k b w h) (axial_r_geometry hexr_axes k b w h) (hex_total w h)
| total_axial_r_dir k b w h :
    EdgeTotal _ _ (hex_axial_r_dir k b w h)
      (axial_r_geometry (directed_axes hexr_axes) k b w h) (2 * hex_total w h)
| total_axial_q k b w h :
    EdgeTotal _ _ (hex_axial_q k b w h) (axial_q_geometry hexq_axes k b w h) (hex_total w h)
| total_axial_q_dir k b w h :
    EdgeTotal _ _ (hex_axial_q_dir k b w h)
      (axial_q_geometry (directed_axes hexq_axes) k b w h) (2 * hex_total w h)
| total_axial_r_loop k b w h : h + co_r b <= 2 ->
    EdgeTotal _ _ (hex_axial_r_lew k b w h) (axial_r_loop_geometry hexr_axes k b w h)
      (hex_loop_total w h)
| total_axial_r_dir_loop k b w h : h + co_r b <= 2 ->
    EdgeTotal _ _ (hex_axial_r_dir_lew k b w h)
      (axial_r_loop_geometry (directed_axes hexr_axes) k b w h) (2 * hex_loop_total w h)
| total_axial_q_loop k b w h : h + co_q b <= 2 ->
    EdgeTotal _ _ (hex_axial_q_lew k b w h) (axial_q_loop_geometry hexq_axes k b w h)
      (hex_loop_total w h)
| total_axial_q_dir_loop k b w h : h + co_q b <= 2 ->
    EdgeTotal _ _ (hex_axial_q_dir_lew k b w h)
      (axial_q_loop_geometry (directed_axes hexq_axes) k b w h) (2 * hex_loop_total w h).
Arguments EdgeTotal {A D}.

(** ** Coordinates outside of the board *)

(** [SquareKind s G]: square and diagonal lattices. *)
Inductive SquareKind : forall A D : Type, Shape Cell A D -> Geometry A D -> Z -> Z -> Prop :=
| sk_square w h : fits w h ->
    SquareKind _ _ (square_shape w h) (square_geometry square_axes w h) w h
| sk_square_dir w h : fits w h ->
    SquareKind _ _ (square_dir_shape w h)
      (square_geometry (directed_axes square_axes) w h) w h
| sk_diagonal w h : fits w h ->
    SquareKind _ _ (diagonal_shape w h) (square_geometry diagonal_axes w h) w h
| sk_diagonal_dir w h : fits w h ->
    SquareKind _ _ (diagonal_dir_shape w h)
      (square_geometry (directed_axes diagonal_axes) w h) w h.
Arguments SquareKind {A D}.

(** The neighbour of [c] in the direction of the vector [v] if the board had no rim on the far
    sides for those who are already outside: a component must not become negative, and must
    stay below the side of the board only if it grows. *)
Definition one_sided_step (w h : Z) (c : Cell) (v : Vec) : list Cell :=
  let t := vadd c v in
  if (0 <=? fst t) && (0 <=? snd t) &&
     ((fst v <=? 0) || (fst t <? w)) && ((snd v <=? 0) || (snd t <? h))
  then [t] else [].

(** [AxialPlain k s G]: axial coordinates without loop. *)
Inductive AxialPlain (k : AxialKind) : forall A D : Type,
  Shape Cell A D -> Geometry A D -> Prop :=
| ap_r b w h : fits w h -> axial_fits k (co_r b) w h ->
    AxialPlain k _ _ (hex_axial_r k b w h) (axial_r_geometry hexr_axes k b w h)
| ap_r_dir b w h : fits w h -> axial_fits k (co_r b) w h ->
    AxialPlain k _ _ (hex_axial_r_dir k b w h)
      (axial_r_geometry (directed_axes hexr_axes) k b w h)
| ap_q b w h : fits w h -> axial_fits k (co_q b) w h ->
    AxialPlain k _ _ (hex_axial_q k b w h) (axial_q_geometry hexq_axes k b w h)
| ap_q_dir b w h : fits w h -> axial_fits k (co_q b) w h ->
    AxialPlain k _ _ (hex_axial_q_dir k b w h)
      (axial_q_geometry (directed_axes hexq_axes) k b w h).
Arguments AxialPlain k {A D}.

(** [c] and all coordinates next to it are values of the type, and far from overflow. *)
Definition near_ok (k : AxialKind) (c : Cell) : Prop :=
  axial_coord k (fst c - 1, snd c - 1) /\ axial_coord k (fst c + 1, snd c + 1) /\
  - 2 ^ 62 <= fst c <= 2 ^ 62 /\ - 2 ^ 62 <= snd c <= 2 ^ 62.
