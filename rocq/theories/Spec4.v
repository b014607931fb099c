(** * Spec4: walks, distances and traversals. *)

From Verif Require Import Machine Store Axes Shapes Lattice Spec.

(** ** Walks *)

(** [Walk m g a n b]: [n] steps, each to one of the [neighbors], lead from [a] to [b]. *)
Inductive Walk {A D N E} (m : mode) (g : LatticeGraph Cell A D N E)
  : Cell -> nat -> Cell -> Prop :=
| walk_here c : Walk m g c 0 c
| walk_step a b c n l :
    Drains (neighbors_next m g a) (neighbors g a) l -> In b l -> Walk m g b n c ->
    Walk m g a (S n) c.

(** [n] is the length of a shortest walk from [a] to [b]. *)
Definition shortest {A D N E} (m : mode) (g : LatticeGraph Cell A D N E) (a b : Cell) (n : Z)
  : Prop :=
  (exists k, Walk m g a k b /\ Z.of_nat k = n) /\
  forall k, Walk m g a k b -> n <= Z.of_nat k.

(** ** Distances in the plane *)

Definition taxicab (a b : Vec) : Z := Z.abs (fst a - fst b) + Z.abs (snd a - snd b).
Definition chessboard (a b : Vec) : Z := Z.max (Z.abs (fst a - fst b)) (Z.abs (snd a - snd b)).
(** Hexagons by the position of their centres, rows one unit and cells two units apart. *)
Definition hex_rows (a b : Vec) : Z :=
  let dx := Z.abs (fst a - fst b) in
  let dy := Z.abs (snd a - snd b) in
  Z.max dy ((dx + dy) / 2).
(** Hexagons by axial coordinates. *)
Definition hex_axial (a b : Cell) : Z :=
  let dr := fst a - fst b in
  let dq := snd a - snd b in
  Z.max (Z.abs (dr + dq)) (Z.max (Z.abs dr) (Z.abs dq)).
(** On a board that repeats after [period], the nearest of the copies of [b]. *)
Definition around (dist : Vec -> Vec -> Z) (period : Vec) (a b : Vec) : Z :=
  Z.min (dist a b) (Z.min (dist a (vadd b period)) (dist (vadd a period) b)).

(** The distance that belongs to each shape. *)
Inductive Distance : forall A D : Type, Shape Cell A D -> Geometry A D ->
  (Cell -> Cell -> Z) -> Prop :=
| dist_square w h :
    Distance _ _ (square_shape w h) (square_geometry square_axes w h) taxicab
| dist_square_dir w h :
    Distance _ _ (square_dir_shape w h) (square_geometry (directed_axes square_axes) w h)
      taxicab
| dist_diagonal w h :
    Distance _ _ (diagonal_shape w h) (square_geometry diagonal_axes w h) chessboard
| dist_diagonal_dir w h :
    Distance _ _ (diagonal_dir_shape w h)
      (square_geometry (directed_axes diagonal_axes) w h) chessboard
| dist_offset_r b w h :
    Distance _ _ (hex_offset_r b w h) (offset_r_geometry hexr_axes b w h)
      (fun c c' => hex_rows (offset_r_pos b c) (offset_r_pos b c'))
| dist_offset_r_dir b w h :
    Distance _ _ (hex_offset_r_dir b w h)
      (offset_r_geometry (directed_axes hexr_axes) b w h)
      (fun c c' => hex_rows (offset_r_pos b c) (offset_r_pos b c'))
| dist_offset_r_loop b w h :
    Distance _ _ (hex_offset_r_lew b w h) (offset_r_loop_geometry hexr_axes b w h)
      (fun c c' => around hex_rows (2 * w, 0) (offset_r_pos b c) (offset_r_pos b c'))
| dist_axial_r k b w h :
    Distance _ _ (hex_axial_r k b w h) (axial_r_geometry hexr_axes k b w h) hex_axial
| dist_axial_r_dir k b w h :
    Distance _ _ (hex_axial_r_dir k b w h)
      (axial_r_geometry (directed_axes hexr_axes) k b w h) hex_axial
| dist_axial_q k b w h :
    Distance _ _ (hex_axial_q k b w h) (axial_q_geometry hexq_axes k b w h) hex_axial
| dist_axial_q_dir k b w h :
    Distance _ _ (hex_axial_q_dir k b w h)
      (axial_q_geometry (directed_axes hexq_axes) k b w h) hex_axial
| dist_axial_r_loop k b w h : h + co_r b <= 2 ->
    Distance _ _ (hex_axial_r_lew k b w h) (axial_r_loop_geometry hexr_axes k b w h)
      (around hex_axial (w, 0))
| dist_axial_r_dir_loop k b w h : h + co_r b <= 2 ->
    Distance _ _ (hex_axial_r_dir_lew k b w h)
      (axial_r_loop_geometry (directed_axes hexr_axes) k b w h) (around hex_axial (w, 0))
| dist_axial_q_loop k b w h : h + co_q b <= 2 ->
    Distance _ _ (hex_axial_q_lew k b w h) (axial_q_loop_geometry hexq_axes k b w h)
      (around hex_axial (w, 0))
| dist_axial_q_dir_loop k b w h : h + co_q b <= 2 ->
    Distance _ _ (hex_axial_q_dir_lew k b w h)
      (axial_q_loop_geometry (directed_axes hexq_axes) k b w h) (around hex_axial (w, 0)).
Arguments Distance {A D}.

(** ** Routes *)

(** For a graph given by its [edges], the [target] of an edge and a [cost] for each edge. *)
Section Routes.
  Context {C Ed It : Type} (edges : C -> outcome It) (next : It -> outcome (option Ed * It))
    (target : Ed -> outcome C) (cost : Ed -> Z).

  (** [e] is among the [edges] of [a]. *)
  Definition EdgeAt (a : C) (e : Ed) : Prop :=
    exists it l, edges a = Ok it /\ Drains next it l /\ In e l.

  (** [Route a p k b]: the nodes [p], first [a] and last [b], are joined one to the next by
      edges that cost [k] together. *)
  Inductive Route : C -> list C -> Z -> C -> Prop :=
  | route_here c : Route c [c] 0 c
  | route_step a e t p k b :
      EdgeAt a e -> target e = Ok t -> Route t p k b -> Route a (a :: p) (cost e + k) b.

  (** [p] is a route from [a] to a goal, it costs [k], and no route to a goal costs less. *)
  Definition Cheapest (goal : C -> bool) (a : C) (p : list C) (k : Z) : Prop :=
    (exists c, goal c = true /\ Route a p k c) /\
    forall c p' k', goal c = true -> Route a p' k' c -> k <= k'.
End Routes.
