(** * Spec8: colourings and cycles. *)

From Verif Require Import Machine Store Axes Shapes Lattice SquareGraph Spec SpecSquare Kruskal.

(** The [nodes] can be given two colours so that no node has the colour of one of its
    neighbours. *)
Definition TwoColours {C It} (nb : C -> It) (nb_next : C -> It -> outcome (option C * It))
  (nodes : list C) : Prop :=
  exists col : C -> bool, forall c l c', In c nodes ->
    Drains (nb_next c) (nb c) l -> In c' l -> col c <> col c'.

(** No edge joins two nodes that the edges before it link: the edges close no cycle. *)
Definition Forest {X} (es : list (X * X)) : Prop :=
  forall l1 a b l2, es = l1 ++ (a, b) :: l2 -> ~ Linked l1 a b.

(** Which boards need no third colour: all boards of squares; where cells meet in threes, only
    single rows and columns; and of these, rings only if they are even. *)
Inductive Chequered : forall A D : Type, Shape Cell A D -> Geometry A D -> bool -> Prop :=
| ch_square w h :
    Chequered _ _ (square_shape w h) (square_geometry square_axes w h) true
| ch_square_dir w h :
    Chequered _ _ (square_dir_shape w h) (square_geometry (directed_axes square_axes) w h) true
| ch_diagonal w h :
    Chequered _ _ (diagonal_shape w h) (square_geometry diagonal_axes w h)
      ((w <=? 1) || (h <=? 1))
| ch_diagonal_dir w h :
    Chequered _ _ (diagonal_dir_shape w h) (square_geometry (directed_axes diagonal_axes) w h)
      ((w <=? 1) || (h <=? 1))
| ch_offset_r b w h :
    Chequered _ _ (hex_offset_r b w h) (offset_r_geometry hexr_axes b w h)
      ((w <=? 1) || (h <=? 1))
| ch_offset_r_dir b w h :
    Chequered _ _ (hex_offset_r_dir b w h)
      (offset_r_geometry (directed_axes hexr_axes) b w h) ((w <=? 1) || (h <=? 1))
| ch_offset_r_loop b w h :
    Chequered _ _ (hex_offset_r_lew b w h) (offset_r_loop_geometry hexr_axes b w h)
      (Z.even w && (h <=? 1))
| ch_axial_r k b w h :
    Chequered _ _ (hex_axial_r k b w h) (axial_r_geometry hexr_axes k b w h)
      ((w <=? 1) || (h <=? 1))
| ch_axial_r_dir k b w h :
    Chequered _ _ (hex_axial_r_dir k b w h)
      (axial_r_geometry (directed_axes hexr_axes) k b w h) ((w <=? 1) || (h <=? 1))
| ch_axial_q k b w h :
    Chequered _ _ (hex_axial_q k b w h) (axial_q_geometry hexq_axes k b w h)
      ((w <=? 1) || (h <=? 1))
| ch_axial_q_dir k b w h :
    Chequered _ _ (hex_axial_q_dir k b w h)
      (axial_q_geometry (directed_axes hexq_axes) k b w h) ((w <=? 1) || (h <=? 1))
| ch_axial_r_loop k b w h :
    Chequered _ _ (hex_axial_r_lew k b w h) (axial_r_loop_geometry hexr_axes k b w h)
      (Z.even w && (h <=? 1))
| ch_axial_r_dir_loop k b w h :
    Chequered _ _ (hex_axial_r_dir_lew k b w h)
      (axial_r_loop_geometry (directed_axes hexr_axes) k b w h) (Z.even w && (h <=? 1))
| ch_axial_q_loop k b w h :
    Chequered _ _ (hex_axial_q_lew k b w h) (axial_q_loop_geometry hexq_axes k b w h)
      (Z.even w && (h <=? 1))
| ch_axial_q_dir_loop k b w h :
    Chequered _ _ (hex_axial_q_dir_lew k b w h)
      (axial_q_loop_geometry (directed_axes hexq_axes) k b w h) (Z.even w && (h <=? 1)).
Arguments Chequered {A D}.

(** Which boards have a cycle: with directed axes a cell and any neighbour make one; wrapping
    boards always have one; of the others only rows and columns have none. *)
Inductive Cyclic : forall A D : Type, Shape Cell A D -> Geometry A D -> bool -> Prop :=
| cy_square w h :
    Cyclic _ _ (square_shape w h) (square_geometry square_axes w h) ((1 <? w) && (1 <? h))
| cy_square_dir w h :
    Cyclic _ _ (square_dir_shape w h) (square_geometry (directed_axes square_axes) w h) (1 <? w * h)
| cy_diagonal w h :
    Cyclic _ _ (diagonal_shape w h) (square_geometry diagonal_axes w h) ((1 <? w) && (1 <? h))
| cy_diagonal_dir w h :
    Cyclic _ _ (diagonal_dir_shape w h) (square_geometry (directed_axes diagonal_axes) w h) (1 <? w * h)
| cy_offset_r b w h :
    Cyclic _ _ (hex_offset_r b w h) (offset_r_geometry hexr_axes b w h) ((1 <? w) && (1 <? h))
| cy_offset_r_dir b w h :
    Cyclic _ _ (hex_offset_r_dir b w h)
      (offset_r_geometry (directed_axes hexr_axes) b w h) (1 <? w * h)
| cy_offset_r_loop b w h :
    Cyclic _ _ (hex_offset_r_lew b w h) (offset_r_loop_geometry hexr_axes b w h) true
| cy_axial_r k b w h :
    Cyclic _ _ (hex_axial_r k b w h) (axial_r_geometry hexr_axes k b w h) ((1 <? w) && (1 <? h))
| cy_axial_r_dir k b w h :
    Cyclic _ _ (hex_axial_r_dir k b w h)
      (axial_r_geometry (directed_axes hexr_axes) k b w h) (1 <? w * h)
| cy_axial_q k b w h :
    Cyclic _ _ (hex_axial_q k b w h) (axial_q_geometry hexq_axes k b w h) ((1 <? w) && (1 <? h))
| cy_axial_q_dir k b w h :
    Cyclic _ _ (hex_axial_q_dir k b w h)
      (axial_q_geometry (directed_axes hexq_axes) k b w h) (1 <? w * h)
| cy_axial_r_loop k b w h :
    h + co_r b <= 2 ->
    Cyclic _ _ (hex_axial_r_lew k b w h) (axial_r_loop_geometry hexr_axes k b w h) true
| cy_axial_r_dir_loop k b w h :
    h + co_r b <= 2 ->
    Cyclic _ _ (hex_axial_r_dir_lew k b w h)
      (axial_r_loop_geometry (directed_axes hexr_axes) k b w h) true
| cy_axial_q_loop k b w h :
    h + co_q b <= 2 ->
    Cyclic _ _ (hex_axial_q_lew k b w h) (axial_q_loop_geometry hexq_axes k b w h) true
| cy_axial_q_dir_loop k b w h :
    h + co_q b <= 2 ->
    Cyclic _ _ (hex_axial_q_dir_lew k b w h)
      (axial_q_loop_geometry (directed_axes hexq_axes) k b w h) true.
Arguments Cyclic {A D}.

(** A [SquareGraph] needs no third colour unless one of its loops is odd. *)
Definition sq_chequered (S : LoopShape) (h v : Z) : bool :=
  (negb (loops_h S) || Z.even h) && (negb (loops_v S) || Z.even v).

(** A [SquareGraph] has a cycle unless it is a single row or column that does not loop. *)
Definition sq_cyclic (S : LoopShape) (h v : Z) : bool :=
  loops_h S || loops_v S || ((1 <? h) && (1 <? v)).
