(** * Spec12: which derived order belongs to which axis type; the axial boards (C102). *)

From Verif Require Import Machine Axes Shapes Order Spec.

(** [Ranked ax ra rd]: [ra] and [rd] are the places of the variants of the axis type of [ax] and
    of its direction type. *)
Inductive Ranked : forall A D : Type, AxisOps A D -> (A -> nat) -> (D -> nat) -> Prop :=
| ranked_square : Ranked _ _ sq_axis sq_rank dsq_rank
| ranked_square_dir : Ranked _ _ dsq_axis dsq_rank dsq_rank
| ranked_diagonal : Ranked _ _ dg_axis dg_rank ddg_rank
| ranked_diagonal_dir : Ranked _ _ ddg_axis ddg_rank ddg_rank
| ranked_hexr : Ranked _ _ r_axis r_rank dr_rank
| ranked_hexr_dir : Ranked _ _ dr_axis dr_rank dr_rank
| ranked_hexq : Ranked _ _ q_axis q_rank dq_rank
| ranked_hexq_dir : Ranked _ _ dq_axis dq_rank dq_rank.
Arguments Ranked {A D}.

(** [cmp] is the order in which the list goes: the items at places [i] and [j] compare as [i]
    and [j] do. *)
Definition in_order {X} (cmp : X -> X -> comparison) (l : list X) : Prop :=
  forall i j a b, nth_error l i = Some a -> nth_error l j = Some b ->
  cmp a b = Nat.compare i j.

(** The axial boards without loop: shape, geometry, 1 if the even rows are shifted, sides. *)
Inductive AxialBoard : forall A D : Type, Shape Cell A D -> Geometry A D -> Z -> Z -> Z -> Prop :=
| axial_board_r k b w h :
    fits w h -> axial_fits k (co_r b) w h ->
    AxialBoard _ _ (hex_axial_r k b w h) (axial_r_geometry hexr_axes k b w h) (co_r b) w h
| axial_board_r_dir k b w h :
    fits w h -> axial_fits k (co_r b) w h ->
    AxialBoard _ _ (hex_axial_r_dir k b w h)
      (axial_r_geometry (directed_axes hexr_axes) k b w h) (co_r b) w h
| axial_board_q k b w h :
    fits w h -> axial_fits k (co_q b) w h ->
    AxialBoard _ _ (hex_axial_q k b w h) (axial_q_geometry hexq_axes k b w h) (co_q b) w h
| axial_board_q_dir k b w h :
    fits w h -> axial_fits k (co_q b) w h ->
    AxialBoard _ _ (hex_axial_q_dir k b w h)
      (axial_q_geometry (directed_axes hexq_axes) k b w h) (co_q b) w h.
Arguments AxialBoard {A D}.

(** The axial boards on which the ids of the edges are in order. *)
Definition small_axial (directed : bool) (co w h : Z) : Prop :=
  w <= 0 \/ h + co <= 2 \/ (w = 1 /\ directed = false /\ co = 1 /\ h <= 3).
