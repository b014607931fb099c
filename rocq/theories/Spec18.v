(** * Spec18: boards on which [neighbors] leads off the board (C112). *)

From Verif Require Import Machine Store Axes Shapes Lattice Spec Spec11.

(** [Sealed s G]: the shapes of which no node lists one off the board.  Besides the enclosed
    ones these are the columns with LoopEW and the doubled coordinates, which lack edges but list
    only nodes of the board.  [Drafty s G]: the shapes of which some node lists one off the
    board. *)
Inductive Sealed : forall A D : Type, Shape Cell A D -> Geometry A D -> Prop :=
| sl_enclosed A D (s : Shape Cell A D) G : Enclosed s G -> Sealed _ _ s G
| sl_offset_q_loop b w h :
    fits w h ->
    Sealed _ _ (hex_offset_q_lew b w h) (rect_code_geometry hexq_axes (hex_offset_q_lew b w h) w h)
| sl_double w h :
    fits w h -> Sealed _ _ (double_shape w h) (double_code_geometry w h).
Arguments Sealed {A D}.

Inductive Drafty : forall A D : Type, Shape Cell A D -> Geometry A D -> Prop :=
| dr_leaky A D (s : Shape Cell A D) G : Leaky s G -> Drafty _ _ s G
| dr_offset_q b w h :
    fits w h -> 2 <= w -> 1 <= h -> h mod 2 <> co_q b ->
    Drafty _ _ (hex_offset_q b w h) (rect_code_geometry hexq_axes (hex_offset_q b w h) w h).
Arguments Drafty {A D}.
