(** * Properties22: the unchecked functions outside of their contract (C105). *)

From Verif Require Import Machine Store Axes Shapes Lattice Spec Spec15 Demo UncheckedProofs.

(** ** C105 *)

(** Debug assertions should catch every call of an unchecked function that the checked one
    refuses, as they do in the default methods of [Shape].  That is so for [move_coord_unchecked]
    of these shapes of every size (also of sizes of which there is no graph).
    [moves_guarded s] (Spec15.v): if [move_coord] refuses a move, then
    [move_coord_unchecked] panics with debug assertions and is undefined behaviour without. *)
Theorem C105_move_partial :
  forall w h : Z,
  (moves_guarded (square_shape w h) /\ moves_guarded (square_dir_shape w h) /\
   moves_guarded (diagonal_shape w h) /\ moves_guarded (diagonal_dir_shape w h) /\
   moves_guarded (double_shape w h)) /\
  (forall b, moves_guarded (hex_offset_r b w h) /\ moves_guarded (hex_offset_r_dir b w h) /\
     moves_guarded (hex_offset_r_lew b w h)) /\
  (forall b, moves_guarded (hex_offset_q b w h) /\ moves_guarded (hex_offset_q_dir b w h) /\
     moves_guarded (hex_offset_q_lew b w h)) /\
  (forall k b, moves_guarded (hex_axial_r_lew k b w h) /\
     moves_guarded (hex_axial_r_dir_lew k b w h)) /\
  (forall k b, moves_guarded (hex_axial_q_lew k b w h) /\
     moves_guarded (hex_axial_q_dir_lew k b w h)).
Proof. exact c105_move. Qed.
Print Assumptions C105_move_partial.

(** The axial shapes without loop do not check: a refused move leads to a coordinate outside of
    the board, in both builds ([moves_bare]). *)
Theorem C105_move_axial :
  forall k (w h : Z),
  (forall b, moves_bare (hex_axial_r k b w h) /\ moves_bare (hex_axial_r_dir k b w h)) /\
  (forall b, moves_bare (hex_axial_q k b w h) /\ moves_bare (hex_axial_q_dir k b w h)).
Proof. exact c105_move_bare. Qed.
Print Assumptions C105_move_axial.

(** No shape answers [to_offset_unchecked] with a position on the board if [to_offset] refuses
    the coordinate. *)
Theorem C105_offset :
  forall (A D : Type) (m : mode) (s : Shape Cell A D) (G : Geometry A D), Stored s G ->
  forall c, sh_to_offset s m c = Ok None ->
  (exists o, sh_to_offset_unchecked s m c = Ok o /\
     (sh_horizontal s <= fst o \/ sh_vertical s <= snd o)) \/
  sh_to_offset_unchecked s m c = Fail (match m with Debug => FPanic | Release => FUB end).
Proof. exact offset_none. Qed.
Print Assumptions C105_offset.

(** So the unchecked weights of a coordinate outside of the board are always lost: undefined
    behaviour, or with debug assertions perhaps a panic. *)
Theorem C105_off_board :
  forall (A D N E : Type) (m : mode) (s : Shape Cell A D) (G : Geometry A D), Stored s G ->
  forall (g : LatticeGraph Cell A D N E) nf ef, Built m s G g nf ef ->
  forall c, sh_to_offset s m c = Ok None ->
  lost m (node_weight_unchecked m g c) /\
  (forall a, lost m (edge_weight_unchecked m g (c, a))) /\
  (forall f, lost m (node_weight_mut_unchecked m g c f)) /\
  (forall a f, lost m (edge_weight_mut_unchecked m g (c, a) f)).
Proof. intros A D N E m s G STO. exact (c105_off STO). Qed.
Print Assumptions C105_off_board.

(** The weight of an edge over the rim is undefined behaviour in both builds: the slot is there,
    but nothing was ever written to it. *)
Theorem C105_no_edge :
  forall (A D N E : Type) (m : mode) (s : Shape Cell A D) (G : Geometry A D), Stored s G ->
  forall (g : LatticeGraph Cell A D N E) nf ef, Built m s G g nf ef ->
  forall c a, In c (geo_nodes G) -> ~ edge_exists G c a ->
  edge_weight_unchecked m g (c, a) = Fail FUB.
Proof. intros A D N E m s G STO. exact (c105_no_edge STO). Qed.
Print Assumptions C105_no_edge.

(** Debug assertions catch neither of these, nor a coordinate outside of the board, nor a move
    over the rim of an axial board. *)
Theorem C105_refuted :
  exists c c' : Cell, Stored h16 h16G /\
  Built Debug h16 h16G (demo h16 Debug) demo_node (demo_edge h16) /\
  sh_to_offset h16 Debug c = Ok None /\
  node_weight_unchecked Debug (demo h16 Debug) c = Fail FUB /\
  edge_weight_unchecked Debug (demo h16 Debug) (c, AE) = Fail FUB /\
  sh_move_coord h16 Debug c' RE = Ok None /\
  sh_move_coord_unchecked h16 Debug c' RE = Ok c /\
  edge_weight_unchecked Debug (demo h16 Debug) (c', AE) = Fail FUB.
Proof.
  exists (3, 0), (2, 0). split; [apply st_supported, h16_ok|].
  split; [apply demo_built, h16_ok|]. vm_compute. repeat split.
Qed.
Print Assumptions C105_refuted.

Example C105_case :
  sh_move_coord (square_shape 3 2) Debug (2, 1) DX = Ok None /\
  sh_move_coord_unchecked (square_shape 3 2) Debug (2, 1) DX = Fail FPanic /\
  sh_move_coord_unchecked (square_shape 3 2) Release (2, 1) DX = Fail FUB /\
  sh_to_offset_unchecked (square_dir_shape 3 2) Debug (3, 1) = Fail FPanic /\
  sh_to_offset_unchecked (square_shape 3 2) Debug (3, 1) = Ok (3, 1) /\
  In (2, 0) (geo_nodes h16G) /\ ~ edge_exists h16G (2, 0) AE.
Proof.
  repeat split; try reflexivity; [vm_compute; tauto|].
  intros [_ H]. apply H. reflexivity.
Qed.
