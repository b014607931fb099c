(** * Properties14: [neighbors] of coordinates outside of the other boards (C56,
    continued), and printing a graph (C97). *)

From Verif Require Import Machine Store Axes Shapes Lattice Spec Spec2 Demo MoreDemo More Format Spec10
  OffboardMore FormatProofs.

(** ** C56, continued

    [nx d] is the coordinate one step from [c] in direction [d] if the board were endless. *)

(** Rows of hexagons with offset coordinates: as on square boards, the rim is only checked in
    the direction in which a component grows. *)
Theorem C56_offset_partial :
  forall (b : HexR) (w h : Z) (A N E : Type) (s : Shape Cell A AxisDR) (G : Geometry A AxisDR)
    (m : mode) (g : LatticeGraph Cell A AxisDR N E) nf ef (c : Cell) (nx : AxisDR -> Cell),
  OffsetKind b w h s G -> Built m s G g nf ef ->
  0 <= fst c < 2 ^ 64 - 1 -> 0 <= snd c < 2 ^ 64 - 1 ->
  (forall d, offset_r_pos b (nx d) = vadd (offset_r_pos b c) (hexr_vec d)) ->
  Drains (neighbors_next m g c) (neighbors g c)
    (flat_map (fun d => one_sided_step w h c (vsub (nx d) c)) (ag_dirs (geo_ax G))).
Proof. exact c56_offset. Qed.
Print Assumptions C56_offset_partial.

(** The same with the loop: every step to the east from outside leads to the first column. *)
Theorem C56_offset_loop_partial :
  forall (b : HexR) (w h : Z) (N E : Type) (m : mode) (g : LatticeGraph Cell AxisR AxisDR N E)
    nf ef (c : Cell) (nx : AxisDR -> Cell),
  fits w h -> 1 <= w ->
  Built m (hex_offset_r_lew b w h) (offset_r_loop_geometry hexr_axes b w h) g nf ef ->
  0 <= fst c < 2 ^ 64 - 1 -> 0 <= snd c < 2 ^ 64 - 1 ->
  (forall d, offset_r_pos b (nx d) = vadd (offset_r_pos b c) (hexr_vec d)) ->
  Drains (neighbors_next m g c) (neighbors g c)
    (flat_map (fun d => one_sided_loop_step w h c (nx d)) (ag_dirs hexr_axes)).
Proof. exact c56_offset_loop. Qed.
Print Assumptions C56_offset_loop_partial.

(** Double coordinates, for coordinates on the board too. *)
Theorem C56_double_partial :
  forall (w h : Z) (N E : Type) (m : mode) (g : LatticeGraph Cell AxisR AxisDR N E) nf ef
    (c : Cell),
  fits w h -> Built m (double_shape w h) (double_code_geometry w h) g nf ef ->
  0 <= fst c < 2 ^ 64 - 2 -> 0 <= snd c < 2 ^ 64 - 1 ->
  Drains (neighbors_next m g c) (neighbors g c)
    (flat_map (fun d => one_sided_step w h c (hexr_vec d)) (ag_dirs hexr_axes)).
Proof. exact c56_double. Qed.
Print Assumptions C56_double_partial.

(** Axial coordinates with the loop: a step to a row of the board always succeeds, however far
    from the board it is. *)
Theorem C56_axial_loop_partial :
  forall (k : AxialKind) (w h : Z) (A D N E : Type) (co : Z) (pos : Cell -> Vec) (vec : D -> Vec)
    (s : Shape Cell A D) (G : Geometry A D) (m : mode) (g : LatticeGraph Cell A D N E) nf ef
    (c : Cell) (nx : D -> Cell),
  AxialLooped k w h co pos vec s G -> 1 <= w -> Built m s G g nf ef -> near_ok k c ->
  (forall d, pos (nx d) = vadd (pos c) (vec d)) ->
  Drains (neighbors_next m g c) (neighbors g c)
    (flat_map (fun d => listed (axial_wrap co w h (nx d))) (ag_dirs (geo_ax G))).
Proof. exact c56_axial_loop. Qed.
Print Assumptions C56_axial_loop_partial.

(** Columns of hexagons with offset coordinates ([OddQ], [EvenQ]), for coordinates on the board
    too.  A step to the north-east is not stopped by the last row, so a node of it can have a
    neighbour that is not on the board. *)
Theorem C56_columns_partial :
  forall (b : HexQ) (w h : Z) (A N E : Type) (s : Shape Cell A AxisDQ) (G : Geometry A AxisDQ)
    (m : mode) (g : LatticeGraph Cell A AxisDQ N E) nf ef (c : Cell),
  OffsetColumns b w h s G -> Built m s G g nf ef ->
  0 <= fst c < 2 ^ 64 - 1 -> 0 <= snd c < 2 ^ 64 - 1 ->
  Drains (neighbors_next m g c) (neighbors g c) (flat_map (q_step b w h c) (ag_dirs (geo_ax G))).
Proof. exact c56_columns. Qed.
Print Assumptions C56_columns_partial.

(** The same with the loop.  There a step to the north changes the column. *)
Theorem C56_columns_loop_partial :
  forall (b : HexQ) (w h : Z) (N E : Type) (m : mode) (g : LatticeGraph Cell AxisQ AxisDQ N E)
    nf ef (c : Cell),
  fits w h -> 1 <= w ->
  Built m (hex_offset_q_lew b w h) (rect_code_geometry hexq_axes (hex_offset_q_lew b w h) w h)
    g nf ef ->
  0 <= fst c < 2 ^ 64 - 1 -> 0 <= snd c < 2 ^ 64 - 1 ->
  Drains (neighbors_next m g c) (neighbors g c)
    (flat_map (q_loop_step b w h c) (ag_dirs hexq_axes)).
Proof. exact c56_columns_loop. Qed.
Print Assumptions C56_columns_loop_partial.

Example C56_columns_case :
  let s := hex_offset_q OddQ 3 3 in
  let G := rect_code_geometry hexq_axes s 3 3 in
  let l := hex_offset_q_lew OddQ 3 3 in
  OffsetColumns OddQ 3 3 s G /\ Built Debug s G (demo s Debug) demo_node (demo_edge s) /\
  Built Debug l (rect_code_geometry hexq_axes l 3 3) (demo l Debug) demo_node (demo_edge l) /\
  flat_map (q_step OddQ 3 3 (1, 2)) (ag_dirs hexq_axes)
    = [(2, 3); (1, 1); (0, 2); (2, 2)] /\
  Demo.collect (neighbors_next Debug (demo s Debug) (1, 2)) 7 0%nat
    = Ok [(2, 3); (1, 1); (0, 2); (2, 2)] /\
  flat_map (q_loop_step OddQ 3 3 (7, 2)) (ag_dirs hexq_axes)
    = [(0, 2); (0, 1); (6, 2); (6, 2)] /\
  Demo.collect (neighbors_next Debug (demo l Debug) (7, 2)) 7 0%nat
    = Ok [(0, 2); (0, 1); (6, 2); (6, 2)].
Proof.
  cbv zeta. assert (F : fits 3 3) by (apply fits_small; lia).
  split; [constructor; auto|].
  split; [apply demo_stored, st_offset_q; auto|].
  split; [apply demo_stored, st_offset_q_loop; auto|]. vm_compute. auto.
Qed.

Example C56_more_case :
  (** offset coordinates: (7, 1) is outside of the 3 x 3 board, and so are its neighbours *)
  (let nx d := match d with
               | RNE => (8, 2) | RE => (8, 1) | RSE => (8, 0)
               | RSW => (7, 0) | RW => (6, 1) | RNW => (7, 2) end in
   (forall d, offset_r_pos OddR (nx d) = vadd (offset_r_pos OddR (7, 1)) (hexr_vec d)) /\
   OffsetKind OddR 3 3 (hex_offset_r OddR 3 3) (offset_r_geometry hexr_axes OddR 3 3) /\
   flat_map (fun d => one_sided_step 3 3 (7, 1) (vsub (nx d) (7, 1))) (ag_dirs hexr_axes)
     = [(7, 0); (6, 1); (7, 2)] /\
   flat_map (fun d => one_sided_loop_step 3 3 (7, 1) (nx d)) (ag_dirs hexr_axes)
     = [(0, 2); (0, 1); (0, 0); (7, 0); (6, 1); (7, 2)]) /\
  (** double coordinates: (4, 0) is a node of the 3 x 3 board *)
  flat_map (fun d => one_sided_step 3 3 (4, 0) (hexr_vec d)) (ag_dirs hexr_axes)
    = [(2, 0); (3, 1)] /\
  (** axial coordinates with the loop, 3 x 3: row 1 from far away *)
  (let nx d := match d with
               | RNE => (10, 2) | RE => (11, 1) | RSE => (11, 0)
               | RSW => (10, 0) | RW => (9, 1) | RNW => (9, 2) end in
   (forall d, axial_r_pos (nx d) = vadd (axial_r_pos (10, 1)) (hexr_vec d)) /\
   near_ok HAxial (10, 1) /\
   AxialLooped HAxial 3 3 (co_r OddR) axial_r_pos hexr_vec (hex_axial_r_lew HAxial OddR 3 3)
     (axial_code_geometry hexr_axes (hex_axial_r_lew HAxial OddR 3 3) HAxial (co_r OddR) 3 3) /\
   flat_map (fun d => listed (axial_wrap 0 3 3 (nx d))) (ag_dirs hexr_axes)
     = [(1, 2); (2, 1); (2, 0); (1, 0); (0, 1); (3, 2)]).
Proof.
  split; [|split; [reflexivity|]].
  - cbv zeta. split; [intros []; reflexivity|]. split; [constructor; apply fits_small; lia|].
    split; reflexivity.
  - cbv zeta. split; [intros []; reflexivity|].
    split; [unfold near_ok, axial_coord; cbn [fst snd]; lia|].
    split; [constructor; [apply fits_small; lia|exact I]|reflexivity].
Qed.

Example C56_more_run :
  Demo.collect (neighbors_next Debug (demo db Debug) (4, 0)) 7 0%nat = Ok [(2, 0); (3, 1)] /\
  Demo.collect (neighbors_next Debug (demo al Debug) (10, 1)) 7 0%nat
    = Ok [(1, 2); (2, 1); (2, 0); (1, 0); (0, 1); (3, 2)].
Proof. vm_compute. auto. Qed.

(** ** C97 *)

(** Printing a graph that has a cell, with [{:?}] or [{:#?}], reads memory that was never
    written.  (Of a large array only a part is shown; a slot without edge is always in it.) *)
Theorem C97_debug_refuted :
  forall (A D : Type) (s : Shape Cell A D) (G : Geometry A D) (m : mode) (N E : Type),
  Stored s G ->
  forall (g : LatticeGraph Cell A D N E) nf ef T (alternate : bool) (fn : N -> list T)
    (fe : E -> list T) fs c,
  Built m s G g nf ef -> In c (geo_nodes G) -> fmt_graph alternate fn fe fs g = Fail FUB.
Proof. exact (fun A D s G m N E H => @c97 A D N E m s G H). Qed.
Print Assumptions C97_debug_refuted.

(** With zero-sized edge weights it is well defined: weights of some nodes are shown, of all if
    there are fewer than 500 or with [{:#?}], in the order of [node_identifiers].  Missing from
    the property: other edge weights. *)
Theorem C97_zero_sized_partial :
  forall (A D : Type) (s : Shape Cell A D) (G : Geometry A D) (m : mode) (N E : Type),
  Stored s G ->
  forall (g : LatticeGraph Cell A D N E) nf ef T (alternate : bool) (fn : N -> list T)
    (fe : E -> list T) fs x,
  Built m s G g nf ef -> (forall a b : E, a = b) ->
  exists cs, (forall c, In c cs -> In c (geo_nodes G)) /\
    (alternate = true \/ Z.of_nat (length (geo_nodes G)) < 500 -> cs = geo_nodes G) /\
    fmt_graph alternate fn fe fs (zero_sized x g)
      = Ok (flat_map (fun c => fn (nf c)) cs ++
            flat_map (fun a => flat_map (fun c => fe x) cs) (ag_axes (geo_ax G)) ++ fs).
Proof. exact (fun A D s G m N E H => @c97_zero_sized A D N E m s G H). Qed.
Print Assumptions C97_zero_sized_partial.

Example C97_case :
  Stored sq sqG /\ Built Debug sq sqG (demo sq Debug) demo_node (demo_edge sq) /\
  In (2, 1) (geo_nodes sqG) /\
  let z := fun k : Z => [k] in
  fmt_graph false z z [] (demo sq Debug) = Fail FUB /\
  fmt_graph false z (fun _ => [-1]) [7] (zero_sized tt (bare sq 0))
    = Ok [0; 1; 10; 11; 20; 21; -1; -1; -1; -1; -1; -1; -1; -1; -1; -1; -1; -1; 7] /\
  shown 11 20 = [0; 1; 2; 3; 4; 15; 16; 17; 18; 19].
Proof.
  split; [apply st_supported, sq_ok|]. split; [apply demo_stored, st_supported, sq_ok|].
  split; [vm_compute; tauto|]. vm_compute. auto.
Qed.
