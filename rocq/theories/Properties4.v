(** * Properties4: destructors, clones and comparisons; hex2d (C34, C35, C37, C38).

    [Stored s G]: any shape of the crate on a board of allocatable size; [Built m s G g nf ef]:
    [g] was built by construction and any writes, [nf] and [ef] being its weights (Spec.v).
    [edge_drops], [node_drops], [clockwise], [signed_type] and [Narrow] are
    in Spec3.v. *)

From Verif Require Import Machine Store Axes Shapes Lattice Spec Spec3 Main1 DropProofs
  Hex2dProofs Demo.

(** ** C34 *)

(** Everything that is dropped, in order, where [nn] and [ne] say whether nodes and edges
    have destructors.  A graph whose edges have none drops every node exactly once and nothing
    else: of the property, this part is true. *)
Theorem C34_events :
  forall (A D : Type) (s : Shape Cell A D) (G : Geometry A D) (m : mode) (N E : Type),
  Stored s G ->
  forall (g : LatticeGraph Cell A D N E) nf ef nn ne, Built m s G g nf ef ->
  drop_graph m nn ne g =
    Ok ((if ne then edge_drops G else []) ++ (if nn then node_drops G else [])).
Proof. exact (fun A D s G m N E H => @c34 A D N E m s G H). Qed.
Print Assumptions C34_events.

(** The property fails for every edge with a destructor: an edge that exists is dropped twice
    in a row, and the slot of one that does not is dropped although it was never written. *)
Theorem C34_refuted :
  forall (A D : Type) (s : Shape Cell A D) (G : Geometry A D) (m : mode) (N E : Type),
  Stored s G ->
  forall (g : LatticeGraph Cell A D N E) nf ef nn c a i, Built m s G g nf ef ->
  In c (geo_nodes G) -> to_index m g c = Ok i ->
  exists l1 l2,
  (edge_exists G c a ->
     drop_graph m nn true g =
       Ok (l1 ++ [DropEdge (ax_to_index (sh_axis s) a) (Z.to_nat i) true;
                  DropEdge (ax_to_index (sh_axis s) a) (Z.to_nat i) true] ++ l2)) /\
  (~ edge_exists G c a ->
     drop_graph m nn true g =
       Ok (l1 ++ [DropEdge (ax_to_index (sh_axis s) a) (Z.to_nat i) false] ++ l2)).
Proof. exact (fun A D s G m N E H => @c34_edge A D N E m s G H). Qed.
Print Assumptions C34_refuted.

Example C34_case :
  Stored sq sqG /\ Built Debug sq sqG (demo sq Debug) demo_node (demo_edge sq) /\
  In (1, 1) (geo_nodes sqG) /\ to_index Debug (demo sq Debug) (1, 1) = Ok 3 /\
  edge_exists sqG (1, 1) SX /\ ~ edge_exists sqG (1, 1) SY /\
  drop_graph Debug false true (demo sq Debug) =
    Ok [DropEdge 0 0 true; DropEdge 0 0 true; DropEdge 0 1 true; DropEdge 0 1 true;
        DropEdge 0 2 true; DropEdge 0 2 true; DropEdge 0 3 true; DropEdge 0 3 true;
        DropEdge 0 4 false; DropEdge 0 5 false;
        DropEdge 1 0 true; DropEdge 1 0 true; DropEdge 1 1 false;
        DropEdge 1 2 true; DropEdge 1 2 true; DropEdge 1 3 false;
        DropEdge 1 4 true; DropEdge 1 4 true; DropEdge 1 5 false].
Proof.
  split; [apply st_supported; exact sq_ok|]. split; [apply demo_built; exact sq_ok|].
  split; [vm_compute; tauto|]. split; [vm_compute; reflexivity|].
  split; [split; [vm_compute; tauto|vm_compute; discriminate]|].
  split; [intros [_ H]; apply H; reflexivity|].
  vm_compute. reflexivity.
Qed.

(** On every board that has a cell some slot was never written, so this happens. *)
Theorem C34_unwritten_refuted :
  forall (A D : Type) (s : Shape Cell A D) (G : Geometry A D) (m : mode) (N E : Type),
  Stored s G ->
  forall (g : LatticeGraph Cell A D N E) nf ef nn c, Built m s G g nf ef -> In c (geo_nodes G) ->
  exists j k l1 l2, drop_graph m nn true g = Ok (l1 ++ [DropEdge j k false] ++ l2).
Proof. exact (fun A D s G m N E H => @c34_gap A D N E m s G H). Qed.
Print Assumptions C34_unwritten_refuted.

(** ** C35 *)

(** [cn] says whether nodes are [Copy].  Edges are, so that cloning their arrays copies memory
    without reading it.  Missing from the property: edges that are not [Copy]. *)
Theorem C35_clone_partial :
  forall (A D : Type) (s : Shape Cell A D) (G : Geometry A D) (m : mode) (N E : Type),
  Stored s G ->
  forall (g : LatticeGraph Cell A D N E) nf ef cn, Built m s G g nf ef ->
  clone_graph cn true g = Ok g.
Proof. exact (fun A D s G m N E H => @c35_clone A D N E m s G H). Qed.
Print Assumptions C35_clone_partial.

(** Then cloning any board that has a cell reads memory that was never written. *)
Theorem C35_clone_refuted :
  forall (A D : Type) (s : Shape Cell A D) (G : Geometry A D) (m : mode) (N E : Type),
  Stored s G ->
  forall (g : LatticeGraph Cell A D N E) nf ef cn c, Built m s G g nf ef ->
  In c (geo_nodes G) -> clone_graph cn false g = Fail FUB.
Proof. exact (fun A D s G m N E H => @c35_clone_ub A D N E m s G H). Qed.
Print Assumptions C35_clone_refuted.

(** So does comparing a graph with itself, under any reflexive comparisons of the weights ([sq]
    is that of the shape). *)
Theorem C35_compare_refuted :
  forall (A D : Type) (s : Shape Cell A D) (G : Geometry A D) (m : mode) (N E : Type),
  Stored s G ->
  forall (g : LatticeGraph Cell A D N E) nf ef neq eeq sq c, Built m s G g nf ef ->
  In c (geo_nodes G) -> (forall x, neq x x = true) -> (forall x, eeq x x = true) ->
  eq_graph neq eeq sq g g = Fail FUB.
Proof. exact (fun A D s G m N E H => @c35_eq A D N E m s G H). Qed.
Print Assumptions C35_compare_refuted.

(** Only boards without cells are safe. *)
Theorem C35_empty :
  forall (A D : Type) (s : Shape Cell A D) (G : Geometry A D) (m : mode) (N E : Type),
  Stored s G ->
  forall (g : LatticeGraph Cell A D N E) nf ef cn ce neq eeq sq, Built m s G g nf ef ->
  geo_nodes G = [] -> (forall x, neq x x = true) -> (forall x, eeq x x = true) ->
  clone_graph cn ce g = Ok g /\ eq_graph neq eeq sq g g = Ok sq.
Proof. exact (fun A D s G m N E H => @c35_empty A D N E m s G H). Qed.
Print Assumptions C35_empty.

Example C35_case :
  Stored sq sqG /\ Built Debug sq sqG (demo sq Debug) demo_node (demo_edge sq) /\
  In (2, 1) (geo_nodes sqG) /\
  clone_graph true false (demo sq Debug) = Fail FUB /\
  (exists g, clone_graph false true (demo sq Debug) = Ok g /\
     g_edges g = g_edges (demo sq Debug)) /\
  eq_graph Z.eqb Z.eqb true (demo sq Debug) (demo sq Debug) = Fail FUB.
Proof.
  split; [apply st_supported; exact sq_ok|]. split; [apply demo_built; exact sq_ok|].
  split; [vm_compute; tauto|]. split; [vm_compute; reflexivity|].
  split; [eexists; split; [reflexivity|vm_compute; reflexivity]|]. vm_compute. reflexivity.
Qed.

Example C35_empty_case :
  Stored (square_shape 0 5) (square_geometry square_axes 0 5) /\
  geo_nodes (square_geometry square_axes 0 5) = [].
Proof. split; [apply st_supported, sup_square; apply fits_small; lia|reflexivity]. Qed.

(** ** C37 *)

Theorem C37_inverse :
  forall m,
  (forall d, exists d', dr_of_hex2d m d = Ok d' /\ hex2d_of_dr m d' = Ok d) /\
  (forall d, exists d', hex2d_of_dr m d = Ok d' /\ dr_of_hex2d m d' = Ok d) /\
  (forall d, exists d', dq_of_hex2d m d = Ok d' /\ hex2d_of_dq d' = d) /\
  (forall d, dq_of_hex2d m (hex2d_of_dq d) = Ok d).
Proof. exact c37_inverse. Qed.
Print Assumptions C37_inverse.

(** [AxisDQ]: the converted direction leads to the cell that hex2d's own addition gives. *)
Theorem C37_move_dq :
  forall (m : mode) (b : HexQ) (w h lo hi : Z) (c : Cell) (d : Hex2dDirection),
  - 2 ^ 63 <= lo -> hi < 2 ^ 63 ->
  axial_coord (Hex2d lo hi) c -> axial_coord (Hex2d lo hi) (vadd c (hex2d_vec d)) ->
  exists d', dq_of_hex2d m d = Ok d' /\
    sh_move_coord_unchecked (hex_axial_q (Hex2d lo hi) b w h) m c d' = Ok (vadd c (hex2d_vec d)).
Proof. exact c37_dq. Qed.
Print Assumptions C37_move_dq.

(** [AxisDR]: for every direction and cell it leads to the cell that the next direction
    clockwise gives, which is another one. *)
Theorem C37_move_dr_refuted :
  forall (m : mode) (b : HexR) (w h lo hi : Z) (c : Cell) (d : Hex2dDirection),
  - 2 ^ 63 <= lo -> hi < 2 ^ 63 ->
  axial_coord (Hex2d lo hi) c -> axial_coord (Hex2d lo hi) (vadd c (hex2d_vec (clockwise d))) ->
  exists d', dr_of_hex2d m d = Ok d' /\
    sh_move_coord_unchecked (hex_axial_r (Hex2d lo hi) b w h) m c d'
      = Ok (vadd c (hex2d_vec (clockwise d))) /\
    vadd c (hex2d_vec (clockwise d)) <> vadd c (hex2d_vec d).
Proof. exact c37_dr. Qed.
Print Assumptions C37_move_dr_refuted.

Example C37_case :
  axial_coord (Hex2d (-128) 127) (126, -128) /\
  axial_coord (Hex2d (-128) 127) (vadd (126, -128) (hex2d_vec HXZ)) /\
  axial_coord (Hex2d (-128) 127) (vadd (126, -128) (hex2d_vec (clockwise HYZ))).
Proof. vm_compute. repeat split; discriminate. Qed.

(** ** C38 *)

(** Boards that fit together with the cells one step around them. *)
Theorem C38_fits :
  forall (lo hi w h : Z) (A D : Type) (s s' : Shape Cell A D) (N E : Type) (m : mode),
  Narrow lo hi w h s s' -> signed_type lo hi -> fits w h -> w <= hi -> h <= hi ->
  (forall x y, 0 <= x < w -> 0 <= y < h -> exists c,
     sh_offset_to_coordinate s m (x, y) = Ok c /\ sh_offset_to_coordinate s' m (x, y) = Ok c /\
     sh_to_offset s m c = Ok (Some (x, y)) /\ sh_to_offset s' m c = Ok (Some (x, y)) /\
     forall d, exists t, sh_move_coord s m c d = Ok t /\ sh_move_coord s' m c d = Ok t) /\
  (forall (nf : Cell -> N) (ef : Cell -> A -> E), exists g g',
     new_with s (fun st c => (nf c, st)) (fun st c a => (ef c a, st)) m tt = Ok (g, tt) /\
     new_with s' (fun st c => (nf c, st)) (fun st c a => (ef c a, st)) m tt = Ok (g', tt) /\
     g_nodes g = g_nodes g' /\ g_edges g = g_edges g').
Proof. exact c38_fits. Qed.
Print Assumptions C38_fits.

(** All other boards: construction panics only in debug builds, and is undefined behaviour in
    release builds.  This includes boards with w = hi + 1 or h = hi + 1 all of whose cells have
    a coordinate. *)
Theorem C38_too_large_refuted :
  forall (lo hi w h : Z) (A D : Type) (s s' : Shape Cell A D) (N E St : Type) (m : mode)
    (n : St -> Cell -> N * St) (e : St -> Cell -> A -> E * St) (st : St),
  Narrow lo hi w h s s' -> signed_type lo hi -> fits w h -> 1 <= w -> 1 <= h ->
  hi < w \/ hi < h ->
  new_with s n e m st = Fail (match m with Debug => FPanic | Release => FUB end).
Proof. exact c38_refused. Qed.
Print Assumptions C38_too_large_refuted.

Example C38_case :
  Narrow (-128) 127 127 3 (hex_axial_r (Hex2d (-128) 127) OddR 127 3)
    (hex_axial_r HAxial OddR 127 3) /\
  Narrow (-128) 127 128 3 (hex_axial_r_dir_lew (Hex2d (-128) 127) EvenR 128 3)
    (hex_axial_r_dir_lew HAxial EvenR 128 3) /\
  signed_type (-128) 127 /\ fits 127 3 /\ fits 128 3 /\
  sh_offset_to_coordinate (hex_axial_r_dir_lew (Hex2d (-128) 127) EvenR 128 3) Release (127, 0)
    = Ok (127, 0).
Proof.
  split; [apply nw_r|]. split; [apply nw_r_dir_lew|].
  split; [exists 7; vm_compute; repeat split; discriminate|].
  split; [apply fits_small; lia|]. split; [apply fits_small; lia|]. vm_compute. reflexivity.
Qed.
