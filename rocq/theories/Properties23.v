(** * Properties23: the events of [depth_first_search] and [is_cyclic_directed] (C106, C107). *)

From Coq Require Import Permutation.
From Verif Require Import Machine Store Axes Shapes Lattice SquareGraph Traverse DfsEvents Spec
  SpecSquare Spec4 Spec11 Spec16 Demo SquareDemo DfsMain.

(** ** C106 *)

(** There are events that every visitor is told, up to that on which it breaks off; they are
    those of a depth first search from the starting nodes. *)
Theorem C106_events :
  forall (A D N E : Type) (m : mode) (s : Shape Cell A D) (G : Geometry A D), Stored s G ->
  forall (g : LatticeGraph Cell A D N E) nf ef, Built m s G g nf ef ->
  forall (Ids : Type) (it : Ids) next starts, Drains next it starts ->
  Z.of_nat (length starts) + 1 < 2 ^ 72 -> incl starts (geo_nodes G) ->
  exists tr, DepthFirst (spec_neighbors G) (geo_nodes G) starts tr /\
    forall (V B : Type) (visitor : V -> DfsEvent Cell -> V + B) w,
      lattice_dfs m g it next visitor w = Ok (told visitor w tr).
Proof. exact (@c106). Qed.
Print Assumptions C106_events.

(** Started from [node_identifiers] it discovers every node. *)
Theorem C106_all_nodes :
  forall (A D N E : Type) (m : mode) (s : Shape Cell A D) (G : Geometry A D), Stored s G ->
  forall (g : LatticeGraph Cell A D N E) nf ef, Built m s G g nf ef ->
  exists tr, DepthFirst (spec_neighbors G) (geo_nodes G) (geo_nodes G) tr /\
    Permutation (discovered tr) (geo_nodes G) /\
    forall (V B : Type) (visitor : V -> DfsEvent Cell -> V + B) w,
      lattice_dfs m g (node_identifiers g) (node_indices_next m (g_s g)) visitor w
      = Ok (told visitor w tr).
Proof. exact (@c106_all). Qed.
Print Assumptions C106_all_nodes.

(** [is_cyclic_directed] tells whether some node leads back to itself ... *)
Theorem C106_cyclic :
  forall (A D N E : Type) (m : mode) (s : Shape Cell A D) (G : Geometry A D), Stored s G ->
  forall (g : LatticeGraph Cell A D N E) nf ef, Built m s G g nf ef ->
  exists b, lattice_is_cyclic_directed m g = Ok b /\
    (b = true <-> exists c, In c (geo_nodes G) /\
       Leads (spec_neighbors G) (geo_nodes G) (spec_neighbors G c) c).
Proof. exact (@c106_cyclic). Qed.
Print Assumptions C106_cyclic.

(** ... which, where the moves are right, is so as soon as there is an edge. *)
Theorem C106_edge :
  forall (A D N E : Type) (m : mode) (s : Shape Cell A D) (G : Geometry A D), Supported s G ->
  forall (g : LatticeGraph Cell A D N E) nf ef, Built m s G g nf ef ->
  exists b, lattice_is_cyclic_directed m g = Ok b /\
    (b = true <-> exists c, In c (geo_nodes G) /\ spec_neighbors G c <> []).
Proof. exact (@c106_edge). Qed.
Print Assumptions C106_edge.

(** But where an edge leads off the board a visitor is told of a tree edge to something that is
    never discovered. *)
Theorem C106_leaky :
  forall (A D N E : Type) (m : mode) (s : Shape Cell A D) (G : Geometry A D), Leaky s G ->
  forall (g : LatticeGraph Cell A D N E) nf ef, Built m s G g nf ef ->
  exists tr, (forall (V B : Type) (visitor : V -> DfsEvent Cell -> V + B) w,
      lattice_dfs m g (node_identifiers g) (node_indices_next m (g_s g)) visitor w
      = Ok (told visitor w tr)) /\
    exists pre a b post, tr = pre ++ TreeEdge a b :: post /\ ~ In b (geo_nodes G) /\
      ~ In b (discovered tr).
Proof. exact (@c106_leaky). Qed.
Print Assumptions C106_leaky.

(** The visitor that writes down the events. *)
Definition scribe {C} (w : list (DfsEvent C)) (e : DfsEvent C) : list (DfsEvent C) + unit :=
  inl (w ++ [e]).

(** A board of squares; one of doubled coordinates, on which an edge leads only one way; and one
    of the list [Leaky], on which an edge leads from (0, 0) off the board. *)
Example C106_case :
  (let s := square_shape 2 2 in let g := demo s Debug in
   Supported s (square_geometry square_axes 2 2) /\
   Built Debug s (square_geometry square_axes 2 2) g demo_node (demo_edge s) /\
   lattice_dfs Debug g (node_identifiers g) (node_indices_next Debug (g_s g)) scribe []
   = Ok (inl [Discover (0, 0) 0; TreeEdge (0, 0) (1, 0); Discover (1, 0) 1;
              TreeEdge (1, 0) (1, 1); Discover (1, 1) 2; TreeEdge (1, 1) (0, 1);
              Discover (0, 1) 3; BackEdge (0, 1) (1, 1); BackEdge (0, 1) (0, 0);
              Finish (0, 1) 4; BackEdge (1, 1) (1, 0); Finish (1, 1) 5; BackEdge (1, 0) (0, 0);
              Finish (1, 0) 6; CrossForwardEdge (0, 0) (0, 1); Finish (0, 0) 7]) /\
   lattice_is_cyclic_directed Debug g = Ok true) /\
  (let s := double_shape 2 1 in let g := demo s Debug in
   Stored s (double_code_geometry 2 1) /\
   Built Debug s (double_code_geometry 2 1) g demo_node (demo_edge s) /\
   lattice_dfs Debug g (node_identifiers g) (node_indices_next Debug (g_s g)) scribe []
   = Ok (inl [Discover (0, 0) 0; Finish (0, 0) 1; Discover (2, 0) 2;
              CrossForwardEdge (2, 0) (0, 0); Finish (2, 0) 3]) /\
   lattice_is_cyclic_directed Debug g = Ok false) /\
  (let s := hex_offset_q_dir OddQ 2 1 in let g := demo s Debug in
   let G := rect_code_geometry (directed_axes hexq_axes) s 2 1 in
   Leaky s G /\ Built Debug s G g demo_node (demo_edge s) /\
   lattice_dfs Debug g (node_identifiers g) (node_indices_next Debug (g_s g)) scribe []
   = Ok (inl [Discover (0, 0) 0; TreeEdge (0, 0) (1, 1); TreeEdge (0, 0) (1, 0);
              Discover (1, 0) 1; BackEdge (1, 0) (0, 0); Finish (1, 0) 2; Finish (0, 0) 3])).
Proof.
  split; [|split]; cbv zeta.
  - split; [apply sup_square, fits_small; lia|]. split; [apply demo_built, sup_square, fits_small; lia|].
    split; vm_compute; reflexivity.
  - split; [apply st_double, fits_small; lia|]. split; [apply demo_stored, st_double, fits_small; lia|].
    split; vm_compute; reflexivity.
  - split; [apply lk_offset_q_dir; [apply fits_small; lia|lia|lia|vm_compute; discriminate]|].
    split; [apply demo_stored, st_offset_q_dir, fits_small; lia|]. vm_compute. reflexivity.
Qed.

(** ** C107 *)

Theorem C107_events :
  forall (N E : Type) (ix : IxType) (S : LoopShape) (m : mode) (h v : Z),
  sq_size S h v -> sq_index_fits ix h v ->
  forall (g : SquareGraph N E ix S) nf ef, SqBuilt m h v g nf ef ->
  forall (Ids : Type) (it : Ids) next starts, Drains next it starts ->
  Z.of_nat (length starts) + 1 < 2 ^ 72 -> incl starts (sq_nodes h v) ->
  exists tr, DepthFirst (sq_neighbours S h v) (sq_nodes h v) starts tr /\
    forall (V B : Type) (visitor : V -> DfsEvent NodeIndex -> V + B) w,
      square_dfs m g it next visitor w = Ok (told visitor w tr).
Proof. exact (@c107). Qed.
Print Assumptions C107_events.

Theorem C107_all_nodes :
  forall (N E : Type) (ix : IxType) (S : LoopShape) (m : mode) (h v : Z),
  sq_size S h v -> sq_index_fits ix h v ->
  forall (g : SquareGraph N E ix S) nf ef, SqBuilt m h v g nf ef -> 1 <= v ->
  exists tr, DepthFirst (sq_neighbours S h v) (sq_nodes h v) (sq_nodes h v) tr /\
    Permutation (discovered tr) (sq_nodes h v) /\
    forall (V B : Type) (visitor : V -> DfsEvent NodeIndex -> V + B) w,
      square_dfs m g (sg_node_identifiers g) (sg_node_indices_next (ix := ix) m) visitor w
      = Ok (told visitor w tr).
Proof. exact (@c107_all). Qed.
Print Assumptions C107_all_nodes.

Theorem C107_edge :
  forall (N E : Type) (ix : IxType) (S : LoopShape) (m : mode) (h v : Z),
  sq_size S h v -> sq_index_fits ix h v ->
  forall (g : SquareGraph N E ix S) nf ef, SqBuilt m h v g nf ef -> 1 <= v ->
  exists b, square_is_cyclic_directed m g = Ok b /\
    (b = true <-> exists c, In c (sq_nodes h v) /\ sq_neighbours S h v c <> []).
Proof. exact (@c107_edge). Qed.
Print Assumptions C107_edge.

(** Without rows there are no nodes, but [node_identifiers] yields some (C43). *)
Theorem C107_no_rows :
  forall (N E : Type) (ix : IxType) (S : LoopShape) (m : mode) (h v : Z),
  sq_size S h v -> sq_index_fits ix h v ->
  forall (g : SquareGraph N E ix S) nf ef, SqBuilt m h v g nf ef -> v = 0 -> 2 <= h ->
  forall (V B : Type) (visitor : V -> DfsEvent NodeIndex -> V + B) w,
  square_dfs m g (sg_node_identifiers g) (sg_node_indices_next (ix := ix) m) visitor w
  = Fail FPanic.
Proof. exact (@c107_no_rows). Qed.
Print Assumptions C107_no_rows.

Example C107_case :
  (SqBuilt Debug 3 2 hl sq_node sq_edge /\ square_is_cyclic_directed Debug hl = Ok true) /\
  (let g := sqd IxU32 DefaultShape Debug 2 2 in
   SqBuilt Debug 2 2 g sq_node sq_edge /\
   square_dfs Debug g (sg_node_identifiers g) (sg_node_indices_next (ix := IxU32) Debug) scribe []
   = Ok (inl [Discover (0, 0) 0; TreeEdge (0, 0) (1, 0); Discover (1, 0) 1;
              BackEdge (1, 0) (0, 0); TreeEdge (1, 0) (1, 1); Discover (1, 1) 2;
              TreeEdge (1, 1) (0, 1); Discover (0, 1) 3; BackEdge (0, 1) (1, 1);
              BackEdge (0, 1) (0, 0); Finish (0, 1) 4; BackEdge (1, 1) (1, 0); Finish (1, 1) 5;
              Finish (1, 0) 6; CrossForwardEdge (0, 0) (0, 1); Finish (0, 0) 7])) /\
  (let g := sqd IxU32 DefaultShape Debug 1 1 in
   SqBuilt Debug 1 1 g sq_node sq_edge /\ square_is_cyclic_directed Debug g = Ok false) /\
  (let g := sqd IxU32 VerticalLoop Debug 3 0 in
   SqBuilt Debug 3 0 g sq_node sq_edge /\ square_is_cyclic_directed Debug g = Fail FPanic).
Proof.
  split; [|split; [|split]]; cbv zeta.
  - split; [apply hl_built|vm_compute; reflexivity].
  - split; [apply sqd_built; sq_size|vm_compute; reflexivity].
  - split; [apply sqd_built; sq_size|vm_compute; reflexivity].
  - split; [apply sqd_built; sq_size|vm_compute; reflexivity].
Qed.
