(** * Properties24: [toposort] (C108, C109). *)

From Coq Require Import Permutation.
From Verif Require Import Machine Store Axes Shapes Lattice SquareGraph Traverse DfsEvents Topo Spec
  SpecSquare Spec4 Spec11 Spec16 Demo SquareDemo TopoMain.

(** ** C108 *)

(** [toposort] gives the nodes if no edge leads from a node to a node, and otherwise an error
    with a node that an edge leads to. *)
Theorem C108_toposort :
  forall (A D N E : Type) (m : mode) (s : Shape Cell A D) (G : Geometry A D), Stored s G ->
  forall (g : LatticeGraph Cell A D N E) nf ef, Built m s G g nf ef ->
  exists r, lattice_toposort m g = Ok r /\
    match r with
    | inl l => Permutation l (geo_nodes G) /\
        forall c d, In c (geo_nodes G) -> In d (spec_neighbors G c) -> ~ In d (geo_nodes G)
    | inr j => In j (geo_nodes G) /\
        exists c, In c (geo_nodes G) /\ In j (spec_neighbors G c)
    end.
Proof. exact (@c108). Qed.
Print Assumptions C108_toposort.

(** Where the moves are right that node is on a cycle. *)
Theorem C108_cycle :
  forall (A D N E : Type) (m : mode) (s : Shape Cell A D) (G : Geometry A D), Supported s G ->
  forall (g : LatticeGraph Cell A D N E) nf ef, Built m s G g nf ef ->
  exists r, lattice_toposort m g = Ok r /\
    match r with
    | inl l => Permutation l (geo_nodes G) /\ forall c, In c (geo_nodes G) -> spec_neighbors G c = []
    | inr j => In j (geo_nodes G) /\
        Leads (spec_neighbors G) (geo_nodes G) (spec_neighbors G j) j
    end.
Proof. exact c108_cycle. Qed.
Print Assumptions C108_cycle.

(** But as [neighbors_directed] ignores its direction, it also tells of a cycle where there is
    none: on a board of doubled coordinates on which the one edge leads from (2, 0) to (0, 0). *)
Theorem C108_cycle_refuted :
  exists (g : LatticeGraph Cell AxisR AxisDR Z Z) nf ef j,
    Stored (double_shape 2 1) (double_code_geometry 2 1) /\
    Built Debug (double_shape 2 1) (double_code_geometry 2 1) g nf ef /\
    geo_nodes (double_code_geometry 2 1) = [(0, 0); (2, 0)] /\
    spec_neighbors (double_code_geometry 2 1) (0, 0) = [] /\
    spec_neighbors (double_code_geometry 2 1) (2, 0) = [(0, 0)] /\
    lattice_is_cyclic_directed Debug g = Ok false /\
    lattice_toposort Debug g = Ok (inr j).
Proof.
  exists (demo (double_shape 2 1) Debug), demo_node, (demo_edge (double_shape 2 1)), (0, 0).
  split; [apply st_double, fits_small; lia|]. split; [apply demo_stored, st_double, fits_small; lia|].
  vm_compute. repeat split; reflexivity.
Qed.
Print Assumptions C108_cycle_refuted.

(** A board of squares; a single node; and one of the list [Leaky], on which edges
    also lead off the board. *)
Example C108_case :
  (let s := square_shape 2 2 in let g := demo s Debug in
   Supported s (square_geometry square_axes 2 2) /\
   Built Debug s (square_geometry square_axes 2 2) g demo_node (demo_edge s) /\
   lattice_toposort Debug g = Ok (inr (0, 1))) /\
  (let s := square_shape 1 1 in let g := demo s Debug in
   Supported s (square_geometry square_axes 1 1) /\
   Built Debug s (square_geometry square_axes 1 1) g demo_node (demo_edge s) /\
   lattice_toposort Debug g = Ok (inl [(0, 0)])) /\
  (let s := hex_offset_q_dir OddQ 2 1 in let g := demo s Debug in
   let G := rect_code_geometry (directed_axes hexq_axes) s 2 1 in
   Leaky s G /\ Built Debug s G g demo_node (demo_edge s) /\
   lattice_toposort Debug g = Ok (inr (1, 0))).
Proof.
  split; [|split]; cbv zeta.
  - split; [apply sup_square, fits_small; lia|]. split; [apply demo_built, sup_square, fits_small; lia|].
    vm_compute. reflexivity.
  - split; [apply sup_square, fits_small; lia|]. split; [apply demo_built, sup_square, fits_small; lia|].
    vm_compute. reflexivity.
  - split; [apply lk_offset_q_dir; [apply fits_small; lia|lia|lia|vm_compute; discriminate]|].
    split; [apply demo_stored, st_offset_q_dir, fits_small; lia|]. vm_compute. reflexivity.
Qed.

(** ** C109 *)

Theorem C109_toposort :
  forall (N E : Type) (ix : IxType) (S : LoopShape) (m : mode) (h v : Z),
  sq_size S h v -> sq_index_fits ix h v ->
  forall (g : SquareGraph N E ix S) nf ef, SqBuilt m h v g nf ef -> 1 <= v ->
  exists r, square_toposort m g = Ok r /\
    match r with
    | inl l => Permutation l (sq_nodes h v) /\
        forall c, In c (sq_nodes h v) -> sq_neighbours S h v c = []
    | inr j => In j (sq_nodes h v) /\
        Leads (sq_neighbours S h v) (sq_nodes h v) (sq_neighbours S h v j) j
    end.
Proof. exact (@c109). Qed.
Print Assumptions C109_toposort.

(** Without rows there are no nodes, but [node_identifiers] yields some (C43). *)
Theorem C109_no_rows :
  forall (N E : Type) (ix : IxType) (S : LoopShape) (m : mode) (h v : Z),
  sq_size S h v -> sq_index_fits ix h v ->
  forall (g : SquareGraph N E ix S) nf ef, SqBuilt m h v g nf ef -> v = 0 -> 2 <= h ->
  square_toposort m g = Fail FPanic.
Proof. exact (@c109_no_rows). Qed.
Print Assumptions C109_no_rows.

Example C109_case :
  (SqBuilt Debug 3 2 hl sq_node sq_edge /\ square_toposort Debug hl = Ok (inr (0, 1))) /\
  (let g := sqd IxU32 DefaultShape Debug 1 1 in
   SqBuilt Debug 1 1 g sq_node sq_edge /\ square_toposort Debug g = Ok (inl [(0, 0)])) /\
  (* a ring of one node, whose neighbour is itself *)
  (let g := sqd IxU32 HorizontalLoop Debug 1 2 in
   SqBuilt Debug 1 2 g sq_node sq_edge /\ square_toposort Debug g = Ok (inr (0, 0))) /\
  (let g := sqd IxU32 VerticalLoop Debug 3 0 in
   SqBuilt Debug 3 0 g sq_node sq_edge /\ square_toposort Debug g = Fail FPanic).
Proof.
  split; [|split; [|split]]; cbv zeta.
  - split; [apply hl_built|vm_compute; reflexivity].
  - split; [apply sqd_built; sq_size|vm_compute; reflexivity].
  - split; [apply sqd_built; sq_size|vm_compute; reflexivity].
  - split; [apply sqd_built; sq_size|vm_compute; reflexivity].
Qed.
