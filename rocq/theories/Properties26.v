(** * Properties26: strongly connected components by [tarjan_scc] (C112, C113). *)

From Coq Require Import Permutation.
From Verif Require Import Machine Store Axes Shapes Lattice SquareGraph Traverse Clients Scc Tarjan
  Spec SpecSquare Spec4 Spec11 Spec18 Demo SquareDemo TarjanMain.

(** ** C112 *)

(** If a node lists one that is not on the board, [to_index] panics.  If none does, the lists
    share out the nodes, two nodes are in one list just if they lead to each other, and no node
    leads to one of a later list. *)
Theorem C112_components :
  forall (A D N E : Type) (m : mode) (s : Shape Cell A D) (G : Geometry A D), Stored s G ->
  forall (g : LatticeGraph Cell A D N E) nf ef, Built m s G g nf ef ->
  let leads a b := exists n, Reached (neighbors g) (neighbors_next m g) (geo_nodes G) a n b in
  let astray := exists c l x, In c (geo_nodes G) /\
    Drains (neighbors_next m g c) (neighbors g c) l /\ In x l /\ ~ In x (geo_nodes G) in
  (astray -> lattice_tarjan m g = Fail FPanic) /\
  (~ astray -> exists ls, lattice_tarjan m g = Ok ls /\
     Permutation (concat ls) (geo_nodes G) /\
     (forall l, In l ls -> l <> [] /\
        forall a, In a l -> forall b, In b l <-> leads a b /\ leads b a) /\
     (forall l1 l l2 a b, ls = l1 ++ l :: l2 -> In a l -> leads a b -> In b (concat (l1 ++ [l])))).
Proof. exact (@c112). Qed.
Print Assumptions C112_components.

(** Which of the two it is depends on the shape alone. *)
Theorem C112_where :
  forall (A D N E : Type) (m : mode) (s : Shape Cell A D) (G : Geometry A D), Stored s G ->
  forall (g : LatticeGraph Cell A D N E) nf ef, Built m s G g nf ef ->
  (Sealed s G /\ exists ls, lattice_tarjan m g = Ok ls) \/
  (Drafty s G /\ lattice_tarjan m g = Fail FPanic).
Proof. exact (@c112_where). Qed.
Print Assumptions C112_where.

(** Where the moves are right there is one list, or none on an empty board. *)
Theorem C112_connected :
  forall (A D N E : Type) (m : mode) (s : Shape Cell A D) (G : Geometry A D), Supported s G ->
  forall (g : LatticeGraph Cell A D N E) nf ef, Built m s G g nf ef ->
  exists l, lattice_tarjan m g = Ok (match geo_nodes G with [] => [] | _ => [l] end) /\
    Permutation l (geo_nodes G).
Proof. exact (@c112_one). Qed.
Print Assumptions C112_connected.

(** On the board of doubled coordinates, where [kosaraju_scc] gives one list (C100), there are
    seven; three columns whose top row is lifted make it panic. *)
Example C112_case :
  (Stored db dbG /\ Built Debug db dbG (demo db Debug) demo_node (demo_edge db) /\
   Sealed db dbG /\
   lattice_tarjan Debug (demo db Debug)
   = Ok [[(2, 0); (3, 1); (0, 2); (2, 2); (1, 1); (0, 0)]; [(4, 0)]; [(4, 2)]; [(5, 1)]; [(6, 0)];
         [(6, 2)]; [(7, 1)]]) /\
  (Supported hd hdG /\ Built Debug hd hdG (demo hd Debug) demo_node (demo_edge hd) /\
   lattice_tarjan Debug (demo hd Debug)
   = Ok [[(1, 0); (2, 0); (1, 1); (1, 2); (-1, 1); (-1, 2); (0, 2); (0, 1); (0, 0)]]) /\
  (let s := hex_offset_q EvenQ 3 2 in
   let G := rect_code_geometry hexq_axes s 3 2 in
   Stored s G /\ Drafty s G /\ Built Debug s G (demo s Debug) demo_node (demo_edge s) /\
   lattice_tarjan Debug (demo s Debug) = Fail FPanic).
Proof.
  split; [|split].
  - split; [exact db_ok|]. split; [apply demo_stored, db_ok|].
    split; [apply sl_double; repeat split; vm_compute; congruence|]. vm_compute. reflexivity.
  - split; [exact hd_ok|]. split; [apply demo_built, hd_ok|]. vm_compute. reflexivity.
  - cbv zeta.
    assert (F : fits 3 2) by (repeat split; vm_compute; congruence).
    assert (STO : Stored (hex_offset_q EvenQ 3 2)
      (rect_code_geometry hexq_axes (hex_offset_q EvenQ 3 2) 3 2)) by (apply st_offset_q, F).
    split; [exact STO|]. split; [apply dr_offset_q; [exact F| | |]; vm_compute; congruence|].
    split; [apply demo_stored, STO|]. vm_compute. reflexivity.
Qed.

(** ** C113 *)

(** On a [SquareGraph] with rows there is one list. *)
Theorem C113_square :
  forall (N E : Type) (ix : IxType) (S : LoopShape) (m : mode) (h v : Z),
  sq_size S h v -> sq_index_fits ix h v ->
  forall (g : SquareGraph N E ix S) nf ef, SqBuilt m h v g nf ef -> 1 <= v ->
  exists l, square_tarjan m g = Ok (match sq_nodes h v with [] => [] | _ => [l] end) /\
    Permutation l (sq_nodes h v).
Proof. exact (@c113). Qed.
Print Assumptions C113_square.

(** Without rows it has no nodes, but [node_identifiers] yields some (C43). *)
Theorem C113_no_rows :
  forall (N E : Type) (ix : IxType) (S : LoopShape) (m : mode) (h v : Z),
  sq_size S h v -> sq_index_fits ix h v ->
  forall (g : SquareGraph N E ix S) nf ef, SqBuilt m h v g nf ef -> v = 0 -> 2 <= h ->
  square_tarjan m g = Fail FPanic.
Proof. exact (@c113_no_rows). Qed.
Print Assumptions C113_no_rows.

Example C113_case :
  (sq_size HorizontalLoop 3 2 /\ SqBuilt Debug 3 2 hl sq_node sq_edge /\
   square_tarjan Debug hl = Ok [[(2, 1); (0, 1); (1, 1); (1, 0); (2, 0); (0, 0)]]) /\
  (let g := sqd IxU32 VerticalLoop Debug 3 0 in
   SqBuilt Debug 3 0 g sq_node sq_edge /\ square_tarjan Debug g = Fail FPanic).
Proof.
  split.
  - split; [exact hl_size|]. split; [exact hl_built|]. vm_compute. reflexivity.
  - cbv zeta. split; [apply sqd_built; sq_size|]. vm_compute. reflexivity.
Qed.
