(** * Properties11: connected components (C82, C83) and minimum spanning trees (C84, C85).

    [Linked], [UFOK] and [HeapOK] (Kruskal.v, Astar.v) say what petgraph's own structures do;
    Spec7.v says what components and spanning forests are. *)

From Verif Require Import Machine Store Axes Shapes Lattice SquareGraph Traverse Astar Spec
  SpecSquare Spec5 Demo SquareDemo AstarDemo GeoProofs AxisProofs Kruskal Spec7 KruskalDemo KruskalMain.

(** ** C82 *)

Theorem C82_components :
  forall (A D N E : Type) (m : mode) (s : Shape Cell A D) (G : Geometry A D), Stored s G ->
  forall (g : LatticeGraph Cell A D N E) nf ef, Built m s G g nf ef ->
  (forall r, In r (spec_edge_references G ef) -> In (er_target r) (geo_nodes G)) ->
  forall T (U : UFOps T), UFOK U ->
  exists reps,
    connected_components U (node_bound m g) (to_index m g) (edge_references g)
      (edge_references_next m g) (fun e => Ok (er_source e)) (fun e => Ok (er_target e))
      = Ok (Z.of_nat (length reps)) /\
    Components (geo_nodes G)
      (map (fun e => (er_source e, er_target e)) (spec_edge_references G ef)) reps.
Proof. exact (@c82_components). Qed.
Print Assumptions C82_components.

Theorem C82_connected :
  forall (A D N : Type) (m : mode) (s : Shape Cell A D) (G : Geometry A D), Supported s G ->
  forall E (g : LatticeGraph Cell A D N E) nf ef, Built m s G g nf ef ->
  forall T (U : UFOps T), UFOK U ->
  connected_components U (node_bound m g) (to_index m g) (edge_references g)
    (edge_references_next m g) (fun e => Ok (er_source e)) (fun e => Ok (er_target e)) =
  Ok (match geo_nodes G with [] => 0 | _ => 1 end).
Proof. exact (@c82_connected). Qed.
Print Assumptions C82_connected.

(** Not so on the shapes that do not implement a lattice: a board of doubled coordinates falls
    apart, and on a board of [OddQ] columns an edge leads off the board and the count panics. *)
Theorem C82_other_shapes :
  let count {A D} (s : Shape Cell A D) (g : LatticeGraph Cell A D Z Z) :=
    connected_components label_uf (node_bound Debug g) (to_index Debug g) (edge_references g)
      (edge_references_next Debug g) (fun e => Ok (er_source e)) (fun e => Ok (er_target e)) in
  UFOK label_uf /\ Stored db dbG /\ Built Debug db dbG (demo db Debug) demo_node (demo_edge db) /\
  count db (demo db Debug) = Ok 7 /\
  Stored oq oqG /\ Built Debug oq oqG (demo oq Debug) demo_node (demo_edge oq) /\
  count oq (demo oq Debug) = Fail FPanic.
Proof.
  split; [exact label_uf_ok|]. split; [exact db_ok|]. split; [apply demo_stored, db_ok|].
  split; [vm_compute; reflexivity|]. split; [exact oq_ok|]. split; [apply demo_stored, oq_ok|].
  vm_compute. reflexivity.
Qed.
Print Assumptions C82_other_shapes.

Example C82_case :
  UFOK label_uf /\ Supported hd hdG /\ Built Debug hd hdG (demo hd Debug) demo_node (demo_edge hd) /\
  (forall r, In r (spec_edge_references dbG (demo_edge db)) -> In (er_target r) (geo_nodes dbG)).
Proof.
  split; [exact label_uf_ok|]. split; [exact hd_ok|]. split; [apply demo_built, hd_ok|].
  assert (P : forallb (fun r => existsb (veqb (er_target r)) (geo_nodes dbG))
    (spec_edge_references dbG (demo_edge db)) = true) by (vm_compute; reflexivity).
  rewrite forallb_forall in P. intros r Hr. apply P in Hr. apply existsb_exists in Hr.
  destruct Hr as (c & Hc & E). apply veqb_eq in E. subst c. exact Hc.
Qed.

(** ** C83 *)

Theorem C83_connected :
  forall (N E : Type) (ix : IxType) (S : LoopShape) (m : mode) (h v : Z),
  sq_size S h v -> sq_index_fits ix h v ->
  forall (g : SquareGraph N E ix S) nf ef, SqBuilt m h v g nf ef ->
  forall T (U : UFOps T), UFOK U ->
  connected_components U (Ok (sg_node_bound g)) (sg_to_index m g) (sg_edge_references g)
    (sg_edge_references_next m g) (sr_source (ix := ix) (S := S) m)
    (sr_target (ix := ix) (S := S) m) = Ok (if v =? 0 then 0 else 1).
Proof. exact (@c83_connected). Qed.
Print Assumptions C83_connected.

Example C83_case :
  UFOK label_uf /\ SqBuilt Debug 3 4 sq_test_board (fun _ => tt) sq_test_edge /\
  connected_components label_uf (Ok (sg_node_bound sq_test_board)) (sg_to_index Debug sq_test_board)
    (sg_edge_references sq_test_board) (sg_edge_references_next Debug sq_test_board)
    (sr_source (ix := IxU32) (S := DefaultShape) Debug)
    (sr_target (ix := IxU32) (S := DefaultShape) Debug) = Ok 1.
Proof.
  split; [exact label_uf_ok|]. split; [exact sq_test_built|]. vm_compute. reflexivity.
Qed.

(** ** C84 *)

(** First all nodes, then the edges of a lightest spanning forest, as places in that list. *)
Theorem C84_forest :
  forall (A D N : Type) (m : mode) (s : Shape Cell A D) (G : Geometry A D), Stored s G ->
  forall (g : LatticeGraph Cell A D N Z) nf ef, Built m s G g nf ef ->
  (m = Release \/
   Z.of_nat (length (geo_nodes G)) * Z.of_nat (ax_UNDIRECTED_COUNT (sh_axis s)) < 2 ^ 64) ->
  (forall r, In r (spec_edge_references G ef) -> In (er_target r) (geo_nodes G)) ->
  forall T (U : UFOps T), UFOK U -> forall H : HeapOps (Cell * Cell), HeapOK H ->
  exists it K R,
    mst_new U H (node_bound m g) (edge_references g) (edge_references_next m g)
      (edge_references_size_hint m g (edge_references g)) (fun e => Ok (er_source e))
      (fun e => Ok (er_target e)) er_weight (node_references g) = Ok it /\
    Drains (mst_next U H (to_index m g) (node_references_next m g)) it
      (map (fun c => ENode (nf c)) (geo_nodes G) ++ R) /\
    Forall2 (Stands_for (geo_nodes G)) R K /\
    MinSpanningForest (geo_nodes G) (map seen (spec_edge_references G ef)) K.
Proof. exact (@c84_forest). Qed.
Print Assumptions C84_forest.

Theorem C84_tree :
  forall (A D N : Type) (m : mode) (s : Shape Cell A D) (G : Geometry A D), Supported s G ->
  (m = Release \/
   Z.of_nat (length (geo_nodes G)) * Z.of_nat (ax_UNDIRECTED_COUNT (sh_axis s)) < 2 ^ 64) ->
  forall (g : LatticeGraph Cell A D N Z) nf ef, Built m s G g nf ef ->
  forall T (U : UFOps T), UFOK U -> forall H : HeapOps (Cell * Cell), HeapOK H ->
  exists it K R,
    mst_new U H (node_bound m g) (edge_references g) (edge_references_next m g)
      (edge_references_size_hint m g (edge_references g)) (fun e => Ok (er_source e))
      (fun e => Ok (er_target e)) er_weight (node_references g) = Ok it /\
    Drains (mst_next U H (to_index m g) (node_references_next m g)) it
      (map (fun c => ENode (nf c)) (geo_nodes G) ++ R) /\
    Forall2 (Stands_for (geo_nodes G)) R K /\
    MinSpanningForest (geo_nodes G) (map seen (spec_edge_references G ef)) K /\
    Connects (geo_nodes G) K /\ length K = pred (length (geo_nodes G)).
Proof. exact (@c84_tree). Qed.
Print Assumptions C84_tree.

(** On larger boards the call itself panics with debug assertions, in the size hint (C39). *)
Theorem C84_overflow :
  forall (A D N : Type) (m : mode) (s : Shape Cell A D) (G : Geometry A D), Stored s G ->
  forall (g : LatticeGraph Cell A D N Z) nf ef, Built m s G g nf ef -> m = Debug ->
  2 ^ 64 <= Z.of_nat (length (geo_nodes G)) * Z.of_nat (ax_UNDIRECTED_COUNT (sh_axis s)) ->
  forall T (U : UFOps T) (H : HeapOps (Cell * Cell)),
  mst_new U H (node_bound m g) (edge_references g) (edge_references_next m g)
    (edge_references_size_hint m g (edge_references g)) (fun e => Ok (er_source e))
    (fun e => Ok (er_target e)) er_weight (node_references g) = Fail FPanic.
Proof. exact c84_hint. Qed.
Print Assumptions C84_overflow.

(** The board of the repository's test. *)
Example C84_case :
  Supported test_shape testG /\ Built Debug test_shape testG test_board test_node test_edge /\
  UFOK label_uf /\ HeapOK (list_heap (C := Cell * Cell)) /\
  (let! it := mst_new label_uf list_heap (node_bound Debug test_board) (edge_references test_board)
     (edge_references_next Debug test_board)
     (edge_references_size_hint Debug test_board (edge_references test_board))
     (fun e => Ok (er_source e)) (fun e => Ok (er_target e)) er_weight (node_references test_board) in
   let! l := collect (mst_next label_uf list_heap (to_index Debug test_board)
     (node_references_next Debug test_board)) 30 it in
   Ok (skipn 12 l)) =
  Ok [EEdge 0 1 0; EEdge 0 3 0; EEdge 3 6 1; EEdge 6 9 2; EEdge 1 4 2; EEdge 4 7 3;
      EEdge 7 10 4; EEdge 2 5 4; EEdge 5 8 5; EEdge 8 11 6; EEdge 1 2 6].
Proof.
  split; [exact test_ok|]. split; [exact test_built|]. split; [exact label_uf_ok|].
  split; [apply list_heap_ok|]. vm_compute. reflexivity.
Qed.

(** ** C85 *)

Theorem C85_tree :
  forall (N : Type) (ix : IxType) (S : LoopShape) (m : mode) (h v : Z),
  sq_size S h v -> sq_index_fits ix h v ->
  forall (g : SquareGraph N Z ix S) nf ef, SqBuilt m h v g nf ef ->
  forall T (U : UFOps T), UFOK U -> forall H : HeapOps (NodeIndex * NodeIndex), HeapOK H ->
  exists it K R,
    mst_new U H (Ok (sg_node_bound g)) (sg_edge_references g) (sg_edge_references_next m g)
      (Ok (0, None)) (sr_source (ix := ix) (S := S) m) (sr_target (ix := ix) (S := S) m) sr_weight
      (sg_node_references g) = Ok it /\
    Drains (mst_next U H (sg_to_index m g) (sg_node_references_next (ix := ix) m)) it
      (map (fun n => ENode (nf n)) (sq_nodes h v) ++ R) /\
    Forall2 (Stands_for (sq_nodes h v)) R K /\
    MinSpanningForest (sq_nodes h v) (map plain_view (sq_all_edges S h v ef)) K /\
    Connects (sq_nodes h v) K /\ length K = pred (length (sq_nodes h v)).
Proof. exact (@c85_tree). Qed.
Print Assumptions C85_tree.

(** Six columns in a ring: the heaviest of its six edges is left out. *)
Example C85_case :
  sq_size HorizontalLoop 6 1 /\ SqBuilt Debug 6 1 (ring Debug) sq_node sq_edge /\
  UFOK label_uf /\ HeapOK (list_heap (C := NodeIndex * NodeIndex)) /\
  (let g := ring Debug in
   let! it := mst_new label_uf list_heap (Ok (sg_node_bound g)) (sg_edge_references g)
     (sg_edge_references_next Debug g) (Ok (0, None)) (sr_source (ix := IxU32) (S := HorizontalLoop) Debug)
     (sr_target (ix := IxU32) (S := HorizontalLoop) Debug) sr_weight (sg_node_references g) in
   let! l := collect (mst_next label_uf list_heap (sg_to_index Debug g)
     (sg_node_references_next (ix := IxU32) Debug)) 30 it in
   Ok (skipn 6 l)) =
  Ok [EEdge 0 1 100; EEdge 1 2 110; EEdge 2 3 120; EEdge 3 4 130; EEdge 4 5 140].
Proof.
  assert (SZ : sq_size HorizontalLoop 6 1) by (unfold sq_size; cbn; lia).
  split; [exact SZ|]. split; [apply sqd_built, SZ|]. split; [exact label_uf_ok|].
  split; [apply list_heap_ok|]. vm_compute. reflexivity.
Qed.
