(** * Properties8: edges and their ends (C75, C76), borrowed shapes (C77).

    [seen], [seen_back]: an edge from its source to its target, and the other way round;
    [view_back]: the same for the references of [SquareGraph]; [lend g]: the graph [g] with its
    shape borrowed; [on_ok f]: [f] applied to the result of a call (Spec5.v). *)

From Verif Require Import Machine Store Axes Shapes Lattice SquareGraph Spec SpecSquare Spec5
  HandshakeProofs LendProofs Demo SquareDemo.
From Coq Require Import Permutation.

(** ** C75 *)

(** Whoever walks over all nodes and collects the [edges] of each gets the [edge_references] of
    the graph and, if it is undirected, each of them once more from its other end. *)
Theorem C75_edges :
  forall (A D N E : Type) (m : mode) (s : Shape Cell A D) (G : Geometry A D), Supported s G ->
  forall (g : LatticeGraph Cell A D N E) nf ef, Built m s G g nf ef ->
  forall ns es (eb : Cell -> list (EdgeReference Cell E D)),
  Drains (node_indices_next m (g_s g)) (node_identifiers g) ns ->
  Drains (edge_references_next m g) (edge_references g) es ->
  (forall c, In c ns -> exists it, edges m g c = Ok it /\ Drains (edges_next m g) it (eb c)) ->
  Permutation (map seen (flat_map eb ns))
    (map seen es ++ if is_directed g then [] else map seen_back es).
Proof. exact (@c75_edges). Qed.
Print Assumptions C75_edges.

(** The same for pairs of neighbours. *)
Theorem C75_neighbors :
  forall (A D N E : Type) (m : mode) (s : Shape Cell A D) (G : Geometry A D), Supported s G ->
  forall (g : LatticeGraph Cell A D N E) nf ef, Built m s G g nf ef ->
  forall ns es (nb : Cell -> list Cell),
  Drains (node_indices_next m (g_s g)) (node_identifiers g) ns ->
  Drains (edge_references_next m g) (edge_references g) es ->
  (forall c, In c ns -> Drains (neighbors_next m g c) (neighbors g c) (nb c)) ->
  Permutation (flat_map (fun c => map (fun t => (c, t)) (nb c)) ns)
    (map (fun r => (er_source r, er_target r)) es ++
     if is_directed g then [] else map (fun r => (er_target r, er_source r)) es).
Proof. exact (@c75_neighbors). Qed.
Print Assumptions C75_neighbors.

(** The numbers of neighbours add up to twice the number of edges. *)
Theorem C75_count :
  forall (A D N E : Type) (m : mode) (s : Shape Cell A D) (G : Geometry A D), Supported s G ->
  forall (g : LatticeGraph Cell A D N E) nf ef, Built m s G g nf ef ->
  forall ns es (nb : Cell -> list Cell),
  Drains (node_indices_next m (g_s g)) (node_identifiers g) ns ->
  Drains (edge_references_next m g) (edge_references g) es ->
  (forall c, In c ns -> Drains (neighbors_next m g c) (neighbors g c) (nb c)) ->
  list_sum (map (fun c => length (nb c)) ns) = ((if is_directed g then 1 else 2) * length es)%nat.
Proof. exact (@c75_count). Qed.
Print Assumptions C75_count.

(** On a directed graph, also on boards whose moves cannot be undone, the two ways give the same
    references in the same order. *)
Theorem C75_directed :
  forall (A D N E : Type) (m : mode) (s : Shape Cell A D) (G : Geometry A D), Traversable s G ->
  forall (g : LatticeGraph Cell A D N E) nf ef, Built m s G g nf ef -> is_directed g = true ->
  forall ns es (eb : Cell -> list (EdgeReference Cell E D)),
  Drains (node_indices_next m (g_s g)) (node_identifiers g) ns ->
  Drains (edge_references_next m g) (edge_references g) es ->
  (forall c, In c ns -> exists it, edges m g c = Ok it /\ Drains (edges_next m g) it (eb c)) ->
  flat_map eb ns = es.
Proof. exact (@c75_directed). Qed.
Print Assumptions C75_directed.

Example C75_case :
  Supported lp lpG /\ Built Debug lp lpG (demo lp Debug) demo_node (demo_edge lp) /\
  is_directed (demo lp Debug) = false /\
  (let ns := [(0, 0); (0, 1); (1, 0); (1, 1); (2, 0); (2, 1)] in
   let nb c := match collect (neighbors_next Debug (demo lp Debug) c) 10
                 (neighbors (demo lp Debug) c) with Ok l => l | Fail _ => [] end in
   collect (node_indices_next Debug lp) 10 (node_identifiers (demo lp Debug)) = Ok ns /\
   map (fun c => length (nb c)) ns = [4; 4; 4; 4; 4; 4]%nat) /\
  (exists es, collect (edge_references_next Debug (demo lp Debug)) 20
     (edge_references (demo lp Debug)) = Ok es /\ length es = 12%nat) /\
  Traversable hd hdG /\ is_directed (demo hd Debug) = true.
Proof.
  split; [exact lp_ok|]. split; [apply demo_built, lp_ok|]. split; [reflexivity|].
  split; [vm_compute; auto|]. split; [eexists; split; vm_compute; reflexivity|].
  split; [apply tr_supported, hd_ok|reflexivity].
Qed.

(** ** C76 *)

Theorem C76_edges :
  forall (N E : Type) (ix : IxType) (S : LoopShape) (m : mode) (h v : Z),
  sq_size S h v -> sq_index_fits ix h v -> 1 <= v ->
  forall (g : SquareGraph N E ix S) nf ef, SqBuilt m h v g nf ef ->
  forall ns es (eb : NodeIndex -> list (SqEdgeReference E)),
  Drains (sg_node_indices_next (ix := ix) m) (sg_node_identifiers g) ns ->
  Drains (sg_edge_references_next m g) (sg_edge_references g) es ->
  (forall n, In n ns -> Drains (sg_edges_next m g) (sg_edges g n) (eb n)) ->
  exists vs all, map (sq_view ix S m) (flat_map eb ns) = map Ok vs /\
    map (sq_view ix S m) es = map Ok all /\ Permutation vs (all ++ map view_back all).
Proof. exact (@c76). Qed.
Print Assumptions C76_edges.

Theorem C76_count :
  forall (N E : Type) (ix : IxType) (S : LoopShape) (m : mode) (h v : Z),
  sq_size S h v -> sq_index_fits ix h v -> 1 <= v ->
  forall (g : SquareGraph N E ix S) nf ef, SqBuilt m h v g nf ef ->
  forall ns es (nb : NodeIndex -> list NodeIndex),
  Drains (sg_node_indices_next (ix := ix) m) (sg_node_identifiers g) ns ->
  Drains (sg_edge_references_next m g) (sg_edge_references g) es ->
  (forall n, In n ns ->
     Drains (sg_neighbors_next (ix := ix) (S := S) m) (sg_neighbors g n) (nb n)) ->
  list_sum (map (fun n => length (nb n)) ns) = (2 * length es)%nat.
Proof. exact (@c76_count). Qed.
Print Assumptions C76_count.

Example C76_case :
  sq_size HorizontalLoop 3 2 /\ sq_index_fits IxU8 3 2 /\ SqBuilt Debug 3 2 hl sq_node sq_edge /\
  (let ns := [(0, 0); (0, 1); (1, 0); (1, 1); (2, 0); (2, 1)] in
   let nb n := match collect (sg_neighbors_next (ix := IxU8) (S := HorizontalLoop) Debug) 10
                 (sg_neighbors hl n) with Ok l => l | Fail _ => [] end in
   collect (sg_node_indices_next (ix := IxU8) Debug) 10 (sg_node_identifiers hl) = Ok ns /\
   map (fun n => length (nb n)) ns = [3; 3; 3; 3; 3; 3]%nat) /\
  (exists es, collect (sg_edge_references_next Debug hl) 20 (sg_edge_references hl) = Ok es /\
     length es = 9%nat).
Proof.
  split; [exact hl_size|]. split; [exact hl_fits|]. split; [exact hl_built|].
  split; [vm_compute; auto|]. eexists. split; vm_compute; reflexivity.
Qed.

(** ** C77 *)

(** A borrowed shape answers like the shape: sizes, positions, moves, neighbours. *)
Theorem C77_shape_partial :
  forall (A D : Type) (s : Shape Cell A D) (m : mode),
  let r := shape_ref s in
  sh_horizontal r = sh_horizontal s /\ sh_vertical r = sh_vertical s /\
  sh_node_count r m = sh_node_count s m /\
  (forall c, sh_to_offset r m c = sh_to_offset s m c) /\
  (forall c, sh_to_offset_unchecked r m c = sh_to_offset_unchecked s m c) /\
  (forall o, sh_offset_to_coordinate r m o = sh_offset_to_coordinate s m o) /\
  (forall c, sh_to_index r m c = sh_to_index s m c) /\
  (forall i, sh_index_to_coordinate r m i = sh_index_to_coordinate s m i) /\
  (forall c d, sh_move_coord r m c d = sh_move_coord s m c d) /\
  (forall c d, sh_move_coord_unchecked r m c d = sh_move_coord_unchecked s m c d) /\
  (forall a b, sh_is_neighbor r m a b = sh_is_neighbor s m a b) /\
  (forall a b, sh_get_direction r m a b = sh_get_direction s m a b).
Proof. exact (@c77_shape). Qed.
Print Assumptions C77_shape_partial.

(** The two deprecated methods are not forwarded. *)
Theorem C77_edge_sizes_refuted :
  forall m, exists s : Shape Cell SquareAxis DirectedSquareAxis,
  sh_horizontal_edge_size s m SX = Ok 2 /\ sh_horizontal_edge_size (shape_ref s) m SX = Ok 3 /\
  sh_vertical_edge_size s m SY = Ok 1 /\ sh_vertical_edge_size (shape_ref s) m SY = Ok 2.
Proof. exact c77_edge_sizes. Qed.
Print Assumptions C77_edge_sizes_refuted.

(** [new_with] makes the same graph. *)
Theorem C77_new :
  forall (A D N E : Type) (m : mode) (s : Shape Cell A D) (St : Type)
    (n : St -> Cell -> N * St) (e : St -> Cell -> A -> E * St) st,
  new_with (shape_ref s) n e m st = on_ok (fun p => (lend (fst p), snd p)) (new_with s n e m st).
Proof. exact (@c77_new). Qed.
Print Assumptions C77_new.

(** Reading does not tell the graphs apart, writing does the same to both, and the iterators
    and visit maps work alike. *)
Theorem C77_reads :
  forall (A D N E : Type) (m : mode) (g : LatticeGraph Cell A D N E),
  (forall c, node_weight m (lend g) c = node_weight m g c) /\
  (forall e, edge_weight m (lend g) e = edge_weight m g e) /\
  (forall c, node_weight_unchecked m (lend g) c = node_weight_unchecked m g c) /\
  (forall e, edge_weight_unchecked m (lend g) e = edge_weight_unchecked m g e) /\
  node_count m (lend g) = node_count m g /\ node_bound m (lend g) = node_bound m g /\
  (forall c, to_index m (lend g) c = to_index m g c) /\
  (forall i, from_index m (lend g) i = from_index m g i) /\
  (forall a b, is_adjacent m (lend g) a b = is_adjacent m g a b) /\
  is_directed (lend g) = is_directed g /\
  (forall nn ne, drop_graph m nn ne (lend g) = drop_graph m nn ne g).
Proof. exact (@c77_reads). Qed.
Print Assumptions C77_reads.

Theorem C77_writes :
  forall (A D N E : Type) (m : mode) (g : LatticeGraph Cell A D N E),
  (forall c f, node_weight_mut m (lend g) c f = on_ok (option_map lend) (node_weight_mut m g c f)) /\
  (forall e f, edge_weight_mut m (lend g) e f = on_ok (option_map lend) (edge_weight_mut m g e f)) /\
  (forall c f, node_weight_mut_unchecked m (lend g) c f
     = on_ok lend (node_weight_mut_unchecked m g c f)) /\
  (forall e f, edge_weight_mut_unchecked m (lend g) e f
     = on_ok lend (edge_weight_mut_unchecked m g e f)) /\
  (forall cn ce, clone_graph cn ce (lend g) = on_ok lend (clone_graph cn ce g)).
Proof. exact (@c77_writes). Qed.
Print Assumptions C77_writes.

Theorem C77_iterators :
  forall (A D N E : Type) (m : mode) (g : LatticeGraph Cell A D N E),
  (forall it, node_indices_next m (g_s (lend g)) it = node_indices_next m (g_s g) it) /\
  (forall it, node_references_next m (lend g) it = node_references_next m g it) /\
  (forall c it, neighbors_next m (lend g) c it = neighbors_next m g c it) /\
  (forall c, edges m (lend g) c = edges m g c) /\
  (forall c d, edges_directed m (lend g) c d = edges_directed m g c d) /\
  (forall it, edges_next m (lend g) it = edges_next m g it) /\
  (forall it, edge_references_next m (lend g) it = edge_references_next m g it) /\
  (forall r : EdgeReference Cell E D, er_id m (g_s (lend g)) r = er_id m (g_s g) r) /\
  visit_map (lend g) = visit_map g /\
  (forall vm c, vm_visit m (g_s (lend g)) vm c = vm_visit m (g_s g) vm c) /\
  (forall vm c, vm_is_visited m (g_s (lend g)) vm c = vm_is_visited m (g_s g) vm c) /\
  (forall vm c, vm_unvisit m (g_s (lend g)) vm c = vm_unvisit m (g_s g) vm c) /\
  (forall it, node_indices_size_hint m (g_s (lend g)) it = node_indices_size_hint m (g_s g) it) /\
  (forall it, neighbors_size_hint m (lend g) it = neighbors_size_hint m g it) /\
  (forall it, edges_size_hint m (lend g) it = edges_size_hint m g it) /\
  (forall it, edge_references_size_hint m (lend g) it = edge_references_size_hint m g it).
Proof. exact (@c77_iterators). Qed.
Print Assumptions C77_iterators.

Example C77_case :
  Built Debug lp lpG (demo lp Debug) demo_node (demo_edge lp) /\
  is_adjacent Debug (lend (demo lp Debug)) (0, 0) (2, 0) = Ok true /\
  collect (neighbors_next Debug (lend (demo lp Debug)) (2, 1)) 10 (neighbors (lend (demo lp Debug)) (2, 1))
    = Ok [(0, 1); (0, 0); (2, 0); (1, 1)].
Proof. split; [apply demo_built, lp_ok|]. split; reflexivity. Qed.
