(** * Properties39: nodes coloured (C139, C140).

    [dsatur_coloring]: petgraph's function of that name, with any heap that keeps to [MaxHeapOK]
    (Coloring.v); the first part of the result is the map of colours, the second the number of
    colours. [Proper_colours], [First_fit], [Last_used]: Spec31.v; [Neighbor]: Spec25.v. [Sound]
    (Spec21.v): the shapes of the crate whose boards are traversed as drawn, all of which have at most
    eight directions, and those of users that keep to the contract. *)

From Verif Require Import CustomDemo Machine Store Axes Shapes Lattice SquareGraph Spec SpecSquare
  Spec8 Spec19 Spec21 Spec25 Coloring Spec31 ColoringMain Demo SquareDemo ColoringDemo.

(** ** C139 *)

(** The nodes of the board, and nothing else, get colours, joined nodes different ones, and none of
    the colours could have been an earlier one. *)
Theorem C139_colours :
  forall (A D N E : Type) (m : mode) (s : Shape Cell A D) (G : Geometry A D), Sound m s G ->
  (length (ag_dirs (geo_ax G)) <= 8)%nat ->
  forall (g : LatticeGraph Cell A D N E) nf ef, Built m s G g nf ef ->
  forall (H : MaxHeap Cell) eqb, MaxHeapOK H -> (forall a b, eqb a b = true <-> a = b) ->
  exists r color,
    dsatur_coloring m H eqb (node_identifiers g) (node_indices_next m (g_s g)) (neighbors g)
      (neighbors_next m g) (edges m g) (edges_next m g) (node_bound m g) (to_index m g) (visit_map g)
      (vm_visit m (g_s g)) (vm_is_visited m (g_s g)) = Ok r /\
    (forall c, In c (geo_nodes G) -> fst r c = Some (color c)) /\
    (forall c, ~ In c (geo_nodes G) -> fst r c = None) /\
    Proper_colours (Neighbor m g) (geo_nodes G) color (snd r) /\
    First_fit (Neighbor m g) (geo_nodes G) color /\
    (geo_nodes G <> [] -> Last_used (geo_nodes G) color (snd r)) /\
    (geo_nodes G = [] -> snd r = 1).
Proof. exact (@c139_colours). Qed.
Print Assumptions C139_colours.

(** Where two colours can do, no third is used. *)
Theorem C139_two :
  forall (A D N E : Type) (m : mode) (s : Shape Cell A D) (G : Geometry A D), Supported s G ->
  forall (g : LatticeGraph Cell A D N E) nf ef, Built m s G g nf ef ->
  forall (H : MaxHeap Cell) eqb, MaxHeapOK H -> (forall a b, eqb a b = true <-> a = b) ->
  forall r,
  dsatur_coloring m H eqb (node_identifiers g) (node_indices_next m (g_s g)) (neighbors g)
    (neighbors_next m g) (edges m g) (edges_next m g) (node_bound m g) (to_index m g) (visit_map g)
    (vm_visit m (g_s g)) (vm_is_visited m (g_s g)) = Ok r ->
  (snd r <= 2 <-> exists color, Proper_colours (Neighbor m g) (geo_nodes G) color 2).
Proof. exact (@c139_two). Qed.
Print Assumptions C139_two.

(** [Chequered] (Spec8.v): boards of squares, and strips and even rings of other cells. *)
Theorem C139_boards :
  forall (A D N E : Type) (m : mode) (s : Shape Cell A D) (G : Geometry A D), Supported s G ->
  Chequered s G true ->
  forall (g : LatticeGraph Cell A D N E) nf ef, Built m s G g nf ef ->
  forall (H : MaxHeap Cell) eqb, MaxHeapOK H -> (forall a b, eqb a b = true <-> a = b) ->
  forall r,
  dsatur_coloring m H eqb (node_identifiers g) (node_indices_next m (g_s g)) (neighbors g)
    (neighbors_next m g) (edges m g) (edges_next m g) (node_bound m g) (to_index m g) (visit_map g)
    (vm_visit m (g_s g)) (vm_is_visited m (g_s g)) = Ok r ->
  snd r <= 2.
Proof. exact (@c139_boards). Qed.
Print Assumptions C139_boards.

Example C139_case :
  let run {A D N E} (g : LatticeGraph Cell A D N E) (nodes : list Cell) :=
    let! r := dsatur_coloring Debug sorted_heap same_cell (node_identifiers g)
      (node_indices_next Debug (g_s g)) (neighbors g) (neighbors_next Debug g) (edges Debug g)
      (edges_next Debug g) (node_bound Debug g) (to_index Debug g) (visit_map g)
      (vm_visit Debug (g_s g)) (vm_is_visited Debug (g_s g)) in
    Ok (map (fst r) nodes, snd r) in
  MaxHeapOK sorted_heap /\ (forall a b, same_cell a b = true <-> a = b) /\
  Sound Debug sq sqG /\ (length (ag_dirs (geo_ax sqG)) <= 8)%nat /\ Supported sq sqG /\ Chequered sq sqG true /\
  Built Debug sq sqG (demo sq Debug) demo_node (demo_edge sq) /\
  geo_nodes sqG = [(0, 0); (0, 1); (1, 0); (1, 1); (2, 0); (2, 1)] /\
  run (demo sq Debug) (geo_nodes sqG) = Ok ([Some 0; Some 1; Some 1; Some 0; Some 0; Some 1], 2) /\
  Sound Debug hx hxG /\ Built Debug hx hxG (demo hx Debug) demo_node (demo_edge hx) /\
  run (demo hx Debug) (geo_nodes hxG) =
    Ok ([Some 0; Some 1; Some 0; Some 2; Some 0; Some 2; Some 1; Some 2; Some 1], 3).
Proof.
  cbv zeta. split; [exact sorted_heap_ok|]. split; [exact same_cell_iff|].
  split; [apply sound_crate; exact sq_ok|]. split; [cbn; lia|]. split; [exact sq_ok|]. split; [constructor|].
  split; [apply demo_built, sq_ok|]. split; [vm_compute; reflexivity|].
  split; [vm_compute; reflexivity|].
  split; [apply sound_crate; exact hx_ok|]. split; [apply demo_built, hx_ok|].
  vm_compute; reflexivity.
Qed.

(** ** C140 *)

Theorem C140_colours :
  forall (N E : Type) (ix : IxType) (S : LoopShape) (m : mode) (h v : Z),
  sq_size S h v -> sq_index_fits ix h v ->
  forall (g : SquareGraph N E ix S) nf ef, SqBuilt m h v g nf ef -> 1 <= v ->
  forall (H : MaxHeap NodeIndex) eqb, MaxHeapOK H -> (forall a b, eqb a b = true <-> a = b) ->
  let next := fun _ => sg_neighbors_next (ix := ix) (S := S) m in
  let joined := fun a b => exists l, Drains (next a) (sg_neighbors g a) l /\ In b l in
  exists r color,
    dsatur_coloring m H eqb (sg_node_identifiers g) (sg_node_indices_next (ix := ix) m)
      (sg_neighbors g) next (fun n => Ok (sg_edges g n)) (sg_edges_next m g) (Ok (sg_node_bound g))
      (sg_to_index m g) (sg_visit_map g) svm_visit svm_is_visited = Ok r /\
    (forall c, In c (sq_nodes h v) -> fst r c = Some (color c)) /\
    (forall c, ~ In c (sq_nodes h v) -> fst r c = None) /\
    Proper_colours joined (sq_nodes h v) color (snd r) /\
    First_fit joined (sq_nodes h v) color /\
    (sq_nodes h v <> [] -> Last_used (sq_nodes h v) color (snd r)) /\
    (sq_nodes h v = [] -> snd r = 1).
Proof. exact (@c140_colours_). Qed.
Print Assumptions C140_colours.

Theorem C140_two :
  forall (N E : Type) (ix : IxType) (S : LoopShape) (m : mode) (h v : Z),
  sq_size S h v -> sq_index_fits ix h v ->
  forall (g : SquareGraph N E ix S) nf ef, SqBuilt m h v g nf ef -> 1 <= v ->
  forall (H : MaxHeap NodeIndex) eqb, MaxHeapOK H -> (forall a b, eqb a b = true <-> a = b) ->
  let next := fun _ => sg_neighbors_next (ix := ix) (S := S) m in
  let joined := fun a b => exists l, Drains (next a) (sg_neighbors g a) l /\ In b l in
  forall r,
  dsatur_coloring m H eqb (sg_node_identifiers g) (sg_node_indices_next (ix := ix) m)
    (sg_neighbors g) next (fun n => Ok (sg_edges g n)) (sg_edges_next m g) (Ok (sg_node_bound g))
    (sg_to_index m g) (sg_visit_map g) svm_visit svm_is_visited = Ok r ->
  (snd r <= 2 <-> exists color, Proper_colours joined (sq_nodes h v) color 2).
Proof. exact (@c140_two_). Qed.
Print Assumptions C140_two.

(** [sq_chequered] (Spec8.v): no looped axis of odd length. *)
Theorem C140_boards :
  forall (N E : Type) (ix : IxType) (S : LoopShape) (m : mode) (h v : Z),
  sq_size S h v -> sq_index_fits ix h v ->
  forall (g : SquareGraph N E ix S) nf ef, SqBuilt m h v g nf ef -> 1 <= v ->
  forall (H : MaxHeap NodeIndex) eqb, MaxHeapOK H -> (forall a b, eqb a b = true <-> a = b) ->
  sq_chequered S h v = true ->
  forall r,
  dsatur_coloring m H eqb (sg_node_identifiers g) (sg_node_indices_next (ix := ix) m)
    (sg_neighbors g) (fun _ => sg_neighbors_next (ix := ix) (S := S) m) (fun n => Ok (sg_edges g n))
    (sg_edges_next m g) (Ok (sg_node_bound g)) (sg_to_index m g) (sg_visit_map g) svm_visit
    svm_is_visited = Ok r ->
  snd r <= 2.
Proof. exact (@c140_boards_). Qed.
Print Assumptions C140_boards.

(** A board without rows: [node_identifiers] yields nodes that are not there (C43), and to count their
    edges reads past the end of an array. Without debug assertions that is undefined behaviour. *)
Theorem C140_no_rows :
  forall (N E : Type) (ix : IxType) (S : LoopShape) (m : mode) (h v : Z),
  sq_size S h v -> sq_index_fits ix h v ->
  forall (g : SquareGraph N E ix S) nf ef, SqBuilt m h v g nf ef -> v = 0 -> 2 <= h ->
  forall (H : MaxHeap NodeIndex) eqb,
  dsatur_coloring m H eqb (sg_node_identifiers g) (sg_node_indices_next (ix := ix) m)
    (sg_neighbors g) (fun _ => sg_neighbors_next (ix := ix) (S := S) m) (fun n => Ok (sg_edges g n))
    (sg_edges_next m g) (Ok (sg_node_bound g)) (sg_to_index m g) (sg_visit_map g) svm_visit
    svm_is_visited = Fail (match m with Debug => FPanic | Release => FUB end).
Proof. exact (@c140_no_rows_). Qed.
Print Assumptions C140_no_rows.

(** With at most one column it finds nothing to colour. *)
Theorem C140_nothing :
  forall (N E : Type) (ix : IxType) (S : LoopShape) (m : mode) (h v : Z),
  sq_size S h v -> sq_index_fits ix h v ->
  forall (g : SquareGraph N E ix S) nf ef, SqBuilt m h v g nf ef -> v = 0 -> h <= 1 ->
  forall (H : MaxHeap NodeIndex) eqb, MaxHeapOK H ->
  dsatur_coloring m H eqb (sg_node_identifiers g) (sg_node_indices_next (ix := ix) m)
    (sg_neighbors g) (fun _ => sg_neighbors_next (ix := ix) (S := S) m) (fun n => Ok (sg_edges g n))
    (sg_edges_next m g) (Ok (sg_node_bound g)) (sg_to_index m g) (sg_visit_map g) svm_visit
    svm_is_visited = Ok (fun _ => None, 1).
Proof. exact (@c140_nothing_). Qed.
Print Assumptions C140_nothing.

(** Three columns in a ring need a third colour. *)
Example C140_case :
  let run {N E ix S} (g : SquareGraph N E ix S) (nodes : list NodeIndex) :=
    let! r := dsatur_coloring Debug sorted_heap same_cell (sg_node_identifiers g)
      (sg_node_indices_next (ix := ix) Debug) (sg_neighbors g)
      (fun _ => sg_neighbors_next (ix := ix) (S := S) Debug) (fun n => Ok (sg_edges g n))
      (sg_edges_next Debug g) (Ok (sg_node_bound g)) (sg_to_index Debug g) (sg_visit_map g) svm_visit
      svm_is_visited in
    Ok (map (fst r) nodes, snd r) in
  sq_size HorizontalLoop 3 2 /\ sq_index_fits IxU8 3 2 /\ SqBuilt Debug 3 2 hl sq_node sq_edge /\
  MaxHeapOK sorted_heap /\ (forall a b, same_cell a b = true <-> a = b) /\
  run hl (sq_nodes 3 2) =
    Ok ([Some 0; Some 2; Some 2; Some 1; Some 1; Some 0], 3) /\
  sq_chequered VerticalLoop 3 2 = true /\
  run (sqd IxU8 VerticalLoop Debug 3 2) (sq_nodes 3 2) =
    Ok ([Some 0; Some 1; Some 1; Some 0; Some 0; Some 1], 2) /\
  sq_size VerticalLoop 2 0 /\ sq_index_fits IxU8 2 0 /\
  SqBuilt Debug 2 0 (sqd IxU8 VerticalLoop Debug 2 0) sq_node sq_edge /\
  run (sqd IxU8 VerticalLoop Debug 2 0) [] = Fail FPanic /\
  sq_size VerticalLoop 1 0 /\ sq_index_fits IxU8 1 0 /\
  SqBuilt Debug 1 0 (sqd IxU8 VerticalLoop Debug 1 0) sq_node sq_edge.
Proof.
  assert (SZ : sq_size VerticalLoop 2 0) by sq_size. assert (SZ1 : sq_size VerticalLoop 1 0) by sq_size.
  cbv zeta. split; [apply hl_size|]. split; [apply hl_fits|]. split; [apply hl_built|].
  split; [exact sorted_heap_ok|]. split; [exact same_cell_iff|].
  split; [vm_compute; reflexivity|]. split; [reflexivity|]. split; [vm_compute; reflexivity|].
  split; [exact SZ|]. split; [index_fits|]. split; [apply sqd_built, SZ|].
  split; [vm_compute; reflexivity|]. split; [exact SZ1|]. split; [index_fits|]. apply sqd_built, SZ1.
Qed.
