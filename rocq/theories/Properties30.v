(** * Properties30: searches against the edges, and along edges either way (C122, C123).

    [rv_...] and [un_...]: petgraph's [Reversed] and [UndirectedAdaptor] over the graph
    (Adaptors.v).  [priced price e]: what [e] costs by its source, target and weight;
    [Either nodes a p k b]: edges that lead one way or the other join the nodes [p], from [a] to
    [b], and cost [k] together (Spec22.v).  [Route], [EdgeAt] (Spec4.v), [Reached], [Faults]
    (Spec11.v), [Sound], [Walkable], [least_ways], [cheapest_way] (Spec21.v). *)

From Verif Require Import CustomDemo Machine Store Axes Shapes Lattice Traverse Clients Astar
  Dijkstra Adaptors Spec Spec4 Spec11 Spec19 Spec21 Spec22 AdaptorsMain AstarMain Demo AstarDemo.

(** ** C122 *)

(** The edges of [b] in the reversed view lead to the nodes from which an edge leads to [b],
    and have the weights of these. *)
Theorem C122_edges :
  forall (A D N E : Type) (m : mode) (s : Shape Cell A D) (G : Geometry A D), Sound m s G ->
  forall (g : LatticeGraph Cell A D N E) nf ef, Built m s G g nf ef ->
  let target := fun e : EdgeReference Cell E D => Ok (er_target e) in
  let source := fun e : EdgeReference Cell E D => Ok (er_source e) in
  ag_directed (geo_ax G) = false \/ m = Release ->
  forall b, In b (geo_nodes G) ->
  exists it l, rv_edges (edges_directed m g) b = Ok it /\ Drains (edges_next m g) it l /\
    forall a w,
      (exists r, In r l /\ rv_target source r = Ok a /\ rv_source target r = Ok b /\
         er_weight r = w) <->
      In a (geo_nodes G) /\
      exists e, EdgeAt (edges m g) (edges_next m g) a e /\ er_target e = b /\ er_weight e = w.
Proof. exact (@c122_edges). Qed.
Print Assumptions C122_edges.

(** [Bfs]: the nodes from which steps lead to [start], those with fewer steps first. *)
Theorem C122_bfs :
  forall (A D N E : Type) (m : mode) (s : Shape Cell A D) (G : Geometry A D), Sound m s G ->
  forall (g : LatticeGraph Cell A D N E) nf ef, Built m s G g nf ef ->
  let reached := Reached (neighbors g) (neighbors_next m g) (geo_nodes G) in
  forall start, In start (geo_nodes G) ->
  exists it l, bfs_new (vm_visit m (g_s g)) (visit_map g) start = Ok it /\
    Drains (bfs_next (rv_neighbors (neighbors_directed g)) (neighbors_next m g)
      (vm_visit m (g_s g))) it l /\
    hd_error l = Some start /\ NoDup l /\
    (forall c, In c l <-> In c (geo_nodes G) /\ exists n, reached c n start) /\
    forall l1 a l2 b l3 n, l = l1 ++ a :: l2 ++ b :: l3 -> reached b n start ->
      exists k, (k <= n)%nat /\ reached a k start.
Proof. exact (@c122_bfs). Qed.
Print Assumptions C122_bfs.

(** [dijkstra]: for each node the least cost of the ways from it to [start]. *)
Theorem C122_dijkstra :
  forall (A D N E : Type) (m : mode) (s : Shape Cell A D) (G : Geometry A D), Sound m s G ->
  forall (g : LatticeGraph Cell A D N E) nf ef, Built m s G g nf ef ->
  let target := fun e : EdgeReference Cell E D => Ok (er_target e) in
  let source := fun e : EdgeReference Cell E D => Ok (er_source e) in
  ag_directed (geo_ax G) = false \/ m = Release ->
  forall (price : Cell -> Cell -> E -> Z) start, In start (geo_nodes G) ->
  let cost := priced price in
  let back := fun p k c => In c (geo_nodes G) /\
    Route (edges m g) (edges_next m g) target cost c (rev p) k start in
  forall H, HeapOK H ->
  (forall a e, In a (geo_nodes G) -> EdgeAt (edges m g) (edges_next m g) a e -> 0 <= cost e) ->
  forall goal,
  exists r,
    Returns (dijkstra_round veqb H (rv_edges (edges_directed m g)) (edges_next m g)
        (rv_target source) cost (vm_visit m (g_s g)) (vm_is_visited m (g_s g)) goal)
      (dijkstra_init veqb H (visit_map g) start) r /\
    (goal = None -> least_ways back r) /\
    forall b, goal = Some b ->
      match r b with
      | Some x => (exists p, back p x b) /\ forall p k, back p k b -> x <= k
      | None => forall p k, ~ back p k b
      end.
Proof. exact (@c122_dijkstra). Qed.
Print Assumptions C122_dijkstra.

(** [astar]: the path, read backwards, is a cheapest way from a goal to [start]. *)
Theorem C122_astar :
  forall (A D N E : Type) (m : mode) (s : Shape Cell A D) (G : Geometry A D), Sound m s G ->
  forall (g : LatticeGraph Cell A D N E) nf ef, Built m s G g nf ef ->
  let target := fun e : EdgeReference Cell E D => Ok (er_target e) in
  let source := fun e : EdgeReference Cell E D => Ok (er_source e) in
  ag_directed (geo_ax G) = false \/ m = Release ->
  forall (price : Cell -> Cell -> E -> Z) start, In start (geo_nodes G) ->
  let cost := priced price in
  let way := Route (edges m g) (edges_next m g) target cost in
  forall H, HeapOK H ->
  (forall a e, In a (geo_nodes G) -> EdgeAt (edges m g) (edges_next m g) a e -> 0 <= cost e) ->
  forall est goal,
  (forall n, In n (geo_nodes G) -> goal n = true -> 0 <= est n) ->
  (forall n p k c, In n (geo_nodes G) -> In c (geo_nodes G) -> goal c = true ->
     way c p k n -> est n <= k) ->
  exists r,
    Returns (astar_round veqb H (rv_edges (edges_directed m g)) (edges_next m g)
        (rv_target source) cost est goal) (astar_init veqb H est start) r /\
    cheapest_way (fun p k c => In c (geo_nodes G) /\ way c (rev p) k start) goal r.
Proof. exact (@c122_astar). Qed.
Print Assumptions C122_astar.

(** In a debug build of a directed graph the search panics, unless [start] is the goal or has
    no neighbours. *)
Theorem C122_debug_refuted :
  forall (A D N E : Type) (m : mode) (s : Shape Cell A D) (G : Geometry A D), Sound m s G ->
  forall (g : LatticeGraph Cell A D N E) nf ef, Built m s G g nf ef ->
  let source := fun e : EdgeReference Cell E D => Ok (er_source e) in
  ag_directed (geo_ax G) = true -> m = Debug ->
  forall H, HeapOK H -> forall cost start l, In start (geo_nodes G) ->
  Drains (neighbors_next m g start) (neighbors g start) l -> l <> [] ->
  forall goal, goal <> Some start ->
  Faults (dijkstra_round veqb H (rv_edges (edges_directed m g)) (edges_next m g)
      (rv_target source) cost (vm_visit m (g_s g)) (vm_is_visited m (g_s g)) goal) FPanic
    (dijkstra_init veqb H (visit_map g) start).
Proof. exact (@c122_debug). Qed.
Print Assumptions C122_debug_refuted.

(** A directed hex board on which each direction of each cell has its own price: what it costs
    to come to (0, 0), what it costs to go from there, and the way from (1, 2); the same in a
    debug build. *)
Definition toll (a b : Cell) (w : Z) : Z := w * w mod 11.

Example C122_case :
  let target := fun e : EdgeReference Cell Z AxisDR => Ok (er_target e) in
  let source := fun e : EdgeReference Cell Z AxisDR => Ok (er_source e) in
  let cost := priced toll in
  let costs m rev c := let g := demo hd m in
    match loop (if (rev : bool)
      then dijkstra_round veqb list_heap (rv_edges (edges_directed m g)) (edges_next m g)
        (rv_target source) cost (vm_visit m (g_s g)) (vm_is_visited m (g_s g)) None
      else dijkstra_round veqb list_heap (edges m g) (edges_next m g)
        target cost (vm_visit m (g_s g)) (vm_is_visited m (g_s g)) None)
      (dijkstra_init veqb list_heap (visit_map g) c) with
    | Ok r => Ok (map r (geo_nodes hdG)) | Fail f => Fail f end in
  let path m c b := let g := demo hd m in
    loop (astar_round veqb list_heap (rv_edges (edges_directed m g)) (edges_next m g)
      (rv_target source) cost (fun _ => 0) (fun x => veqb x b))
      (astar_init veqb list_heap (fun _ => 0) c) in
  Sound Release hd hdG /\ Sound Debug hd hdG /\ ag_directed (geo_ax hdG) = true /\
  Built Release hd hdG (demo hd Release) demo_node (demo_edge hd) /\
  Built Debug hd hdG (demo hd Debug) demo_node (demo_edge hd) /\
  HeapOK (list_heap (C := Cell)) /\ In (0, 0) (geo_nodes hdG) /\
  collect (neighbors_next Debug (demo hd Debug) (0, 0)) 9 (neighbors (demo hd Debug) (0, 0))
    = Ok [(0, 1); (1, 0); (-1, 1)] /\
  costs Release true (0, 0)
    = Ok [Some 0; Some 1; Some 2; Some 4; Some 1; Some 1; Some 7; Some 6; Some 5] /\
  costs Release false (0, 0)
    = Ok [Some 0; Some 5; Some 6; Some 0; Some 1; Some 5; Some 1; Some 0; Some 1] /\
  path Release (0, 0) (1, 2) = Ok (Some (5, [(0, 0); (0, 1); (0, 2); (1, 2)])) /\
  costs Debug true (0, 0) = Fail FPanic.
Proof.
  cbv zeta. split; [apply sound_crate; exact hd_ok|]. split; [apply sound_crate; exact hd_ok|].
  split; [reflexivity|]. split; [apply demo_built, hd_ok|]. split; [apply demo_built, hd_ok|].
  split; [apply list_heap_ok|]. vm_compute. auto 20.
Qed.

(** ** C123 *)

(** Every neighbour is listed twice, on every shape. *)
Theorem C123_neighbors :
  forall (A D N E : Type) (m : mode) (g : LatticeGraph Cell A D N E) c l,
  Drains (neighbors_next m g c) (neighbors g c) l ->
  Drains (un_neighbors_next (neighbors_next m g) c) (un_neighbors (neighbors_directed g) c)
    (l ++ l).
Proof. exact (@c123_neighbors). Qed.
Print Assumptions C123_neighbors.

(** The searches go where [neighbors] leads; on shapes with steps that are not taken back by
    others this is less than a search that ignores the directions would find. *)
Theorem C123_bfs :
  forall (A D N E : Type) (m : mode) (s : Shape Cell A D) (G : Geometry A D), Walkable m s G ->
  forall (g : LatticeGraph Cell A D N E) nf ef, Built m s G g nf ef ->
  let reached := Reached (neighbors g) (neighbors_next m g) (geo_nodes G) in
  forall start, In start (geo_nodes G) ->
  exists it l, bfs_new (vm_visit m (g_s g)) (visit_map g) start = Ok it /\
    Drains (bfs_next (un_neighbors (neighbors_directed g))
      (un_neighbors_next (neighbors_next m g)) (vm_visit m (g_s g))) it l /\
    hd_error l = Some start /\ NoDup l /\
    (forall c, In c l <-> exists n, reached start n c) /\
    forall l1 a l2 b l3 n, l = l1 ++ a :: l2 ++ b :: l3 -> reached start n b ->
      exists k, (k <= n)%nat /\ reached start k a.
Proof. exact (@c123_bfs). Qed.
Print Assumptions C123_bfs.

Theorem C123_dfs :
  forall (A D N E : Type) (m : mode) (s : Shape Cell A D) (G : Geometry A D), Walkable m s G ->
  forall (g : LatticeGraph Cell A D N E) nf ef, Built m s G g nf ef ->
  let reached := Reached (neighbors g) (neighbors_next m g) (geo_nodes G) in
  forall start, In start (geo_nodes G) ->
  exists l, Drains (dfs_next (un_neighbors (neighbors_directed g))
      (un_neighbors_next (neighbors_next m g)) (vm_visit m (g_s g)) (vm_is_visited m (g_s g)))
      (dfs_new (visit_map g) start) l /\
    hd_error l = Some start /\ NoDup l /\ (forall c, In c l <-> exists n, reached start n c).
Proof. exact (@c123_dfs). Qed.
Print Assumptions C123_dfs.

(** The edges that arrive, turned round, and then those that leave; all start at the node. *)
Theorem C123_edges :
  forall (A D N E : Type) (m : mode) (s : Shape Cell A D) (G : Geometry A D), Sound m s G ->
  forall (g : LatticeGraph Cell A D N E) nf ef, Built m s G g nf ef ->
  let target := fun e : EdgeReference Cell E D => Ok (er_target e) in
  let source := fun e : EdgeReference Cell E D => Ok (er_source e) in
  ag_directed (geo_ax G) = false \/ m = Release ->
  forall c, In c (geo_nodes G) ->
  forall i1 l1 i2 l2, edges_directed m g c Incoming = Ok i1 -> Drains (edges_next m g) i1 l1 ->
  edges m g c = Ok i2 -> Drains (edges_next m g) i2 l2 ->
  exists it, let l := map (fun e => (e, true)) l1 ++ map (fun e => (e, false)) l2 in
    un_edges (edges_directed m g) c = Ok it /\ Drains (un_edges_next (edges_next m g)) it l /\
    forall e, In e l -> un_source source target e = Ok c.
Proof. exact (@c123_edges). Qed.
Print Assumptions C123_edges.

(** [dijkstra]: the least costs of the ways along edges that may be taken either way. *)
Theorem C123_dijkstra :
  forall (A D N E : Type) (m : mode) (s : Shape Cell A D) (G : Geometry A D), Sound m s G ->
  forall (g : LatticeGraph Cell A D N E) nf ef, Built m s G g nf ef ->
  let target := fun e : EdgeReference Cell E D => Ok (er_target e) in
  let source := fun e : EdgeReference Cell E D => Ok (er_source e) in
  ag_directed (geo_ax G) = false \/ m = Release ->
  forall (price : Cell -> Cell -> E -> Z) start, In start (geo_nodes G) ->
  let either := Either (edges m g) (edges_next m g) (priced price) (geo_nodes G) in
  forall H, HeapOK H ->
  (forall a e, In a (geo_nodes G) -> EdgeAt (edges m g) (edges_next m g) a e ->
     0 <= priced price e) ->
  forall goal,
  exists r,
    Returns (dijkstra_round veqb H (un_edges (edges_directed m g))
        (un_edges_next (edges_next m g)) (un_target source target)
        (fun e => priced price (fst e)) (vm_visit m (g_s g)) (vm_is_visited m (g_s g)) goal)
      (dijkstra_init veqb H (visit_map g) start) r /\
    (goal = None -> least_ways (either start) r) /\
    forall b, goal = Some b ->
      match r b with
      | Some x => (exists p, either start p x b) /\ forall p k, either start p k b -> x <= k
      | None => forall p k, ~ either start p k b
      end.
Proof. exact (@c123_dijkstra). Qed.
Print Assumptions C123_dijkstra.

Theorem C123_astar :
  forall (A D N E : Type) (m : mode) (s : Shape Cell A D) (G : Geometry A D), Sound m s G ->
  forall (g : LatticeGraph Cell A D N E) nf ef, Built m s G g nf ef ->
  let target := fun e : EdgeReference Cell E D => Ok (er_target e) in
  let source := fun e : EdgeReference Cell E D => Ok (er_source e) in
  ag_directed (geo_ax G) = false \/ m = Release ->
  forall (price : Cell -> Cell -> E -> Z) start, In start (geo_nodes G) ->
  let either := Either (edges m g) (edges_next m g) (priced price) (geo_nodes G) in
  forall H, HeapOK H ->
  (forall a e, In a (geo_nodes G) -> EdgeAt (edges m g) (edges_next m g) a e ->
     0 <= priced price e) ->
  forall est goal,
  (forall n, In n (geo_nodes G) -> goal n = true -> 0 <= est n) ->
  (forall n p k c, In n (geo_nodes G) -> goal c = true -> either n p k c -> est n <= k) ->
  exists r,
    Returns (astar_round veqb H (un_edges (edges_directed m g))
        (un_edges_next (edges_next m g)) (un_target source target)
        (fun e => priced price (fst e)) est goal) (astar_init veqb H est start) r /\
    cheapest_way (either start) goal r.
Proof. exact (@c123_astar). Qed.
Print Assumptions C123_astar.

Theorem C123_debug_refuted :
  forall (A D N E : Type) (m : mode) (s : Shape Cell A D) (G : Geometry A D), Sound m s G ->
  forall (g : LatticeGraph Cell A D N E) nf ef, Built m s G g nf ef ->
  let target := fun e : EdgeReference Cell E D => Ok (er_target e) in
  let source := fun e : EdgeReference Cell E D => Ok (er_source e) in
  ag_directed (geo_ax G) = true -> m = Debug ->
  forall H, HeapOK H -> forall cost start l, In start (geo_nodes G) ->
  Drains (neighbors_next m g start) (neighbors g start) l -> l <> [] ->
  forall goal, goal <> Some start ->
  Faults (dijkstra_round veqb H (un_edges (edges_directed m g))
      (un_edges_next (edges_next m g)) (un_target source target) cost
      (vm_visit m (g_s g)) (vm_is_visited m (g_s g)) goal) FPanic
    (dijkstra_init veqb H (visit_map g) start).
Proof. exact (@c123_debug). Qed.
Print Assumptions C123_debug_refuted.

(** The same board: no node costs more than it does one way in C122_case. *)
Example C123_case :
  let target := fun e : EdgeReference Cell Z AxisDR => Ok (er_target e) in
  let source := fun e : EdgeReference Cell Z AxisDR => Ok (er_source e) in
  let g m := demo hd m in
  let cost := fun e : EdgeReference Cell Z AxisDR * bool => priced toll (fst e) in
  let costs m c := match loop (dijkstra_round veqb list_heap (un_edges (edges_directed m (g m)))
      (un_edges_next (edges_next m (g m))) (un_target source target) cost
      (vm_visit m (g_s (g m))) (vm_is_visited m (g_s (g m))) None)
      (dijkstra_init veqb list_heap (visit_map (g m)) c) with
    | Ok r => Ok (map r (geo_nodes hdG)) | Fail f => Fail f end in
  let bfs c := let! it := bfs_new (vm_visit Debug (g_s (g Debug))) (visit_map (g Debug)) c in
    collect (bfs_next (un_neighbors (neighbors_directed (g Debug)))
      (un_neighbors_next (neighbors_next Debug (g Debug))) (vm_visit Debug (g_s (g Debug))))
      20 it in
  Sound Release hd hdG /\ ag_directed (geo_ax hdG) = true /\ Walkable Debug hd hdG /\
  Built Release hd hdG (g Release) demo_node (demo_edge hd) /\
  Built Debug hd hdG (g Debug) demo_node (demo_edge hd) /\
  HeapOK (list_heap (C := Cell)) /\
  collect (un_neighbors_next (neighbors_next Debug (g Debug)) (0, 0)) 9
    (un_neighbors (neighbors_directed (g Debug)) (0, 0))
    = Ok [(0, 1); (1, 0); (-1, 1); (0, 1); (1, 0); (-1, 1)] /\
  bfs (0, 0)
    = Ok [(0, 0); (0, 1); (1, 0); (-1, 1); (0, 2); (1, 1); (-1, 2); (2, 0); (1, 2)] /\
  costs Release (0, 0)
    = Ok [Some 0; Some 1; Some 1; Some 0; Some 0; Some 0; Some 1; Some 0; Some 1] /\
  costs Debug (0, 0) = Fail FPanic.
Proof.
  cbv zeta. split; [apply sound_crate; exact hd_ok|]. split; [reflexivity|].
  split; [apply walk_crate, st_supported; exact hd_ok|].
  split; [apply demo_built, hd_ok|]. split; [apply demo_built, hd_ok|].
  split; [apply list_heap_ok|]. vm_compute. auto 20.
Qed.
