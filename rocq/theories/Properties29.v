(** * Properties29: searches through a part of a graph (C117-C121).

    [nf_...] and [ef_...]: petgraph's [NodeFiltered] and [EdgeFiltered] over the graph
    (Filtered.v), for any pure filter [keep] of nodes or [pass] of edges.  [Walkable m s G]: any
    shape of the crate, or a shape of a user's that keeps to the contract of Spec19.v;
    [Sound m s G]: the same with the shapes of the crate whose moves are undone by the opposite
    moves (Spec21.v).
    [Reached nb next nodes a n c]: [n] steps between [nodes], along the neighbours that [next]
    gives, lead from [a] to [c] (Spec11.v).  [Inside keep a p k b]: the nodes [p], all of them
    kept, lead from [a] to [b] along edges that cost [k] together; [Along pass a p k b]: they
    lead there along edges that pass; [least_ways], [cheapest_way] (Spec21.v). *)

From Verif Require Import CustomDemo Machine Store Axes Shapes Lattice SquareGraph Traverse Clients Astar
  Dijkstra Filtered Spec SpecSquare Spec4 Spec11 Spec19 Spec21 FilteredMain AstarMain Demo
  SquareDemo AstarDemo.

(** ** C117 *)

(** What the view shows: the nodes that are kept, and from a node that is kept its neighbours
    that are; nothing from others. *)
Theorem C117_nodes :
  forall (A D N E : Type) (m : mode) (s : Shape Cell A D) (G : Geometry A D), Walkable m s G ->
  forall (g : LatticeGraph Cell A D N E) nf ef, Built m s G g nf ef -> forall keep,
  Drains (nf_nodes_next keep (node_indices_next m (g_s g))) (node_identifiers g)
    (filter keep (geo_nodes G)).
Proof. exact (@c117_nodes). Qed.
Print Assumptions C117_nodes.

Theorem C117_neighbors :
  forall (A D N E : Type) (m : mode) (s : Shape Cell A D) (G : Geometry A D), Walkable m s G ->
  forall (g : LatticeGraph Cell A D N E) nf ef, Built m s G g nf ef -> forall keep,
  forall c l, In c (geo_nodes G) -> Drains (neighbors_next m g c) (neighbors g c) l ->
  Drains (nf_neighbors_next keep (neighbors_next m g) c) (nf_neighbors keep (neighbors g) c)
    (if keep c then filter keep l else []).
Proof. exact (@c117_neighbors). Qed.
Print Assumptions C117_neighbors.

(** [Bfs]: the nodes that can be reached through nodes that are kept, each once, nearer ones
    first.  A start that is not kept is visited all the same, and nothing else. *)
Theorem C117_bfs :
  forall (A D N E : Type) (m : mode) (s : Shape Cell A D) (G : Geometry A D), Walkable m s G ->
  forall (g : LatticeGraph Cell A D N E) nf ef, Built m s G g nf ef -> forall keep,
  let nb := nf_neighbors keep (neighbors g) in
  let next := nf_neighbors_next keep (neighbors_next m g) in
  let inside := Reached (neighbors g) (neighbors_next m g) (filter keep (geo_nodes G)) in
  forall start, In start (geo_nodes G) ->
  exists it l, bfs_new (vm_visit m (g_s g)) (visit_map g) start = Ok it /\
    Drains (bfs_next nb next (vm_visit m (g_s g))) it l /\
    hd_error l = Some start /\ NoDup l /\
    (keep start = true ->
      (forall c, In c l <-> exists n, inside start n c) /\
      forall l1 a l2 b l3 n, l = l1 ++ a :: l2 ++ b :: l3 -> inside start n b ->
        exists k, (k <= n)%nat /\ inside start k a) /\
    (keep start = false -> l = [start]).
Proof. exact (@c117_bfs). Qed.
Print Assumptions C117_bfs.

Theorem C117_dfs :
  forall (A D N E : Type) (m : mode) (s : Shape Cell A D) (G : Geometry A D), Walkable m s G ->
  forall (g : LatticeGraph Cell A D N E) nf ef, Built m s G g nf ef -> forall keep,
  let nb := nf_neighbors keep (neighbors g) in
  let next := nf_neighbors_next keep (neighbors_next m g) in
  let inside := Reached (neighbors g) (neighbors_next m g) (filter keep (geo_nodes G)) in
  forall start, In start (geo_nodes G) ->
  exists l, Drains (dfs_next nb next (vm_visit m (g_s g)) (vm_is_visited m (g_s g)))
      (dfs_new (visit_map g) start) l /\
    hd_error l = Some start /\ NoDup l /\
    (keep start = true -> forall c, In c l <-> exists n, inside start n c) /\
    (keep start = false -> l = [start]).
Proof. exact (@c117_dfs). Qed.
Print Assumptions C117_dfs.

(** [has_path_connecting]: whether a way past the obstacles exists. *)
Theorem C117_path :
  forall (A D N E : Type) (m : mode) (s : Shape Cell A D) (G : Geometry A D), Walkable m s G ->
  forall (g : LatticeGraph Cell A D N E) nf ef, Built m s G g nf ef -> forall keep,
  let nb := nf_neighbors keep (neighbors g) in
  let next := nf_neighbors_next keep (neighbors_next m g) in
  let inside := Reached (neighbors g) (neighbors_next m g) (filter keep (geo_nodes G)) in
  forall from to, In from (geo_nodes G) -> keep from = true ->
  forall eqb : Cell -> Cell -> bool, (forall a b, eqb a b = true <-> a = b) ->
  exists b, has_path_connecting nb next (vm_visit m (g_s g)) (vm_is_visited m (g_s g)) eqb
      (visit_map g) from to = Ok b /\
    (b = true <-> exists n, inside from n to).
Proof. exact (@c117_path). Qed.
Print Assumptions C117_path.

(** A board of 4 x 3 with a wall down its second column, once with a gap and once without; and
    a board for a knight with one square taken out. *)
Definition open_top (c : Cell) : bool := negb (fst c =? 1) || (snd c =? 2).
Definition but_one (c : Cell) : bool := negb (veqb c (2, 1)).

Example C117_case :
  let g := test_board in
  let nb k := nf_neighbors k (neighbors g) in
  let next k := nf_neighbors_next k (neighbors_next Debug g) in
  let bfs k c := let! it := bfs_new (vm_visit Debug (g_s g)) (visit_map g) c in
    collect (bfs_next (nb k) (next k) (vm_visit Debug (g_s g))) 20 it in
  let dfs k c := collect (dfs_next (nb k) (next k) (vm_visit Debug (g_s g))
    (vm_is_visited Debug (g_s g))) 20 (dfs_new (visit_map g) c) in
  let path k a b := has_path_connecting (nb k) (next k) (vm_visit Debug (g_s g))
    (vm_is_visited Debug (g_s g)) veqb (visit_map g) a b in
  let wall := fun c : Cell => negb (fst c =? 1) in
  Walkable Debug test_shape testG /\ Built Debug test_shape testG g test_node test_edge /\
  collect (nf_nodes_next open_top (node_indices_next Debug test_shape)) 20 (node_identifiers g)
    = Ok [(0, 0); (0, 1); (0, 2); (1, 2); (2, 0); (2, 1); (2, 2); (3, 0); (3, 1); (3, 2)] /\
  collect (next open_top (0, 1)) 9 (nb open_top (0, 1)) = Ok [(0, 2); (0, 0)] /\
  collect (next open_top (1, 1)) 9 (nb open_top (1, 1)) = Ok [] /\
  bfs open_top (0, 0)
    = Ok [(0, 0); (0, 1); (0, 2); (1, 2); (2, 2); (3, 2); (2, 1); (3, 1); (2, 0); (3, 0)] /\
  bfs wall (0, 0) = Ok [(0, 0); (0, 1); (0, 2)] /\ bfs wall (1, 1) = Ok [(1, 1)] /\
  dfs open_top (0, 2)
    = Ok [(0, 2); (0, 1); (0, 0); (1, 2); (2, 2); (2, 1); (2, 0); (3, 0); (3, 1); (3, 2)] /\
  path open_top (0, 0) (3, 0) = Ok true /\ path wall (0, 0) (3, 0) = Ok false.
Proof.
  cbv zeta. split; [apply walk_crate, st_supported; exact test_ok|]. split; [exact test_built|].
  vm_compute. auto 20.
Qed.

Example C117_user_case :
  let s := chess 3 3 in let g := demo s Debug in
  let nb := nf_neighbors but_one (neighbors g) in
  let next := nf_neighbors_next but_one (neighbors_next Debug g) in
  Walkable Debug s (contract_geometry s [NE1; NE2; SE2; SE1] GFoward turn (fun x y => (x, y))
    (knight_step 3 3) usize_pair) /\
  (let! it := bfs_new (vm_visit Debug (g_s g)) (visit_map g) (0, 0) in
   collect (bfs_next nb next (vm_visit Debug (g_s g))) 20 it)
    = Ok [(0, 0); (1, 2); (2, 0); (0, 1); (2, 2); (1, 0); (0, 2)].
Proof.
  cbv zeta. split; [|vm_compute; reflexivity].
  eapply walk_user; [|reflexivity]. apply chess_contract; repeat split; vm_compute; congruence.
Qed.

(** ** C118 *)

Theorem C118_edges :
  forall (A D N E : Type) (m : mode) (s : Shape Cell A D) (G : Geometry A D), Sound m s G ->
  forall (g : LatticeGraph Cell A D N E) nf ef, Built m s G g nf ef -> forall keep,
  let target := fun e : EdgeReference Cell E D => Ok (er_target e) in
  forall c it l, In c (geo_nodes G) -> edges m g c = Ok it -> Drains (edges_next m g) it l ->
  exists it', nf_edges keep (edges m g) c = Ok it' /\
    Drains (nf_edges_next keep (edges_next m g) target) it'
      (if keep c then filter (fun e => keep (er_target e)) l else []).
Proof. exact (@c118_edges). Qed.
Print Assumptions C118_edges.

(** [dijkstra]: the least costs of the ways past the obstacles; with a goal, that of the goal.
    The costs of edges that a way past them cannot use do not matter, they may be negative. *)
Theorem C118_dijkstra :
  forall (A D N E : Type) (m : mode) (s : Shape Cell A D) (G : Geometry A D), Sound m s G ->
  forall (g : LatticeGraph Cell A D N E) nf ef, Built m s G g nf ef -> forall keep,
  forall H, HeapOK H -> forall cost start, In start (geo_nodes G) ->
  let target := fun e : EdgeReference Cell E D => Ok (er_target e) in
  let inside := Inside (edges m g) (edges_next m g) target cost keep in
  (forall a e, In a (geo_nodes G) -> EdgeAt (edges m g) (edges_next m g) a e ->
     keep a = true -> keep (er_target e) = true -> 0 <= cost e) ->
  keep start = true -> forall goal,
  exists r,
    Returns (dijkstra_round veqb H (nf_edges keep (edges m g))
        (nf_edges_next keep (edges_next m g) target) target cost
        (vm_visit m (g_s g)) (vm_is_visited m (g_s g)) goal)
      (dijkstra_init veqb H (visit_map g) start) r /\
    (goal = None -> least_ways (inside start) r) /\
    forall b, goal = Some b ->
      match r b with
      | Some x => (exists p, inside start p x b) /\ forall p k, inside start p k b -> x <= k
      | None => forall p k, ~ inside start p k b
      end.
Proof. exact (@c118_dijkstra). Qed.
Print Assumptions C118_dijkstra.

(** From a start that is not kept nothing is reached but the start itself. *)
Theorem C118_blocked :
  forall (A D N E : Type) (m : mode) (s : Shape Cell A D) (G : Geometry A D), Sound m s G ->
  forall (g : LatticeGraph Cell A D N E) nf ef, Built m s G g nf ef -> forall keep,
  forall H, HeapOK H -> forall cost start, In start (geo_nodes G) ->
  let target := fun e : EdgeReference Cell E D => Ok (er_target e) in
  (forall a e, In a (geo_nodes G) -> EdgeAt (edges m g) (edges_next m g) a e ->
     keep a = true -> keep (er_target e) = true -> 0 <= cost e) ->
  keep start = false ->
  exists r,
    Returns (dijkstra_round veqb H (nf_edges keep (edges m g))
        (nf_edges_next keep (edges_next m g) target) target cost
        (vm_visit m (g_s g)) (vm_is_visited m (g_s g)) None)
      (dijkstra_init veqb H (visit_map g) start) r /\
    forall c, r c = if veqb c start then Some 0 else None.
Proof. exact (@c118_blocked). Qed.
Print Assumptions C118_blocked.

(** [astar]: a cheapest way past the obstacles, or none exactly if there is none.  The
    estimates need not exceed what ways past the obstacles cost. *)
Theorem C118_astar :
  forall (A D N E : Type) (m : mode) (s : Shape Cell A D) (G : Geometry A D), Sound m s G ->
  forall (g : LatticeGraph Cell A D N E) nf ef, Built m s G g nf ef -> forall keep,
  forall H, HeapOK H -> forall cost start, In start (geo_nodes G) ->
  let target := fun e : EdgeReference Cell E D => Ok (er_target e) in
  let inside := Inside (edges m g) (edges_next m g) target cost keep in
  (forall a e, In a (geo_nodes G) -> EdgeAt (edges m g) (edges_next m g) a e ->
     keep a = true -> keep (er_target e) = true -> 0 <= cost e) ->
  keep start = true -> forall est goal,
  (forall n, In n (geo_nodes G) -> goal n = true -> 0 <= est n) ->
  (forall n p k c, In n (geo_nodes G) -> goal c = true -> inside n p k c -> est n <= k) ->
  exists r,
    Returns (astar_round veqb H (nf_edges keep (edges m g))
        (nf_edges_next keep (edges_next m g) target) target cost est goal)
      (astar_init veqb H est start) r /\
    cheapest_way (inside start) goal r.
Proof. exact (@c118_astar). Qed.
Print Assumptions C118_astar.

(** The distance of the whole lattice still is such an estimate. *)
Theorem C118_distance :
  forall (A D N E : Type) (m : mode) (s : Shape Cell A D) (G : Geometry A D), Supported s G ->
  forall dist, Distance s G dist ->
  forall (g : LatticeGraph Cell A D N E) nf ef, Built m s G g nf ef ->
  forall H, HeapOK H -> forall keep cost,
  let target := fun e : EdgeReference Cell E D => Ok (er_target e) in
  (forall a e, In a (geo_nodes G) -> EdgeAt (edges m g) (edges_next m g) a e -> 1 <= cost e) ->
  forall start b, In start (geo_nodes G) -> In b (geo_nodes G) -> keep start = true ->
  let est := fun c => dist c b in
  let goal := fun c => veqb c b in
  exists r,
    Returns (astar_round veqb H (nf_edges keep (edges m g))
        (nf_edges_next keep (edges_next m g) target) target cost est goal)
      (astar_init veqb H est start) r /\
    cheapest_way (Inside (edges m g) (edges_next m g) target cost keep start) goal r.
Proof. exact (@c118_distance). Qed.
Print Assumptions C118_distance.

(** The wall again.  The edge from (1, 1) to (1, 2) is given a negative cost: no way uses it. *)
Example C118_case :
  let g := test_board in
  let target := fun e : EdgeReference Cell Z DirectedSquareAxis => Ok (er_target e) in
  let cost := fun e : EdgeReference Cell Z DirectedSquareAxis =>
    if veqb (er_source e) (1, 1) then -5 else 1 in
  let run k c goal := match loop (dijkstra_round veqb list_heap (nf_edges k (edges Debug g))
     (nf_edges_next k (edges_next Debug g) target) target cost
     (vm_visit Debug (g_s g)) (vm_is_visited Debug (g_s g)) goal)
     (dijkstra_init veqb list_heap (visit_map g) c) with
     | Ok r => map r [(0, 0); (1, 1); (1, 2); (2, 0); (3, 0)]
     | Fail _ => [] end in
  let way k a b := loop (astar_round veqb list_heap (nf_edges k (edges Debug g))
     (nf_edges_next k (edges_next Debug g) target) target cost (fun c => taxicab c b)
     (fun c => veqb c b)) (astar_init veqb list_heap (fun c => taxicab c b) a) in
  Sound Debug test_shape testG /\ Built Debug test_shape testG g test_node test_edge /\
  HeapOK (list_heap (C := Cell)) /\ Distance test_shape testG taxicab /\
  run open_top (0, 0) None = [Some 0; None; Some 3; Some 6; Some 7] /\
  run open_top (1, 1) None = [None; Some 0; None; None; None] /\
  way open_top (0, 0) (2, 0)
    = Ok (Some (6, [(0, 0); (0, 1); (0, 2); (1, 2); (2, 2); (2, 1); (2, 0)])) /\
  way (fun c => negb (fst c =? 1)) (0, 0) (2, 0) = Ok None.
Proof.
  cbv zeta. split; [apply sound_crate; exact test_ok|]. split; [exact test_built|].
  split; [apply list_heap_ok|]. split; [exact (dist_square 4 3)|].
  vm_compute. auto 20.
Qed.

(** ** C119 *)

(** What the view shows: the edges that pass, and their targets as neighbours. *)
Theorem C119_lists :
  forall (A D N E : Type) (m : mode) (s : Shape Cell A D) (G : Geometry A D), Sound m s G ->
  forall (g : LatticeGraph Cell A D N E) nf ef, Built m s G g nf ef -> forall pass,
  let target := fun e : EdgeReference Cell E D => Ok (er_target e) in
  forall c it l, In c (geo_nodes G) -> edges m g c = Ok it -> Drains (edges_next m g) it l ->
  Drains (ef_edges_next pass (edges_next m g)) it (filter pass l) /\
  Drains (ef_neighbors_next pass (edges_next m g) target c) (ef_neighbors (edges m g) c)
    (map er_target (filter pass l)).
Proof. exact (@c119_lists). Qed.
Print Assumptions C119_lists.

Theorem C119_bfs :
  forall (A D N E : Type) (m : mode) (s : Shape Cell A D) (G : Geometry A D), Sound m s G ->
  forall (g : LatticeGraph Cell A D N E) nf ef, Built m s G g nf ef -> forall pass cost,
  let target := fun e : EdgeReference Cell E D => Ok (er_target e) in
  let over := Along (edges m g) (edges_next m g) target cost pass in
  forall start, In start (geo_nodes G) ->
  exists it l, bfs_new (vm_visit m (g_s g)) (visit_map g) start = Ok it /\
    Drains (bfs_next (ef_neighbors (edges m g)) (ef_neighbors_next pass (edges_next m g) target)
      (vm_visit m (g_s g))) it l /\
    hd_error l = Some start /\ NoDup l /\
    (forall c, In c l <-> exists p k, over start p k c) /\
    forall l1 a l2 b l3 p k, l = l1 ++ a :: l2 ++ b :: l3 -> over start p k b ->
      exists p' k', (length p' <= length p)%nat /\ over start p' k' a.
Proof. exact (@c119_bfs). Qed.
Print Assumptions C119_bfs.

Theorem C119_dfs :
  forall (A D N E : Type) (m : mode) (s : Shape Cell A D) (G : Geometry A D), Sound m s G ->
  forall (g : LatticeGraph Cell A D N E) nf ef, Built m s G g nf ef -> forall pass cost,
  let target := fun e : EdgeReference Cell E D => Ok (er_target e) in
  let over := Along (edges m g) (edges_next m g) target cost pass in
  forall start, In start (geo_nodes G) ->
  exists l, Drains (dfs_next (ef_neighbors (edges m g))
      (ef_neighbors_next pass (edges_next m g) target) (vm_visit m (g_s g))
      (vm_is_visited m (g_s g))) (dfs_new (visit_map g) start) l /\
    hd_error l = Some start /\ NoDup l /\
    (forall c, In c l <-> exists p k, over start p k c).
Proof. exact (@c119_dfs). Qed.
Print Assumptions C119_dfs.

Theorem C119_dijkstra :
  forall (A D N E : Type) (m : mode) (s : Shape Cell A D) (G : Geometry A D), Sound m s G ->
  forall (g : LatticeGraph Cell A D N E) nf ef, Built m s G g nf ef -> forall pass cost,
  let target := fun e : EdgeReference Cell E D => Ok (er_target e) in
  let over := Along (edges m g) (edges_next m g) target cost pass in
  forall H, HeapOK H -> forall start, In start (geo_nodes G) ->
  (forall a e, In a (geo_nodes G) -> EdgeAt (edges m g) (edges_next m g) a e ->
     pass e = true -> 0 <= cost e) ->
  forall goal,
  exists r,
    Returns (dijkstra_round veqb H (edges m g) (ef_edges_next pass (edges_next m g)) target cost
        (vm_visit m (g_s g)) (vm_is_visited m (g_s g)) goal)
      (dijkstra_init veqb H (visit_map g) start) r /\
    (goal = None -> least_ways (over start) r) /\
    forall b, goal = Some b ->
      match r b with
      | Some x => (exists p, over start p x b) /\ forall p k, over start p k b -> x <= k
      | None => forall p k, ~ over start p k b
      end.
Proof. exact (@c119_dijkstra). Qed.
Print Assumptions C119_dijkstra.

Theorem C119_astar :
  forall (A D N E : Type) (m : mode) (s : Shape Cell A D) (G : Geometry A D), Sound m s G ->
  forall (g : LatticeGraph Cell A D N E) nf ef, Built m s G g nf ef -> forall pass cost,
  let target := fun e : EdgeReference Cell E D => Ok (er_target e) in
  let over := Along (edges m g) (edges_next m g) target cost pass in
  forall H, HeapOK H -> forall start, In start (geo_nodes G) ->
  (forall a e, In a (geo_nodes G) -> EdgeAt (edges m g) (edges_next m g) a e ->
     pass e = true -> 0 <= cost e) ->
  forall est goal,
  (forall n, In n (geo_nodes G) -> goal n = true -> 0 <= est n) ->
  (forall n p k c, In n (geo_nodes G) -> goal c = true -> over n p k c -> est n <= k) ->
  exists r,
    Returns (astar_round veqb H (edges m g) (ef_edges_next pass (edges_next m g)) target cost
      est goal) (astar_init veqb H est start) r /\
    cheapest_way (over start) goal r.
Proof. exact (@c119_astar). Qed.
Print Assumptions C119_astar.

(** On an undirected graph, edges that are chosen by their weights leave the view undirected:
    what leads there also leads back, for the same price. *)
Theorem C119_back :
  forall (A D N E : Type) (m : mode) (s : Shape Cell A D) (G : Geometry A D), Sound m s G ->
  forall (g : LatticeGraph Cell A D N E) nf ef, Built m s G g nf ef ->
  forall (ok : E -> bool) (price : E -> Z), ag_directed (geo_ax G) = false ->
  let target := fun e : EdgeReference Cell E D => Ok (er_target e) in
  let over := Along (edges m g) (edges_next m g) target
    (fun e => price (er_weight e)) (fun e => ok (er_weight e)) in
  forall a p k b, In a (geo_nodes G) -> over a p k b -> over b (rev p) k a.
Proof. exact (@c119_back). Qed.
Print Assumptions C119_back.

(** Chosen by their ids they do not: to leave out the edge of an id closes the way along the
    axis and leaves the way back open. *)
Theorem C119_id_refuted :
  forall (A D N E : Type) (m : mode) (s : Shape Cell A D) (G : Geometry A D), Supported s G ->
  ag_directed (geo_ax G) = false ->
  forall (g : LatticeGraph Cell A D N E) nf ef, Built m s G g nf ef ->
  forall c a t, In c (geo_nodes G) -> geo_step G c (ag_fwd (geo_ax G) a) = Some t -> t <> c ->
  forall pass, (forall e, pass e = false <-> er_id m s e = Ok (c, a)) ->
  exists e e',
    EdgeAt (edges m g) (edges_next m g) c e /\ er_target e = t /\ er_id m s e = Ok (c, a) /\
    pass e = false /\
    EdgeAt (edges m g) (edges_next m g) t e' /\ er_target e' = c /\ er_weight e' = er_weight e /\
    pass e' = true.
Proof. exact (@c119_id). Qed.
Print Assumptions C119_id_refuted.

(** Only edges of weight up to 2 pass; and the edge from (0, 0) to (1, 0) left out by its id:
    (1, 0) is still one step from (0, 0) on the way back, and (0, 0) three from it. *)
Example C119_case :
  let g := test_board in
  let target := fun e : EdgeReference Cell Z DirectedSquareAxis => Ok (er_target e) in
  let light := fun e : EdgeReference Cell Z DirectedSquareAxis => er_weight e <=? 2 in
  let no_id := fun e : EdgeReference Cell Z DirectedSquareAxis =>
    match er_id Debug test_shape e with
    | Ok (c, SX) => negb (veqb c (0, 0)) | _ => true end in
  let bfs pass c := let! it := bfs_new (vm_visit Debug (g_s g)) (visit_map g) c in
    collect (bfs_next (ef_neighbors (edges Debug g))
      (ef_neighbors_next pass (edges_next Debug g) target) (vm_visit Debug (g_s g))) 20 it in
  let run pass c := match loop (dijkstra_round veqb list_heap (edges Debug g)
     (ef_edges_next pass (edges_next Debug g)) target (fun _ => 1)
     (vm_visit Debug (g_s g)) (vm_is_visited Debug (g_s g)) None)
     (dijkstra_init veqb list_heap (visit_map g) c) with
     | Ok r => map r [(0, 0); (1, 0); (0, 1); (3, 0)]
     | Fail _ => [] end in
  Sound Debug test_shape testG /\ Built Debug test_shape testG g test_node test_edge /\
  HeapOK (list_heap (C := Cell)) /\ ag_directed (geo_ax testG) = false /\
  bfs light (0, 1) = Ok [(0, 1); (1, 1); (0, 0); (1, 0); (2, 0); (3, 0)] /\
  run light (3, 0) = [Some 3; Some 2; Some 4; Some 0] /\
  run no_id (0, 0) = [Some 0; Some 3; Some 1; Some 5] /\
  run no_id (1, 0) = [Some 1; Some 0; Some 2; Some 2].
Proof.
  cbv zeta. split; [apply sound_crate; exact test_ok|]. split; [exact test_built|].
  split; [apply list_heap_ok|]. split; [reflexivity|].
  vm_compute. auto 20.
Qed.

(** ** C120: the same for [SquareGraph], nodes *)

Theorem C120_nodes :
  forall (N E : Type) (ix : IxType) (S : LoopShape) (m : mode) (h v : Z),
  sq_size S h v -> sq_index_fits ix h v ->
  forall (g : SquareGraph N E ix S) nf ef, SqBuilt m h v g nf ef -> forall keep, 1 <= v ->
  Drains (nf_nodes_next keep (sg_node_indices_next (ix := ix) m)) (sg_node_identifiers g)
    (filter keep (sq_nodes h v)).
Proof. exact (@c120_nodes). Qed.
Print Assumptions C120_nodes.

Theorem C120_neighbors :
  forall (N E : Type) (ix : IxType) (S : LoopShape) (m : mode) (h v : Z),
  sq_size S h v -> sq_index_fits ix h v ->
  forall (g : SquareGraph N E ix S) nf ef, SqBuilt m h v g nf ef -> forall keep,
  let next := fun _ : NodeIndex => sg_neighbors_next (ix := ix) (S := S) m in
  forall n l, on_board h v n -> Drains (next n) (sg_neighbors g n) l ->
  Drains (nf_neighbors_next keep next n) (nf_neighbors keep (sg_neighbors g) n)
    (if keep n then filter keep l else []).
Proof. exact (@c120_neighbors). Qed.
Print Assumptions C120_neighbors.

Theorem C120_edges :
  forall (N E : Type) (ix : IxType) (S : LoopShape) (m : mode) (h v : Z),
  sq_size S h v -> sq_index_fits ix h v ->
  forall (g : SquareGraph N E ix S) nf ef, SqBuilt m h v g nf ef -> forall keep,
  let edges := fun n => Ok (sg_edges g n) in
  let target := sr_target (ix := ix) (S := S) m in
  forall n l, on_board h v n -> Drains (sg_edges_next m g) (sg_edges g n) l ->
  exists it, nf_edges keep edges n = Ok it /\
    Drains (nf_edges_next keep (sg_edges_next m g) target) it (if keep n then
      filter (fun e => match target e with Ok t => keep t | Fail _ => false end) l else []).
Proof. exact (@c120_edges). Qed.
Print Assumptions C120_edges.

Theorem C120_bfs :
  forall (N E : Type) (ix : IxType) (S : LoopShape) (m : mode) (h v : Z),
  sq_size S h v -> sq_index_fits ix h v ->
  forall (g : SquareGraph N E ix S) nf ef, SqBuilt m h v g nf ef -> forall keep,
  let next := fun _ : NodeIndex => sg_neighbors_next (ix := ix) (S := S) m in
  let inside := Reached (sg_neighbors g) next (filter keep (sq_nodes h v)) in
  forall start, on_board h v start ->
  exists it l, bfs_new svm_visit (sg_visit_map g) start = Ok it /\
    Drains (bfs_next (nf_neighbors keep (sg_neighbors g)) (nf_neighbors_next keep next)
      svm_visit) it l /\
    hd_error l = Some start /\ NoDup l /\
    (keep start = true ->
      (forall c, In c l <-> exists n, inside start n c) /\
      forall l1 a l2 b l3 n, l = l1 ++ a :: l2 ++ b :: l3 -> inside start n b ->
        exists k, (k <= n)%nat /\ inside start k a) /\
    (keep start = false -> l = [start]).
Proof. exact (@c120_bfs). Qed.
Print Assumptions C120_bfs.

Theorem C120_dfs :
  forall (N E : Type) (ix : IxType) (S : LoopShape) (m : mode) (h v : Z),
  sq_size S h v -> sq_index_fits ix h v ->
  forall (g : SquareGraph N E ix S) nf ef, SqBuilt m h v g nf ef -> forall keep,
  let next := fun _ : NodeIndex => sg_neighbors_next (ix := ix) (S := S) m in
  let inside := Reached (sg_neighbors g) next (filter keep (sq_nodes h v)) in
  forall start, on_board h v start ->
  exists l, Drains (dfs_next (nf_neighbors keep (sg_neighbors g)) (nf_neighbors_next keep next)
      svm_visit svm_is_visited) (dfs_new (sg_visit_map g) start) l /\
    hd_error l = Some start /\ NoDup l /\
    (keep start = true -> forall c, In c l <-> exists n, inside start n c) /\
    (keep start = false -> l = [start]).
Proof. exact (@c120_dfs). Qed.
Print Assumptions C120_dfs.

Theorem C120_path :
  forall (N E : Type) (ix : IxType) (S : LoopShape) (m : mode) (h v : Z),
  sq_size S h v -> sq_index_fits ix h v ->
  forall (g : SquareGraph N E ix S) nf ef, SqBuilt m h v g nf ef -> forall keep,
  let next := fun _ : NodeIndex => sg_neighbors_next (ix := ix) (S := S) m in
  let inside := Reached (sg_neighbors g) next (filter keep (sq_nodes h v)) in
  forall from to, on_board h v from -> keep from = true ->
  forall eqb : NodeIndex -> NodeIndex -> bool, (forall a b, eqb a b = true <-> a = b) ->
  exists b, has_path_connecting (nf_neighbors keep (sg_neighbors g)) (nf_neighbors_next keep next)
      svm_visit svm_is_visited eqb (sg_visit_map g) from to = Ok b /\
    (b = true <-> exists n, inside from n to).
Proof. exact (@c120_path). Qed.
Print Assumptions C120_path.

Theorem C120_dijkstra :
  forall (N E : Type) (ix : IxType) (S : LoopShape) (m : mode) (h v : Z),
  sq_size S h v -> sq_index_fits ix h v ->
  forall (g : SquareGraph N E ix S) nf ef, SqBuilt m h v g nf ef -> forall keep,
  forall H, HeapOK H -> forall cost start, on_board h v start ->
  let edges := fun n => Ok (sg_edges g n) in
  let target := sr_target (ix := ix) (S := S) m in
  let inside := Inside edges (sg_edges_next m g) target cost keep in
  (forall a e t, on_board h v a -> EdgeAt edges (sg_edges_next m g) a e -> target e = Ok t ->
     keep a = true -> keep t = true -> 0 <= cost e) ->
  keep start = true -> forall goal,
  exists r,
    Returns (dijkstra_round veqb H (nf_edges keep edges)
        (nf_edges_next keep (sg_edges_next m g) target) target cost svm_visit svm_is_visited goal)
      (dijkstra_init veqb H (sg_visit_map g) start) r /\
    (goal = None -> least_ways (inside start) r) /\
    forall b, goal = Some b ->
      match r b with
      | Some x => (exists p, inside start p x b) /\ forall p k, inside start p k b -> x <= k
      | None => forall p k, ~ inside start p k b
      end.
Proof. exact (@c120_dijkstra). Qed.
Print Assumptions C120_dijkstra.

Theorem C120_blocked :
  forall (N E : Type) (ix : IxType) (S : LoopShape) (m : mode) (h v : Z),
  sq_size S h v -> sq_index_fits ix h v ->
  forall (g : SquareGraph N E ix S) nf ef, SqBuilt m h v g nf ef -> forall keep,
  forall H, HeapOK H -> forall cost start, on_board h v start ->
  let edges := fun n => Ok (sg_edges g n) in
  let target := sr_target (ix := ix) (S := S) m in
  (forall a e t, on_board h v a -> EdgeAt edges (sg_edges_next m g) a e -> target e = Ok t ->
     keep a = true -> keep t = true -> 0 <= cost e) ->
  keep start = false ->
  exists r,
    Returns (dijkstra_round veqb H (nf_edges keep edges)
        (nf_edges_next keep (sg_edges_next m g) target) target cost svm_visit svm_is_visited None)
      (dijkstra_init veqb H (sg_visit_map g) start) r /\
    forall c, r c = if veqb c start then Some 0 else None.
Proof. exact (@c120_blocked). Qed.
Print Assumptions C120_blocked.

Theorem C120_astar :
  forall (N E : Type) (ix : IxType) (S : LoopShape) (m : mode) (h v : Z),
  sq_size S h v -> sq_index_fits ix h v ->
  forall (g : SquareGraph N E ix S) nf ef, SqBuilt m h v g nf ef -> forall keep,
  forall H, HeapOK H -> forall cost start, on_board h v start ->
  let edges := fun n => Ok (sg_edges g n) in
  let target := sr_target (ix := ix) (S := S) m in
  let inside := Inside edges (sg_edges_next m g) target cost keep in
  (forall a e t, on_board h v a -> EdgeAt edges (sg_edges_next m g) a e -> target e = Ok t ->
     keep a = true -> keep t = true -> 0 <= cost e) ->
  keep start = true -> forall est goal,
  (forall n, on_board h v n -> goal n = true -> 0 <= est n) ->
  (forall n p k c, on_board h v n -> goal c = true -> inside n p k c -> est n <= k) ->
  exists r,
    Returns (astar_round veqb H (nf_edges keep edges)
        (nf_edges_next keep (sg_edges_next m g) target) target cost est goal)
      (astar_init veqb H est start) r /\
    cheapest_way (inside start) goal r.
Proof. exact (@c120_astar). Qed.
Print Assumptions C120_astar.

(** Estimates up to the distance on the board without obstacles. *)
Theorem C120_distance :
  forall (N E : Type) (ix : IxType) (S : LoopShape) (m : mode) (h v : Z),
  sq_size S h v -> sq_index_fits ix h v ->
  forall (g : SquareGraph N E ix S) nf ef, SqBuilt m h v g nf ef ->
  forall H, HeapOK H -> forall keep cost,
  let edges := fun n => Ok (sg_edges g n) in
  let target := sr_target (ix := ix) (S := S) m in
  (forall a e, on_board h v a -> EdgeAt edges (sg_edges_next m g) a e -> 1 <= cost e) ->
  forall start b, on_board h v start -> on_board h v b -> keep start = true ->
  forall est, (forall c, on_board h v c -> est c <= sq_distance S h v c b) -> 0 <= est b ->
  let goal := fun c => veqb c b in
  exists r,
    Returns (astar_round veqb H (nf_edges keep edges)
        (nf_edges_next keep (sg_edges_next m g) target) target cost est goal)
      (astar_init veqb H est start) r /\
    cheapest_way (Inside edges (sg_edges_next m g) target cost keep start) goal r.
Proof. exact (@c120_distance). Qed.
Print Assumptions C120_distance.

(** The ring of six with one node taken out. *)
Example C120_case :
  let g := ring Debug in
  let next := fun _ : NodeIndex => sg_neighbors_next (ix := IxU32) (S := HorizontalLoop) Debug in
  let edges := fun n => Ok (sg_edges g n) in
  let target := sr_target (ix := IxU32) (S := HorizontalLoop) Debug in
  let keep := fun n => negb (veqb n (2, 0)) in
  let bfs c := let! it := bfs_new svm_visit (sg_visit_map g) c in
    collect (bfs_next (nf_neighbors keep (sg_neighbors g)) (nf_neighbors_next keep next)
      svm_visit) 20 it in
  let run c := match loop (dijkstra_round veqb list_heap (nf_edges keep edges)
     (nf_edges_next keep (sg_edges_next Debug g) target) target (fun _ => 1)
     svm_visit svm_is_visited None) (dijkstra_init veqb list_heap (sg_visit_map g) c) with
     | Ok r => map r [(0, 0); (1, 0); (2, 0); (3, 0); (4, 0); (5, 0)]
     | Fail _ => [] end in
  sq_size HorizontalLoop 6 1 /\ sq_index_fits IxU32 6 1 /\
  SqBuilt Debug 6 1 g sq_node sq_edge /\ on_board 6 1 (1, 0) /\
  HeapOK (list_heap (C := NodeIndex)) /\
  collect (nf_nodes_next keep (sg_node_indices_next (ix := IxU32) Debug)) 20 (sg_node_identifiers g)
    = Ok [(0, 0); (1, 0); (3, 0); (4, 0); (5, 0)] /\
  bfs (1, 0) = Ok [(1, 0); (0, 0); (5, 0); (4, 0); (3, 0)] /\ bfs (2, 0) = Ok [(2, 0)] /\
  run (1, 0) = [Some 1; Some 0; None; Some 4; Some 3; Some 2] /\
  run (2, 0) = [None; None; Some 0; None; None; None].
Proof.
  cbv zeta. assert (SZ : sq_size HorizontalLoop 6 1) by sq_size.
  split; [exact SZ|]. split; [index_fits|]. split; [apply sqd_built; exact SZ|].
  split; [unfold SpecSquare.on_board; cbn; lia|]. split; [apply list_heap_ok|].
  vm_compute. auto 20.
Qed.

(** ** C121: the same for [SquareGraph], edges *)

Theorem C121_lists :
  forall (N E : Type) (ix : IxType) (S : LoopShape) (m : mode) (h v : Z),
  sq_size S h v -> sq_index_fits ix h v ->
  forall (g : SquareGraph N E ix S) nf ef, SqBuilt m h v g nf ef -> forall pass,
  let edges := fun n => Ok (sg_edges g n) in
  let target := sr_target (ix := ix) (S := S) m in
  forall n l, on_board h v n -> Drains (sg_edges_next m g) (sg_edges g n) l ->
  Drains (ef_edges_next pass (sg_edges_next m g)) (sg_edges g n) (filter pass l) /\
  exists lt, map target (filter pass l) = map Ok lt /\
    Drains (ef_neighbors_next pass (sg_edges_next m g) target n) (ef_neighbors edges n) lt.
Proof. exact (@c121_lists). Qed.
Print Assumptions C121_lists.

Theorem C121_bfs :
  forall (N E : Type) (ix : IxType) (S : LoopShape) (m : mode) (h v : Z),
  sq_size S h v -> sq_index_fits ix h v ->
  forall (g : SquareGraph N E ix S) nf ef, SqBuilt m h v g nf ef -> forall pass cost,
  let edges := fun n => Ok (sg_edges g n) in
  let target := sr_target (ix := ix) (S := S) m in
  let over := Along edges (sg_edges_next m g) target cost pass in
  forall start, on_board h v start ->
  exists it l, bfs_new svm_visit (sg_visit_map g) start = Ok it /\
    Drains (bfs_next (ef_neighbors edges) (ef_neighbors_next pass (sg_edges_next m g) target)
      svm_visit) it l /\
    hd_error l = Some start /\ NoDup l /\
    (forall c, In c l <-> exists p k, over start p k c) /\
    forall l1 a l2 b l3 p k, l = l1 ++ a :: l2 ++ b :: l3 -> over start p k b ->
      exists p' k', (length p' <= length p)%nat /\ over start p' k' a.
Proof. exact (@c121_bfs). Qed.
Print Assumptions C121_bfs.

Theorem C121_dfs :
  forall (N E : Type) (ix : IxType) (S : LoopShape) (m : mode) (h v : Z),
  sq_size S h v -> sq_index_fits ix h v ->
  forall (g : SquareGraph N E ix S) nf ef, SqBuilt m h v g nf ef -> forall pass cost,
  let edges := fun n => Ok (sg_edges g n) in
  let target := sr_target (ix := ix) (S := S) m in
  let over := Along edges (sg_edges_next m g) target cost pass in
  forall start, on_board h v start ->
  exists l, Drains (dfs_next (ef_neighbors edges)
      (ef_neighbors_next pass (sg_edges_next m g) target) svm_visit svm_is_visited)
      (dfs_new (sg_visit_map g) start) l /\
    hd_error l = Some start /\ NoDup l /\
    (forall c, In c l <-> exists p k, over start p k c).
Proof. exact (@c121_dfs). Qed.
Print Assumptions C121_dfs.

Theorem C121_dijkstra :
  forall (N E : Type) (ix : IxType) (S : LoopShape) (m : mode) (h v : Z),
  sq_size S h v -> sq_index_fits ix h v ->
  forall (g : SquareGraph N E ix S) nf ef, SqBuilt m h v g nf ef -> forall pass cost,
  let edges := fun n => Ok (sg_edges g n) in
  let target := sr_target (ix := ix) (S := S) m in
  let over := Along edges (sg_edges_next m g) target cost pass in
  forall H, HeapOK H -> forall start, on_board h v start ->
  (forall a e, on_board h v a -> EdgeAt edges (sg_edges_next m g) a e -> pass e = true ->
     0 <= cost e) ->
  forall goal,
  exists r,
    Returns (dijkstra_round veqb H edges (ef_edges_next pass (sg_edges_next m g)) target cost
        svm_visit svm_is_visited goal)
      (dijkstra_init veqb H (sg_visit_map g) start) r /\
    (goal = None -> least_ways (over start) r) /\
    forall b, goal = Some b ->
      match r b with
      | Some x => (exists p, over start p x b) /\ forall p k, over start p k b -> x <= k
      | None => forall p k, ~ over start p k b
      end.
Proof. exact (@c121_dijkstra). Qed.
Print Assumptions C121_dijkstra.

Theorem C121_astar :
  forall (N E : Type) (ix : IxType) (S : LoopShape) (m : mode) (h v : Z),
  sq_size S h v -> sq_index_fits ix h v ->
  forall (g : SquareGraph N E ix S) nf ef, SqBuilt m h v g nf ef -> forall pass cost,
  let edges := fun n => Ok (sg_edges g n) in
  let target := sr_target (ix := ix) (S := S) m in
  let over := Along edges (sg_edges_next m g) target cost pass in
  forall H, HeapOK H -> forall start, on_board h v start ->
  (forall a e, on_board h v a -> EdgeAt edges (sg_edges_next m g) a e -> pass e = true ->
     0 <= cost e) ->
  forall est goal,
  (forall n, on_board h v n -> goal n = true -> 0 <= est n) ->
  (forall n p k c, on_board h v n -> goal c = true -> over n p k c -> est n <= k) ->
  exists r,
    Returns (astar_round veqb H edges (ef_edges_next pass (sg_edges_next m g)) target cost est goal)
      (astar_init veqb H est start) r /\
    cheapest_way (over start) goal r.
Proof. exact (@c121_astar). Qed.
Print Assumptions C121_astar.

(** Chosen by their ids and weights the edges leave the view undirected. *)
Theorem C121_back :
  forall (N E : Type) (ix : IxType) (S : LoopShape) (m : mode) (h v : Z),
  sq_size S h v -> sq_index_fits ix h v ->
  forall (g : SquareGraph N E ix S) nf ef, SqBuilt m h v g nf ef ->
  forall (ok : EdgeIndex -> E -> bool) (price : EdgeIndex -> E -> Z),
  let edges := fun n => Ok (sg_edges g n) in
  let target := sr_target (ix := ix) (S := S) m in
  let over := Along edges (sg_edges_next m g) target
    (fun e => price (sr_id e) (sr_weight e)) (fun e => ok (sr_id e) (sr_weight e)) in
  forall a p k b, on_board h v a -> over a p k b -> over b (rev p) k a.
Proof. exact (@c121_back). Qed.
Print Assumptions C121_back.

(** The ring with the edge between (5, 0) and (0, 0) left out by its id. *)
Example C121_case :
  let g := ring Debug in
  let edges := fun n => Ok (sg_edges g n) in
  let target := sr_target (ix := IxU32) (S := HorizontalLoop) Debug in
  let pass := fun e : SqEdgeReference Z => negb (veqb (fst (sr_id e)) (5, 0)) in
  let bfs c := let! it := bfs_new svm_visit (sg_visit_map g) c in
    collect (bfs_next (ef_neighbors edges) (ef_neighbors_next pass (sg_edges_next Debug g) target)
      svm_visit) 20 it in
  let run c := match loop (dijkstra_round veqb list_heap edges
     (ef_edges_next pass (sg_edges_next Debug g)) target (fun _ => 1)
     svm_visit svm_is_visited None) (dijkstra_init veqb list_heap (sg_visit_map g) c) with
     | Ok r => map r [(0, 0); (1, 0); (2, 0); (3, 0); (4, 0); (5, 0)]
     | Fail _ => [] end in
  sq_size HorizontalLoop 6 1 /\ sq_index_fits IxU32 6 1 /\
  SqBuilt Debug 6 1 g sq_node sq_edge /\ on_board 6 1 (1, 0) /\
  HeapOK (list_heap (C := NodeIndex)) /\
  bfs (1, 0) = Ok [(1, 0); (0, 0); (2, 0); (3, 0); (4, 0); (5, 0)] /\
  run (0, 0) = [Some 0; Some 1; Some 2; Some 3; Some 4; Some 5] /\
  run (5, 0) = [Some 5; Some 4; Some 3; Some 2; Some 1; Some 0].
Proof.
  cbv zeta. assert (SZ : sq_size HorizontalLoop 6 1) by sq_size.
  split; [exact SZ|]. split; [index_fits|]. split; [apply sqd_built; exact SZ|].
  split; [unfold SpecSquare.on_board; cbn; lia|]. split; [apply list_heap_ok|].
  vm_compute. auto 20.
Qed.
