(** * Properties10: the costs of all cheapest paths (C80, C81).

    [dijkstra_init], [dijkstra_round]: petgraph's [dijkstra] over the graph's own [edges] and
    visit map (Dijkstra.v); [Returns body s r]: the loop [body], started in [s], ends without a
    fault and gives [r]; [HeapOK H]: [H] is a priority queue, whatever it does with equal scores
    (Astar.v).  [EdgeAt]: an edge is among the [edges] of a node; [Route a p k b]: the nodes [p]
    lead from [a] to [b] along edges that cost [k] together (Spec4.v); [LeastCost a b k]: some
    route from [a] to [b] costs [k] and none costs less (Spec6.v). *)

From Verif Require Import Machine Store Axes Shapes Lattice SquareGraph Traverse Astar Dijkstra Spec
  SpecSquare Spec4 Spec6 DijkstraMain Demo SquareDemo AstarDemo.

(** ** C80 *)

(** Without a goal: the search ends, and the map it gives has exactly the cells of the board,
    each with the least cost of getting there. *)
Theorem C80_all :
  forall (A D N E : Type) (m : mode) (s : Shape Cell A D) (G : Geometry A D), Supported s G ->
  forall (g : LatticeGraph Cell A D N E) nf ef, Built m s G g nf ef ->
  forall H, HeapOK H -> forall cost,
  let target := fun e : EdgeReference Cell E D => Ok (er_target e) in
  (forall a e, In a (geo_nodes G) -> EdgeAt (edges m g) (edges_next m g) a e -> 0 <= cost e) ->
  forall start, In start (geo_nodes G) ->
  exists r,
    Returns (dijkstra_round veqb H (edges m g) (edges_next m g) target cost
      (vm_visit m (g_s g)) (vm_is_visited m (g_s g)) None)
      (dijkstra_init veqb H (visit_map g) start) r /\
    forall c, match r c with
              | Some x => In c (geo_nodes G) /\
                  LeastCost (edges m g) (edges_next m g) target cost start c x
              | None => ~ In c (geo_nodes G)
              end.
Proof. exact (@c80_all). Qed.
Print Assumptions C80_all.

(** With a goal: the goal gets its least cost, and so does every cell that is nearer than it;
    other costs in the map are those of routes.  (The goal may be no node: then every cell is
    nearer.) *)
Theorem C80_goal :
  forall (A D N E : Type) (m : mode) (s : Shape Cell A D) (G : Geometry A D), Supported s G ->
  forall (g : LatticeGraph Cell A D N E) nf ef, Built m s G g nf ef ->
  forall H, HeapOK H -> forall cost,
  let target := fun e : EdgeReference Cell E D => Ok (er_target e) in
  let least := LeastCost (edges m g) (edges_next m g) target cost in
  (forall a e, In a (geo_nodes G) -> EdgeAt (edges m g) (edges_next m g) a e -> 0 <= cost e) ->
  forall start b, In start (geo_nodes G) ->
  exists r,
    Returns (dijkstra_round veqb H (edges m g) (edges_next m g) target cost
      (vm_visit m (g_s g)) (vm_is_visited m (g_s g)) (Some b))
      (dijkstra_init veqb H (visit_map g) start) r /\
    (forall c x, r c = Some x -> In c (geo_nodes G) /\
       exists p, Route (edges m g) (edges_next m g) target cost start p x c) /\
    (In b (geo_nodes G) -> exists x, r b = Some x /\ least start b x) /\
    (forall c x, least start c x -> (forall y, least start b y -> x < y) -> r c = Some x).
Proof. exact (@c80_goal). Qed.
Print Assumptions C80_goal.

(** When every step costs one, the map holds the distance of the lattice. *)
Theorem C80_distance :
  forall (A D N E : Type) (m : mode) (s : Shape Cell A D) (G : Geometry A D), Supported s G ->
  forall (g : LatticeGraph Cell A D N E) nf ef, Built m s G g nf ef ->
  forall H, HeapOK H -> forall cost,
  let target := fun e : EdgeReference Cell E D => Ok (er_target e) in
  forall dist, Distance s G dist ->
  (forall a e, In a (geo_nodes G) -> EdgeAt (edges m g) (edges_next m g) a e -> cost e = 1) ->
  forall start, In start (geo_nodes G) ->
  exists r,
    Returns (dijkstra_round veqb H (edges m g) (edges_next m g) target cost
      (vm_visit m (g_s g)) (vm_is_visited m (g_s g)) None)
      (dijkstra_init veqb H (visit_map g) start) r /\
    forall c, r c = if existsb (veqb c) (geo_nodes G) then Some (dist start c) else None.
Proof. exact (@c80_distance). Qed.
Print Assumptions C80_distance.

(** The board of the repository's test, with its weights as costs; once to the end and once
    from (3, 2) to the goal (1, 2). *)
Example C80_case :
  Supported test_shape testG /\ Built Debug test_shape testG test_board test_node test_edge /\
  HeapOK (list_heap (C := Cell)) /\ Distance test_shape testG taxicab /\
  In (0, 0) (geo_nodes testG) /\
  (let run a b := match loop (dijkstra_round veqb list_heap (edges Debug test_board)
     (edges_next Debug test_board) (fun e => Ok (er_target e)) er_weight
     (vm_visit Debug (g_s test_board)) (vm_is_visited Debug (g_s test_board)) b)
     (dijkstra_init veqb list_heap (visit_map test_board) a) with
     | Ok r => map r [(0, 0); (1, 0); (0, 1); (2, 1); (3, 2); (4, 0)]
     | Fail _ => [] end in
   run (0, 0) None = [Some 0; Some 0; Some 0; Some 5; Some 21; None] /\
   run (3, 2) (Some (1, 2)) = [None; None; None; Some 18; Some 0; None]).
Proof.
  split; [exact test_ok|]. split; [exact test_built|]. split; [apply list_heap_ok|].
  split; [exact (dist_square 4 3)|]. split; [vm_compute; tauto|].
  split; vm_compute; reflexivity.
Qed.

(** ** C81 *)

Theorem C81_all :
  forall (N E : Type) (ix : IxType) (S : LoopShape) (m : mode) (h v : Z),
  sq_size S h v -> sq_index_fits ix h v ->
  forall (g : SquareGraph N E ix S) nf ef, SqBuilt m h v g nf ef ->
  forall H, HeapOK H -> forall cost,
  let edges := fun n => Ok (sg_edges g n) in
  let target := sr_target (ix := ix) (S := S) m in
  (forall a e, on_board h v a -> EdgeAt edges (sg_edges_next m g) a e -> 0 <= cost e) ->
  forall start, on_board h v start ->
  exists r,
    Returns (dijkstra_round veqb H edges (sg_edges_next m g) target cost svm_visit svm_is_visited
      None) (dijkstra_init veqb H (sg_visit_map g) start) r /\
    forall c, match r c with
              | Some x => on_board h v c /\
                  LeastCost edges (sg_edges_next m g) target cost start c x
              | None => ~ on_board h v c
              end.
Proof. exact (@c81_all). Qed.
Print Assumptions C81_all.

Theorem C81_goal :
  forall (N E : Type) (ix : IxType) (S : LoopShape) (m : mode) (h v : Z),
  sq_size S h v -> sq_index_fits ix h v ->
  forall (g : SquareGraph N E ix S) nf ef, SqBuilt m h v g nf ef ->
  forall H, HeapOK H -> forall cost,
  let edges := fun n => Ok (sg_edges g n) in
  let target := sr_target (ix := ix) (S := S) m in
  let least := LeastCost edges (sg_edges_next m g) target cost in
  (forall a e, on_board h v a -> EdgeAt edges (sg_edges_next m g) a e -> 0 <= cost e) ->
  forall start b, on_board h v start ->
  exists r,
    Returns (dijkstra_round veqb H edges (sg_edges_next m g) target cost svm_visit svm_is_visited
      (Some b)) (dijkstra_init veqb H (sg_visit_map g) start) r /\
    (forall c x, r c = Some x -> on_board h v c /\
       exists p, Route edges (sg_edges_next m g) target cost start p x c) /\
    (on_board h v b -> exists x, r b = Some x /\ least start b x) /\
    (forall c x, least start c x -> (forall y, least start b y -> x < y) -> r c = Some x).
Proof. exact (@c81_goal). Qed.
Print Assumptions C81_goal.

Theorem C81_distance :
  forall (N E : Type) (ix : IxType) (S : LoopShape) (m : mode) (h v : Z),
  sq_size S h v -> sq_index_fits ix h v ->
  forall (g : SquareGraph N E ix S) nf ef, SqBuilt m h v g nf ef ->
  forall H, HeapOK H -> forall cost,
  let edges := fun n => Ok (sg_edges g n) in
  let target := sr_target (ix := ix) (S := S) m in
  (forall a e, on_board h v a -> EdgeAt edges (sg_edges_next m g) a e -> cost e = 1) ->
  forall start, on_board h v start ->
  exists r,
    Returns (dijkstra_round veqb H edges (sg_edges_next m g) target cost svm_visit svm_is_visited
      None) (dijkstra_init veqb H (sg_visit_map g) start) r /\
    (forall c, on_board h v c -> r c = Some (sq_distance S h v start c)) /\
    (forall c, ~ on_board h v c -> r c = None).
Proof. exact (@c81_distance). Qed.
Print Assumptions C81_distance.

(** The ring of six: unlike [NodeIndex::distance], the search finds the way round. *)
Example C81_case :
  sq_size HorizontalLoop 6 1 /\ sq_index_fits IxU32 6 1 /\
  SqBuilt Debug 6 1 (ring Debug) sq_node sq_edge /\ on_board 6 1 (1, 0) /\
  (let run b := match loop (dijkstra_round veqb list_heap (fun n => Ok (sg_edges (ring Debug) n))
     (sg_edges_next Debug (ring Debug)) (sr_target (ix := IxU32) (S := HorizontalLoop) Debug)
     (fun _ => 1) svm_visit svm_is_visited b)
     (dijkstra_init veqb list_heap (sg_visit_map (ring Debug)) (1, 0)) with
     | Ok r => map r [(0, 0); (1, 0); (2, 0); (3, 0); (4, 0); (5, 0); (6, 0)]
     | Fail _ => [] end in
   run None = [Some 1; Some 0; Some 1; Some 2; Some 3; Some 2; None] /\
   run (Some (0, 0)) = [Some 1; Some 0; Some 1; Some 2; None; None; None]).
Proof.
  assert (SZ : sq_size HorizontalLoop 6 1) by sq_size.
  split; [exact SZ|]. split; [index_fits|]. split; [apply sqd_built; exact SZ|].
  split; [unfold on_board; cbn; lia|].
  split; vm_compute; reflexivity.
Qed.
