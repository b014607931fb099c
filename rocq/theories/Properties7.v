(** * Properties7: shortest paths with costs (C72-C74).

    [astar_init], [astar_round]: petgraph's [astar] over the graph's own [edges];
    [Returns body s r]: the loop [body], started in [s], ends without a fault and gives [r];
    [HeapOK H]: [H] is a priority queue, whatever it does with equal scores (Astar.v).
    [EdgeAt]: an edge is among the [edges] of a node; [Route a p k b]: the nodes [p] lead from
    [a] to [b] along edges that cost [k] together; [Cheapest goal a p k]: [p] leads from [a] to
    a goal, costs [k], and no route to a goal costs less; [Distance s G dist]: the distance in
    the plane that belongs to the shape (Spec4.v).  [SqBuilt], [on_board], [sq_distance]: the
    same notions for [SquareGraph] (SpecSquare.v). *)

From Verif Require Import Machine Store Axes Shapes Lattice SquareGraph Traverse Astar Spec
  SpecSquare Spec4 AstarProofs AstarMain StrayProofs Demo SquareDemo AstarDemo.

(** ** C72 *)

(** Whatever the estimates: the search ends, it gives [None] only if no cell is a goal, and
    otherwise a route from the start to a goal that costs no more than it says. *)
Theorem C72_finds :
  forall (A D N E : Type) (m : mode) (s : Shape Cell A D) (G : Geometry A D), Supported s G ->
  forall (g : LatticeGraph Cell A D N E) nf ef, Built m s G g nf ef ->
  forall H, HeapOK H -> forall cost est goal,
  let target := fun e : EdgeReference Cell E D => Ok (er_target e) in
  (forall a e, In a (geo_nodes G) -> EdgeAt (edges m g) (edges_next m g) a e -> 0 <= cost e) ->
  forall start, In start (geo_nodes G) ->
  exists r,
    Returns (astar_round veqb H (edges m g) (edges_next m g) target cost est goal)
      (astar_init veqb H est start) r /\
    match r with
    | None => forall c, In c (geo_nodes G) -> goal c = false
    | Some (x, p) => exists c k, goal c = true /\
        Route (edges m g) (edges_next m g) target cost start p k c /\ k <= x
    end.
Proof. exact (@c72_finds). Qed.
Print Assumptions C72_finds.

(** With estimates that never exceed the cost of a route to a goal: a cheapest route, and what
    it costs. *)
Theorem C72_cheapest :
  forall (A D N E : Type) (m : mode) (s : Shape Cell A D) (G : Geometry A D), Supported s G ->
  forall (g : LatticeGraph Cell A D N E) nf ef, Built m s G g nf ef ->
  forall H, HeapOK H -> forall cost est goal,
  let target := fun e : EdgeReference Cell E D => Ok (er_target e) in
  (forall a e, In a (geo_nodes G) -> EdgeAt (edges m g) (edges_next m g) a e -> 0 <= cost e) ->
  forall start, In start (geo_nodes G) ->
  (forall n, In n (geo_nodes G) -> goal n = true -> 0 <= est n) ->
  (forall n p k c, In n (geo_nodes G) -> goal c = true ->
     Route (edges m g) (edges_next m g) target cost n p k c -> est n <= k) ->
  exists r,
    Returns (astar_round veqb H (edges m g) (edges_next m g) target cost est goal)
      (astar_init veqb H est start) r /\
    match r with
    | None => forall c, In c (geo_nodes G) -> goal c = false
    | Some (x, p) => Cheapest (edges m g) (edges_next m g) target cost goal start p x
    end.
Proof. exact (@c72_cheapest). Qed.
Print Assumptions C72_cheapest.

(** With estimates that exceed the cost of a route to a goal by [slack] at most: a route whose
    cost exceeds that of any other by [slack] at most. *)
Theorem C72_close :
  forall (A D N E : Type) (m : mode) (s : Shape Cell A D) (G : Geometry A D), Supported s G ->
  forall (g : LatticeGraph Cell A D N E) nf ef, Built m s G g nf ef ->
  forall H, HeapOK H -> forall cost est goal,
  let target := fun e : EdgeReference Cell E D => Ok (er_target e) in
  (forall a e, In a (geo_nodes G) -> EdgeAt (edges m g) (edges_next m g) a e -> 0 <= cost e) ->
  forall start, In start (geo_nodes G) -> forall slack,
  (forall n, In n (geo_nodes G) -> goal n = true -> 0 <= est n) ->
  (forall n p k c, In n (geo_nodes G) -> goal c = true ->
     Route (edges m g) (edges_next m g) target cost n p k c -> est n <= k + slack) ->
  exists r,
    Returns (astar_round veqb H (edges m g) (edges_next m g) target cost est goal)
      (astar_init veqb H est start) r /\
    match r with
    | None => forall c, In c (geo_nodes G) -> goal c = false
    | Some (x, p) =>
        (exists c k, goal c = true /\
           Route (edges m g) (edges_next m g) target cost start p k c /\ k <= x) /\
        forall c p' k', goal c = true ->
          Route (edges m g) (edges_next m g) target cost start p' k' c -> x <= k' + slack
    end.
Proof. exact (@c72_close). Qed.
Print Assumptions C72_close.

(** The distance of the lattice is such an estimate when every step costs at least one; when
    every step costs one, it is the result. *)
Theorem C72_distance :
  forall (A D N E : Type) (m : mode) (s : Shape Cell A D) (G : Geometry A D), Supported s G ->
  forall dist, Distance s G dist ->
  forall (g : LatticeGraph Cell A D N E) nf ef, Built m s G g nf ef ->
  forall H, HeapOK H -> forall cost,
  let target := fun e : EdgeReference Cell E D => Ok (er_target e) in
  (forall a e, In a (geo_nodes G) -> EdgeAt (edges m g) (edges_next m g) a e -> 1 <= cost e) ->
  forall start b, In start (geo_nodes G) -> In b (geo_nodes G) ->
  let est := fun c => dist c b in
  let goal := fun c => veqb c b in
  exists x p,
    Returns (astar_round veqb H (edges m g) (edges_next m g) target cost est goal)
      (astar_init veqb H est start) (Some (x, p)) /\
    Cheapest (edges m g) (edges_next m g) target cost goal start p x /\
    ((forall a e, In a (geo_nodes G) -> EdgeAt (edges m g) (edges_next m g) a e -> cost e = 1) ->
     x = dist start b).
Proof. exact (@c72_distance). Qed.
Print Assumptions C72_distance.

(** The search of the repository's test, there and back. *)
Example C72_case :
  Supported test_shape testG /\ Built Debug test_shape testG test_board test_node test_edge /\
  HeapOK (list_heap (C := Cell)) /\ Distance test_shape testG taxicab /\
  In (0, 0) (geo_nodes testG) /\ In (2, 1) (geo_nodes testG) /\
  (let run a b := loop (astar_round veqb list_heap (edges Debug test_board)
     (edges_next Debug test_board) (fun e => Ok (er_target e)) er_weight
     (fun c => taxicab c b) (fun c => veqb c b))
     (astar_init veqb list_heap (fun c => taxicab c b) a) in
   run (0, 0) (2, 1) = Ok (Some (5, [(0, 0); (0, 1); (1, 1); (2, 1)])) /\
   run (2, 1) (0, 0) = Ok (Some (5, [(2, 1); (1, 1); (0, 1); (0, 0)]))).
Proof.
  split; [exact test_ok|]. split; [exact test_built|]. split; [apply list_heap_ok|].
  split; [exact (dist_square 4 3)|]. split; [vm_compute; tauto|]. split; [vm_compute; tauto|].
  split; vm_compute; reflexivity.
Qed.

(** A computed run is a run. *)
Example C72_runs : forall S R (body : S -> outcome (S + R)) s r,
  loop body s = Ok r -> Returns body s r.
Proof. exact loop_returns. Qed.

(** ** C73 *)

Theorem C73_finds :
  forall (N E : Type) (ix : IxType) (S : LoopShape) (m : mode) (h v : Z),
  sq_size S h v -> sq_index_fits ix h v ->
  forall (g : SquareGraph N E ix S) nf ef, SqBuilt m h v g nf ef ->
  forall H, HeapOK H -> forall cost est goal,
  let edges := fun n => Ok (sg_edges g n) in
  let target := sr_target (ix := ix) (S := S) m in
  (forall a e, on_board h v a -> EdgeAt edges (sg_edges_next m g) a e -> 0 <= cost e) ->
  forall start, on_board h v start ->
  exists r,
    Returns (astar_round veqb H edges (sg_edges_next m g) target cost est goal)
      (astar_init veqb H est start) r /\
    match r with
    | None => forall c, on_board h v c -> goal c = false
    | Some (x, p) => exists c k, goal c = true /\
        Route edges (sg_edges_next m g) target cost start p k c /\ k <= x
    end.
Proof. exact (@c73_finds). Qed.
Print Assumptions C73_finds.

Theorem C73_cheapest :
  forall (N E : Type) (ix : IxType) (S : LoopShape) (m : mode) (h v : Z),
  sq_size S h v -> sq_index_fits ix h v ->
  forall (g : SquareGraph N E ix S) nf ef, SqBuilt m h v g nf ef ->
  forall H, HeapOK H -> forall cost est goal,
  let edges := fun n => Ok (sg_edges g n) in
  let target := sr_target (ix := ix) (S := S) m in
  (forall a e, on_board h v a -> EdgeAt edges (sg_edges_next m g) a e -> 0 <= cost e) ->
  forall start, on_board h v start ->
  (forall n, on_board h v n -> goal n = true -> 0 <= est n) ->
  (forall n p k c, on_board h v n -> goal c = true ->
     Route edges (sg_edges_next m g) target cost n p k c -> est n <= k) ->
  exists r,
    Returns (astar_round veqb H edges (sg_edges_next m g) target cost est goal)
      (astar_init veqb H est start) r /\
    match r with
    | None => forall c, on_board h v c -> goal c = false
    | Some (x, p) => Cheapest edges (sg_edges_next m g) target cost goal start p x
    end.
Proof. exact (@c73_cheapest). Qed.
Print Assumptions C73_cheapest.

Theorem C73_close :
  forall (N E : Type) (ix : IxType) (S : LoopShape) (m : mode) (h v : Z),
  sq_size S h v -> sq_index_fits ix h v ->
  forall (g : SquareGraph N E ix S) nf ef, SqBuilt m h v g nf ef ->
  forall H, HeapOK H -> forall cost est goal,
  let edges := fun n => Ok (sg_edges g n) in
  let target := sr_target (ix := ix) (S := S) m in
  (forall a e, on_board h v a -> EdgeAt edges (sg_edges_next m g) a e -> 0 <= cost e) ->
  forall start, on_board h v start -> forall slack,
  (forall n, on_board h v n -> goal n = true -> 0 <= est n) ->
  (forall n p k c, on_board h v n -> goal c = true ->
     Route edges (sg_edges_next m g) target cost n p k c -> est n <= k + slack) ->
  exists r,
    Returns (astar_round veqb H edges (sg_edges_next m g) target cost est goal)
      (astar_init veqb H est start) r /\
    match r with
    | None => forall c, on_board h v c -> goal c = false
    | Some (x, p) =>
        (exists c k, goal c = true /\
           Route edges (sg_edges_next m g) target cost start p k c /\ k <= x) /\
        forall c p' k', goal c = true ->
          Route edges (sg_edges_next m g) target cost start p' k' c -> x <= k' + slack
    end.
Proof. exact (@c73_close). Qed.
Print Assumptions C73_close.

Theorem C73_distance :
  forall (N E : Type) (ix : IxType) (S : LoopShape) (m : mode) (h v : Z),
  sq_size S h v -> sq_index_fits ix h v ->
  forall (g : SquareGraph N E ix S) nf ef, SqBuilt m h v g nf ef ->
  forall H, HeapOK H -> forall cost,
  let edges := fun n => Ok (sg_edges g n) in
  let target := sr_target (ix := ix) (S := S) m in
  (forall a e, on_board h v a -> EdgeAt edges (sg_edges_next m g) a e -> 1 <= cost e) ->
  forall start b, on_board h v start -> on_board h v b ->
  forall est, (forall c, on_board h v c -> est c = sq_distance S h v c b) ->
  let goal := fun c => veqb c b in
  exists x p,
    Returns (astar_round veqb H edges (sg_edges_next m g) target cost est goal)
      (astar_init veqb H est start) (Some (x, p)) /\
    Cheapest edges (sg_edges_next m g) target cost goal start p x /\
    ((forall a e, on_board h v a -> EdgeAt edges (sg_edges_next m g) a e -> cost e = 1) ->
     x = sq_distance S h v start b).
Proof. exact (@c73_distance). Qed.
Print Assumptions C73_distance.

(** The search of the repository's test, there and back. *)
Example C73_case :
  sq_size DefaultShape 3 4 /\ sq_index_fits IxU32 3 4 /\
  SqBuilt Debug 3 4 sq_test_board (fun _ => tt) sq_test_edge /\
  on_board 3 4 (0, 0) /\ on_board 3 4 (2, 1) /\
  (let run a b := loop (astar_round veqb list_heap (fun n => Ok (sg_edges sq_test_board n))
     (sg_edges_next Debug sq_test_board) (sr_target (ix := IxU32) (S := DefaultShape) Debug)
     (fun e => sr_weight e)
     (fun c => sq_distance DefaultShape 3 4 c b) (fun c => veqb c b))
     (astar_init veqb list_heap (fun c => sq_distance DefaultShape 3 4 c b) a) in
   run (0, 0) (2, 1) = Ok (Some (5, [(0, 0); (0, 1); (1, 1); (2, 1)])) /\
   run (2, 1) (0, 0) = Ok (Some (5, [(2, 1); (1, 1); (0, 1); (0, 0)]))).
Proof.
  split; [sq_size|]. split; [index_fits|]. split; [exact sq_test_built|].
  split; [unfold on_board; cbn; lia|]. split; [unfold on_board; cbn; lia|].
  split; vm_compute; reflexivity.
Qed.

(** ** C74 *)

(** On a board without loops [NodeIndex::distance] guides the search to a cheapest path. *)
Theorem C74_partial :
  forall (N E : Type) (ix : IxType) (m : mode) (h v : Z),
  sq_size DefaultShape h v -> sq_index_fits ix h v ->
  forall (g : SquareGraph N E ix DefaultShape) nf ef, SqBuilt m h v g nf ef ->
  forall H, HeapOK H -> forall cost : SqEdgeReference E -> Z,
  (forall a e, on_board h v a ->
     EdgeAt (fun n => Ok (sg_edges g n)) (sg_edges_next m g) a e -> 1 <= cost e) ->
  forall start b, on_board h v start -> on_board h v b ->
  forall est, (forall c, on_board h v c -> ni_distance m c b = Ok (est c)) ->
  let target := sr_target (ix := ix) (S := DefaultShape) m in
  let goal := fun c => veqb c b in
  exists x p,
    Returns (astar_round veqb H (fun n => Ok (sg_edges g n)) (sg_edges_next m g) target cost est
      goal) (astar_init veqb H est start) (Some (x, p)) /\
    Cheapest (fun n => Ok (sg_edges g n)) (sg_edges_next m g) target cost goal start p x.
Proof. exact c74. Qed.
Print Assumptions C74_partial.

(** On any board, looped or not, the search ends with a path whose cost exceeds that of a
    cheapest one by no more than the looped sides, less two each; so where no looped side is
    longer than two, the path is a cheapest one. *)
Theorem C74_bound_partial :
  forall (N E : Type) (ix : IxType) (S : LoopShape) (m : mode) (h v : Z),
  sq_size S h v -> sq_index_fits ix h v ->
  forall (g : SquareGraph N E ix S) nf ef, SqBuilt m h v g nf ef ->
  forall H, HeapOK H -> forall cost : SqEdgeReference E -> Z,
  (forall a e, on_board h v a ->
     EdgeAt (fun n => Ok (sg_edges g n)) (sg_edges_next m g) a e -> 1 <= cost e) ->
  forall start b, on_board h v start -> on_board h v b ->
  forall est, (forall c, on_board h v c -> ni_distance m c b = Ok (est c)) ->
  let target := sr_target (ix := ix) (S := S) m in
  let goal := fun c => veqb c b in
  let excess := (if loops_h S then Z.max 0 (h - 2) else 0) +
    (if loops_v S then Z.max 0 (v - 2) else 0) in
  exists x p k,
    Returns (astar_round veqb H (fun n => Ok (sg_edges g n)) (sg_edges_next m g) target cost est
      goal) (astar_init veqb H est start) (Some (x, p)) /\
    Route (fun n => Ok (sg_edges g n)) (sg_edges_next m g) target cost start p k b /\ k <= x /\
    (forall p' k',
       Route (fun n => Ok (sg_edges g n)) (sg_edges_next m g) target cost start p' k' b ->
       x <= k' + excess) /\
    (excess = 0 ->
     Cheapest (fun n => Ok (sg_edges g n)) (sg_edges_next m g) target cost goal start p x).
Proof. exact c74_bound. Qed.
Print Assumptions C74_bound_partial.

(** On a looped board it leads astray: on every board of at least five columns whose rows are
    rings, each step costing one, the search from the second node of any row to its last gives
    a path of cost [h - 2], all along the row, although two steps lead there. *)
Theorem C74_refuted :
  forall (N E : Type) (ix : IxType) (S : LoopShape) (m : mode) (h v : Z),
  sq_size S h v -> sq_index_fits ix h v ->
  forall (g : SquareGraph N E ix S) nf ef, SqBuilt m h v g nf ef ->
  forall H, HeapOK H -> loops_h S = true -> 5 <= h -> forall y, 0 <= y < v ->
  let edges := fun n => Ok (sg_edges g n) in
  let target := sr_target (ix := ix) (S := S) m in
  let cost := fun _ : SqEdgeReference E => 1 in
  let start := (1, y) in
  let last := (h - 1, y) in
  forall est, (forall c, on_board h v c -> ni_distance m c last = Ok (est c)) ->
  exists p,
    Returns (astar_round veqb H edges (sg_edges_next m g) target cost est
      (fun c => veqb c last)) (astar_init veqb H est start) (Some (h - 2, p)) /\
    Route edges (sg_edges_next m g) target cost start [start; (0, y); last] 2 last.
Proof. exact (@ring_h). Qed.
Print Assumptions C74_refuted.

(** The same along the columns. *)
Theorem C74_columns_refuted :
  forall (N E : Type) (ix : IxType) (S : LoopShape) (m : mode) (h v : Z),
  sq_size S h v -> sq_index_fits ix h v ->
  forall (g : SquareGraph N E ix S) nf ef, SqBuilt m h v g nf ef ->
  forall H, HeapOK H -> loops_v S = true -> 5 <= v -> forall x, 0 <= x < h ->
  let edges := fun n => Ok (sg_edges g n) in
  let target := sr_target (ix := ix) (S := S) m in
  let cost := fun _ : SqEdgeReference E => 1 in
  let start := (x, 1) in
  let last := (x, v - 1) in
  forall est, (forall c, on_board h v c -> ni_distance m c last = Ok (est c)) ->
  exists p,
    Returns (astar_round veqb H edges (sg_edges_next m g) target cost est
      (fun c => veqb c last)) (astar_init veqb H est start) (Some (v - 2, p)) /\
    Route edges (sg_edges_next m g) target cost start [start; (x, 0); last] 2 last.
Proof. exact (@ring_v). Qed.
Print Assumptions C74_columns_refuted.

(** With one step that costs two, it leads astray on every board with rings of at least four
    nodes: the search gives a path of cost [h - 1] that takes the step. *)
Theorem C74_weights_refuted :
  forall (N E : Type) (ix : IxType) (S : LoopShape) (m : mode) (h v : Z),
  sq_size S h v -> sq_index_fits ix h v ->
  forall (g : SquareGraph N E ix S) nf ef, SqBuilt m h v g nf ef ->
  forall H, HeapOK H -> loops_h S = true -> 4 <= h -> forall y, 0 <= y < v ->
  let edges := fun n => Ok (sg_edges g n) in
  let target := sr_target (ix := ix) (S := S) m in
  let start := (1, y) in
  let last := (h - 1, y) in
  let hard := ((h - 2, y), Horizontal) in
  forall cost, (forall e, sr_id e = hard -> cost e = 2) ->
  (forall e, sr_id e <> hard -> cost e = 1) ->
  forall est, (forall c, on_board h v c -> ni_distance m c last = Ok (est c)) ->
  exists p,
    Returns (astar_round veqb H edges (sg_edges_next m g) target cost est
      (fun c => veqb c last)) (astar_init veqb H est start) (Some (h - 1, p)) /\
    Route edges (sg_edges_next m g) target cost start [start; (0, y); last] 2 last.
Proof. exact (@ring_h_hard). Qed.
Print Assumptions C74_weights_refuted.

Theorem C74_weights_columns_refuted :
  forall (N E : Type) (ix : IxType) (S : LoopShape) (m : mode) (h v : Z),
  sq_size S h v -> sq_index_fits ix h v ->
  forall (g : SquareGraph N E ix S) nf ef, SqBuilt m h v g nf ef ->
  forall H, HeapOK H -> loops_v S = true -> 4 <= v -> forall x, 0 <= x < h ->
  let edges := fun n => Ok (sg_edges g n) in
  let target := sr_target (ix := ix) (S := S) m in
  let start := (x, 1) in
  let last := (x, v - 1) in
  let hard := ((x, v - 2), Vertical) in
  forall cost, (forall e, sr_id e = hard -> cost e = 2) ->
  (forall e, sr_id e <> hard -> cost e = 1) ->
  forall est, (forall c, on_board h v c -> ni_distance m c last = Ok (est c)) ->
  exists p,
    Returns (astar_round veqb H edges (sg_edges_next m g) target cost est
      (fun c => veqb c last)) (astar_init veqb H est start) (Some (v - 1, p)) /\
    Route edges (sg_edges_next m g) target cost start [start; (x, 0); last] 2 last.
Proof. exact (@ring_v_hard). Qed.
Print Assumptions C74_weights_columns_refuted.

Example C74_case :
  sq_size DefaultShape 3 4 /\ sq_index_fits IxU32 3 4 /\
  SqBuilt Debug 3 4 sq_test_board (fun _ => tt) sq_test_edge /\
  on_board 3 4 (2, 1) /\ ni_distance Debug (0, 3) (2, 1) = Ok 4 /\
  HeapOK (list_heap (C := NodeIndex)) /\
  (forall m, sq_size HorizontalLoop 6 1 /\ sq_index_fits IxU32 6 1 /\
     SqBuilt m 6 1 (ring m) sq_node sq_edge /\ ni_distance m (1, 0) (5, 0) = Ok 4) /\
  (forall m, sq_size HVLoop 2 2 /\ sq_index_fits IxU8 2 2 /\
     SqBuilt m 2 2 (sqd IxU8 HVLoop m 2 2) sq_node sq_edge /\ loops_h HVLoop = true) /\
  (forall m, sq_size HVLoop 4 4 /\ sq_index_fits IxU8 4 4 /\
     SqBuilt m 4 4 (sqd IxU8 HVLoop m 4 4) sq_node sq_edge /\ loops_v HVLoop = true).
Proof.
  split; [sq_size|]. split; [index_fits|]. split; [exact sq_test_built|].
  split; [unfold on_board; cbn; lia|]. split; [reflexivity|]. split; [apply list_heap_ok|].
  split; [|split]; intros m; (split; [sq_size|]); (split; [index_fits|]);
    (split; [apply sqd_built; sq_size|]).
  - destruct m; reflexivity.
  - reflexivity.
  - reflexivity.
Qed.
