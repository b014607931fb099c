(** * Properties27: shapes made by the user (C114, C115).

    [ShapeContract m s axes fwd opp cell step coord] (Spec19.v) says that the shape [s] keeps
    to what the documentation of the traits asks for. *)

From Verif Require Import Machine Store Axes Shapes Lattice Traverse Clients Astar Dijkstra Spec
  Spec4 Spec6 Spec11 Spec19 Demo AstarDemo CustomDemo CustomMain.

(** ** C114 *)

(** The graph can be made, and gives back the weights it was made with, or last given. *)
Theorem C114_weights :
  forall (A D N E : Type) (m : mode) (s : Shape Cell A D) axes fwd opp cell step coord,
  ShapeContract m s axes fwd opp cell step coord ->
  let G := contract_geometry s axes fwd opp cell step coord in
  let nodes := board (sh_horizontal s) (sh_vertical s) cell in
  (forall (nf : Cell -> N) (ef : Cell -> A -> E), exists g,
     new_with s (fun st c => (nf c, st)) (fun st c a => (ef c a, st)) m tt = Ok (g, tt) /\
     Built m s G g nf ef) /\
  (forall (g : LatticeGraph Cell A D N E) nf ef, Built m s G g nf ef ->
     (forall c, In c nodes -> node_weight m g c = Ok (Some (nf c))) /\
     (forall c, coord c -> ~ In c nodes -> node_weight m g c = Ok None) /\
     (forall c a, In c nodes -> step c (fwd a) <> None ->
        edge_weight m g (c, a) = Ok (Some (ef c a))) /\
     (forall c a, coord c -> ~ (In c nodes /\ step c (fwd a) <> None) ->
        edge_weight m g (c, a) = Ok None)).
Proof. intros A D N E m s axes fwd opp cell step coord SC. exact (conj (y_new SC) (y_weights SC)). Qed.
Print Assumptions C114_weights.

(** The closures are called for each node, and after it for each of its edges. *)
Theorem C114_calls :
  forall (A D N E : Type) (m : mode) (s : Shape Cell A D) axes fwd opp cell step coord,
  ShapeContract m s axes fwd opp cell step coord ->
  let G := contract_geometry s axes fwd opp cell step coord in
  forall St (n : St -> Cell -> N * St) (e : St -> Cell -> A -> E * St) st,
  exists g, new_with s n e m st = Ok (g, state_after n e (spec_calls G) st) /\
    (forall l1 c l2, spec_calls G = l1 ++ CallNode c :: l2 ->
       node_weight m g c = Ok (Some (fst (n (state_after n e l1 st) c)))) /\
    (forall l1 c a l2, spec_calls G = l1 ++ CallEdge c a :: l2 ->
       edge_weight m g (c, a) = Ok (Some (fst (e (state_after n e l1 st) c a)))).
Proof. intros A D N E m s axes fwd opp cell step coord SC. exact (y_calls SC). Qed.
Print Assumptions C114_calls.

Theorem C114_nodes :
  forall (A D N E : Type) (m : mode) (s : Shape Cell A D) axes fwd opp cell step coord,
  ShapeContract m s axes fwd opp cell step coord ->
  let G := contract_geometry s axes fwd opp cell step coord in
  let nodes := board (sh_horizontal s) (sh_vertical s) cell in
  forall (g : LatticeGraph Cell A D N E) nf ef, Built m s G g nf ef ->
  Drains (node_indices_next m (g_s g)) (node_identifiers g) nodes /\
  Drains (node_references_next m g) (node_references g) (map (fun c => (c, nf c)) nodes) /\
  NoDup nodes /\ node_count m g = Ok (Z.of_nat (length nodes)) /\
  node_bound m g = Ok (Z.of_nat (length nodes)) /\
  (forall i c, nth_error nodes i = Some c ->
     to_index m g c = Ok (Z.of_nat i) /\ from_index m g (Z.of_nat i) = Ok c).
Proof. intros A D N E m s axes fwd opp cell step coord SC. exact (y_nodes SC). Qed.
Print Assumptions C114_nodes.

Theorem C114_neighbors :
  forall (A D N E : Type) (m : mode) (s : Shape Cell A D) axes fwd opp cell step coord,
  ShapeContract m s axes fwd opp cell step coord ->
  let G := contract_geometry s axes fwd opp cell step coord in
  let nodes := board (sh_horizontal s) (sh_vertical s) cell in
  let nbs := step_neighbors (all_dirs (ax_DIRECTED (sh_axis s)) axes fwd opp) step in
  (forall (g : LatticeGraph Cell A D N E) nf ef c, Built m s G g nf ef -> In c nodes ->
     (forall dir, Drains (neighbors_next m g c) (neighbors_directed g c dir) (nbs c)) /\
     Drains (neighbors_next m g c) (neighbors g c) (nbs c) /\
     forall b, exists r, is_adjacent m g c b = Ok r /\ (r = true <-> In b (nbs c))) /\
  (forall a b, In a nodes -> In b nodes -> In b (nbs a) <-> In a (nbs b)).
Proof.
  intros A D N E m s axes fwd opp cell step coord SC. exact (conj (y_neighbors SC) (y_symmetric SC)).
Qed.
Print Assumptions C114_neighbors.

(** [edges] gives one reference for each neighbour, in the same order. *)
Theorem C114_edges :
  forall (A D N E : Type) (m : mode) (s : Shape Cell A D) axes fwd opp cell step coord,
  ShapeContract m s axes fwd opp cell step coord ->
  let G := contract_geometry s axes fwd opp cell step coord in
  let nodes := board (sh_horizontal s) (sh_vertical s) cell in
  forall (g : LatticeGraph Cell A D N E) nf ef c, Built m s G g nf ef -> In c nodes ->
  let l := step_edges (ax_DIRECTED (sh_axis s)) axes fwd opp step ef c in
  (exists it, edges m g c = Ok it /\ Drains (edges_next m g) it l) /\
  map er_target l = step_neighbors (all_dirs (ax_DIRECTED (sh_axis s)) axes fwd opp) step c.
Proof. intros A D N E m s axes fwd opp cell step coord SC. exact (y_edges SC). Qed.
Print Assumptions C114_edges.

(** On undirected graphs the incoming edges are the same, the other way around. *)
Theorem C114_incoming :
  forall (A D N E : Type) (m : mode) (s : Shape Cell A D) axes fwd opp cell step coord,
  ShapeContract m s axes fwd opp cell step coord ->
  let G := contract_geometry s axes fwd opp cell step coord in
  let nodes := board (sh_horizontal s) (sh_vertical s) cell in
  forall (g : LatticeGraph Cell A D N E) nf ef c, Built m s G g nf ef -> In c nodes ->
  ax_DIRECTED (sh_axis s) = false ->
  exists it, edges_directed m g c Incoming = Ok it /\
    Drains (edges_next m g) it
      (map (fun r => mkEdgeRef (er_target r) (er_source r) (er_weight r) (er_direction r))
        (step_edges false axes fwd opp step ef c)).
Proof. intros A D N E m s axes fwd opp cell step coord SC. exact (y_incoming SC). Qed.
Print Assumptions C114_incoming.

(** On undirected graphs both ends of an edge see the same weight. *)
Theorem C114_shared :
  forall (A D N E : Type) (m : mode) (s : Shape Cell A D) axes fwd opp cell step coord,
  ShapeContract m s axes fwd opp cell step coord ->
  let G := contract_geometry s axes fwd opp cell step coord in
  let nodes := board (sh_horizontal s) (sh_vertical s) cell in
  forall (g : LatticeGraph Cell A D N E) nf ef a r it l, Built m s G g nf ef -> In a nodes ->
  ax_DIRECTED (sh_axis s) = false ->
  edges m g a = Ok it -> Drains (edges_next m g) it l -> In r l ->
  exists it' l', edges m g (er_target r) = Ok it' /\ Drains (edges_next m g) it' l' /\
    In (mkEdgeRef (er_target r) a (er_weight r) (opp (er_direction r))) l'.
Proof. intros A D N E m s axes fwd opp cell step coord SC. exact (y_shared SC). Qed.
Print Assumptions C114_shared.

(** [edge_references] gives each edge once, and their ids are the edges that have weights. *)
Theorem C114_edge_references :
  forall (A D N E : Type) (m : mode) (s : Shape Cell A D) axes fwd opp cell step coord,
  ShapeContract m s axes fwd opp cell step coord ->
  let G := contract_geometry s axes fwd opp cell step coord in
  let nodes := board (sh_horizontal s) (sh_vertical s) cell in
  forall (g : LatticeGraph Cell A D N E) nf ef, Built m s G g nf ef ->
  let l := step_edge_references nodes axes fwd step ef in
  Drains (edge_references_next m g) (edge_references g) l /\
  (exists ids, map (er_id m s) l = map Ok ids /\ NoDup ids /\
     forall c a, In (c, a) ids <-> In c nodes /\ step c (fwd a) <> None).
Proof. intros A D N E m s axes fwd opp cell step coord SC. exact (y_references SC). Qed.
Print Assumptions C114_edge_references.

(** A write changes the one weight it is meant for; [Built] says what the graph holds then. *)
Theorem C114_writes :
  forall (A D N E : Type) (m : mode) (s : Shape Cell A D) axes fwd opp cell step coord,
  ShapeContract m s axes fwd opp cell step coord ->
  let G := contract_geometry s axes fwd opp cell step coord in
  let nodes := board (sh_horizontal s) (sh_vertical s) cell in
  forall (g : LatticeGraph Cell A D N E) nf ef, Built m s G g nf ef ->
  (forall c w nf', In c nodes -> nf' c = w -> (forall c', c' <> c -> nf' c' = nf c') ->
     exists g', node_weight_mut m g c (fun _ => Some w) = Ok (Some g') /\ Built m s G g' nf' ef) /\
  (forall c a w ef', In c nodes -> step c (fwd a) <> None -> ef' c a = w ->
     (forall c' a', (c', a') <> (c, a) -> ef' c' a' = ef c' a') ->
     exists g', edge_weight_mut m g (c, a) (fun _ => Some w) = Ok (Some g') /\
       Built m s G g' nf ef').
Proof. intros A D N E m s axes fwd opp cell step coord SC. exact (y_write SC). Qed.
Print Assumptions C114_writes.

(** The unchecked accessors give the same weights, and no undefined behaviour. *)
Theorem C114_unchecked :
  forall (A D N E : Type) (m : mode) (s : Shape Cell A D) axes fwd opp cell step coord,
  ShapeContract m s axes fwd opp cell step coord ->
  let G := contract_geometry s axes fwd opp cell step coord in
  let nodes := board (sh_horizontal s) (sh_vertical s) cell in
  forall (g : LatticeGraph Cell A D N E) nf ef, Built m s G g nf ef ->
  (forall c, In c nodes -> node_weight_unchecked m g c = Ok (nf c)) /\
  (forall c a, In c nodes -> step c (fwd a) <> None ->
     edge_weight_unchecked m g (c, a) = Ok (ef c a)).
Proof. intros A D N E m s axes fwd opp cell step coord SC. exact (y_unchecked SC). Qed.
Print Assumptions C114_unchecked.

(** A coordinate off the board makes [to_index] panic, and [edges] too in debug builds; in
    release builds [edges] is undefined behaviour, though it is a safe function (see C22). *)
Theorem C114_off_board :
  forall (A D N E : Type) (m : mode) (s : Shape Cell A D) axes fwd opp cell step coord,
  ShapeContract m s axes fwd opp cell step coord ->
  let G := contract_geometry s axes fwd opp cell step coord in
  let nodes := board (sh_horizontal s) (sh_vertical s) cell in
  forall (g : LatticeGraph Cell A D N E) nf ef c dir, Built m s G g nf ef ->
  coord c -> ~ In c nodes ->
  to_index m g c = Fail FPanic /\
  edges m g c = Fail (match m with Debug => FPanic | Release => FUB end) /\
  edges_directed m g c dir = Fail (match m with Debug => FPanic | Release => FUB end).
Proof. intros A D N E m s axes fwd opp cell step coord SC. exact (y_off_board SC). Qed.
Print Assumptions C114_off_board.

(** The visit map is a set of nodes. *)
Theorem C114_visit_map :
  forall (A D N E : Type) (m : mode) (s : Shape Cell A D) axes fwd opp cell step coord,
  ShapeContract m s axes fwd opp cell step coord ->
  let G := contract_geometry s axes fwd opp cell step coord in
  let nodes := board (sh_horizontal s) (sh_vertical s) cell in
  forall (g : LatticeGraph Cell A D N E) nf ef ops, Built m s G g nf ef ->
  Forall (fun op => match op with
                    | Visit c | Unvisit c | IsVisited c => coord c
                    | ResetMap => True end) ops ->
  visit_run m g (visit_map g) ops = Ok (visit_spec_run nodes [] ops).
Proof. intros A D N E m s axes fwd opp cell step coord SC. exact (y_visit SC). Qed.
Print Assumptions C114_visit_map.

(** A board of 3 x 3 looped in both directions, undirected and directed, and a chess board with the moves of a knight. *)
Example C114_case :
  (ShapeContract Debug (torus 3 3) [SX; SY] sq_fwd dsq_backward (fun x y => (x, y))
     (torus_step 3 3) usize_pair /\
   let g := demo (torus 3 3) Debug in
   collect (neighbors_next Debug g (2, 0)) 10 (neighbors g (2, 0))
     = Ok [(0, 0); (2, 1); (1, 0); (2, 2)] /\
   (let! it := edges Debug g (0, 0) in collect (edges_next Debug g) 10 it)
     = Ok [mkEdgeRef (0, 0) (1, 0) 1000 DX; mkEdgeRef (0, 0) (0, 1) 1001 DY;
           mkEdgeRef (0, 0) (2, 0) 1200 DRX; mkEdgeRef (0, 0) (0, 2) 1021 DRY] /\
   edge_weight Debug g ((2, 0), SX) = Ok (Some 1200) /\
   edge_weight Debug g ((3, 0), SX) = Ok None) /\
  (ShapeContract Debug (torus_dir 3 3) [DX; DY; DRX; DRY] (fun d => d) dsq_backward
     (fun x y => (x, y)) (torus_step 3 3) usize_pair /\
   let g := demo (torus_dir 3 3) Debug in
   (let! it := edges Debug g (0, 0) in collect (edges_next Debug g) 10 it)
     = Ok [mkEdgeRef (0, 0) (1, 0) 1000 DX; mkEdgeRef (0, 0) (0, 1) 1001 DY;
           mkEdgeRef (0, 0) (2, 0) 1002 DRX; mkEdgeRef (0, 0) (0, 2) 1003 DRY]) /\
  (ShapeContract Release (chess 8 8) [NE1; NE2; SE2; SE1] GFoward turn (fun x y => (x, y))
     (knight_step 8 8) usize_pair /\
   let g := demo (chess 8 8) Release in
   collect (neighbors_next Release g (1, 0)) 10 (neighbors g (1, 0))
     = Ok [(2, 2); (3, 1); (0, 2)] /\
   is_adjacent Release g (1, 0) (0, 2) = Ok true /\
   is_adjacent Release g (1, 0) (1, 1) = Ok false /\
   to_index Release g (1, 0) = Ok 8).
Proof.
  split; [|split].
  - split; [apply torus_contract; repeat split; vm_compute; congruence|]. vm_compute. auto.
  - split; [apply torus_dir_contract; repeat split; vm_compute; congruence|]. vm_compute. auto.
  - split; [apply chess_contract; repeat split; vm_compute; congruence|]. vm_compute. auto.
Qed.

(** Of every size. *)
Example C114_sizes : forall m w h, fits w h ->
  ShapeContract m (torus w h) [SX; SY] sq_fwd dsq_backward (fun x y => (x, y)) (torus_step w h)
    usize_pair /\
  ShapeContract m (torus_dir w h) [DX; DY; DRX; DRY] (fun d => d) dsq_backward
    (fun x y => (x, y)) (torus_step w h) usize_pair /\
  ShapeContract m (chess w h) [NE1; NE2; SE2; SE1] GFoward turn (fun x y => (x, y))
    (knight_step w h) usize_pair.
Proof. intros m w h F. exact (conj (torus_contract m w h F)
  (conj (torus_dir_contract m w h F) (chess_contract m w h F))). Qed.

(** ** C115 *)

(** The start first, every node that is reached once, and none before one that needs fewer
    steps. *)
Theorem C115_bfs :
  forall (A D N E : Type) (m : mode) (s : Shape Cell A D) axes fwd opp cell step coord,
  ShapeContract m s axes fwd opp cell step coord ->
  let G := contract_geometry s axes fwd opp cell step coord in
  let nodes := board (sh_horizontal s) (sh_vertical s) cell in
  forall (g : LatticeGraph Cell A D N E) nf ef, Built m s G g nf ef ->
  forall start, In start nodes ->
  exists it l, bfs_new (vm_visit m (g_s g)) (visit_map g) start = Ok it /\
    Drains (bfs_next (neighbors g) (neighbors_next m g) (vm_visit m (g_s g))) it l /\
    hd_error l = Some start /\ NoDup l /\
    (forall c, In c l <-> exists n, Reached (neighbors g) (neighbors_next m g) nodes start n c) /\
    forall l1 a l2 b l3 n, l = l1 ++ a :: l2 ++ b :: l3 ->
      Reached (neighbors g) (neighbors_next m g) nodes start n b ->
      exists k, (k <= n)%nat /\ Reached (neighbors g) (neighbors_next m g) nodes start k a.
Proof. intros A D N E m s axes fwd opp cell step coord SC. exact (y_bfs SC). Qed.
Print Assumptions C115_bfs.

(** The start first, every node that is reached once, each a neighbour of an earlier one. *)
Theorem C115_dfs :
  forall (A D N E : Type) (m : mode) (s : Shape Cell A D) axes fwd opp cell step coord,
  ShapeContract m s axes fwd opp cell step coord ->
  let G := contract_geometry s axes fwd opp cell step coord in
  let nodes := board (sh_horizontal s) (sh_vertical s) cell in
  forall (g : LatticeGraph Cell A D N E) nf ef, Built m s G g nf ef ->
  forall start, In start nodes ->
  exists l, Drains (dfs_next (neighbors g) (neighbors_next m g) (vm_visit m (g_s g))
      (vm_is_visited m (g_s g))) (dfs_new (visit_map g) start) l /\
    hd_error l = Some start /\ NoDup l /\
    (forall c, In c l <-> exists n, Reached (neighbors g) (neighbors_next m g) nodes start n c) /\
    forall l1 c l2, l = l1 ++ c :: l2 -> l1 <> [] ->
      exists p ln, In p l1 /\ Drains (neighbors_next m g p) (neighbors g p) ln /\ In c ln.
Proof. intros A D N E m s axes fwd opp cell step coord SC. exact (y_dfs SC). Qed.
Print Assumptions C115_dfs.

(** Whatever the costs, if none is negative, and whatever the priority queue: the search ends
    with the least cost of every node to which a route leads. *)
Theorem C115_dijkstra :
  forall (A D N E : Type) (m : mode) (s : Shape Cell A D) axes fwd opp cell step coord,
  ShapeContract m s axes fwd opp cell step coord ->
  let G := contract_geometry s axes fwd opp cell step coord in
  let nodes := board (sh_horizontal s) (sh_vertical s) cell in
  forall (g : LatticeGraph Cell A D N E) nf ef, Built m s G g nf ef ->
  forall H, HeapOK H -> forall cost start, In start nodes ->
  let target := fun e : EdgeReference Cell E D => Ok (er_target e) in
  (forall c e, In c nodes -> EdgeAt (edges m g) (edges_next m g) c e -> 0 <= cost e) ->
  exists r,
    Returns (dijkstra_round veqb H (edges m g) (edges_next m g) target cost
        (vm_visit m (g_s g)) (vm_is_visited m (g_s g)) None)
      (dijkstra_init veqb H (visit_map g) start) r /\
    forall c, match r c with
              | Some x => LeastCost (edges m g) (edges_next m g) target cost start c x
              | None => ~ exists p k, Route (edges m g) (edges_next m g) target cost start p k c
              end.
Proof. intros A D N E m s axes fwd opp cell step coord SC. exact (y_dijkstra SC). Qed.
Print Assumptions C115_dijkstra.

(** On a board of 3 x 3 a knight reaches all squares but the one in the middle; from there it
    reaches none. *)
Example C115_case :
  let s := chess 3 3 in let g := demo s Debug in
  let bfs c :=
    let! it := bfs_new (vm_visit Debug (g_s g)) (visit_map g) c in
    Demo.collect (bfs_next (neighbors g) (neighbors_next Debug g) (vm_visit Debug (g_s g))) 20 it in
  ShapeContract Debug s [NE1; NE2; SE2; SE1] GFoward turn (fun x y => (x, y))
     (knight_step 3 3) usize_pair /\
  HeapOK (list_heap (C := Cell)) /\
  bfs (0, 0) = Ok [(0, 0); (1, 2); (2, 1); (2, 0); (0, 2); (0, 1); (1, 0); (2, 2)] /\
  bfs (1, 1) = Ok [(1, 1)] /\
  match loop (dijkstra_round veqb list_heap (edges Debug g) (edges_next Debug g)
      (fun e => Ok (er_target e)) (fun _ => 1) (vm_visit Debug (g_s g))
      (vm_is_visited Debug (g_s g)) None) (dijkstra_init veqb list_heap (visit_map g) (0, 0)) with
  | Ok st => map st [(0, 0); (2, 1); (0, 2); (2, 2); (1, 1)] = [Some 0; Some 1; Some 2; Some 4; None]
  | Fail _ => False
  end.
Proof.
  cbv zeta. split; [apply chess_contract; repeat split; vm_compute; congruence|].
  split; [apply list_heap_ok|]. vm_compute. auto.
Qed.
