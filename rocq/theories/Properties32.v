(** * Properties32: the costs of the k-th cheapest walks (C126, C127).

    [kshortest_init], [kshortest_round]: petgraph's [k_shortest_path] (KShortest.v); [Returns]:
    the loop ends without a fault; [HeapOK H]: [H] is a priority queue (Astar.v).  [Taken]: a walk,
    told by which of the edges it takes at each node, and what it costs; [KthCosts]: the map holds
    the costs of the [k]-th cheapest walks (Spec24.v).  [Sound] (Spec21.v): the shapes of the crate
    whose boards are traversed as drawn and those of users that keep to the contract. *)

From Verif Require Import CustomDemo Machine Store Axes Shapes Lattice SquareGraph Spec SpecSquare
  Spec4 Spec19 Spec21 Traverse Astar KShortest Spec24 KShortestMain Demo SquareDemo AstarDemo.

(** ** C126 *)

Theorem C126_costs :
  forall (A D N E : Type) (m : mode) (s : Shape Cell A D) (G : Geometry A D), Sound m s G ->
  forall (g : LatticeGraph Cell A D N E) nf ef, Built m s G g nf ef ->
  forall H, HeapOK H ->
  let target := fun e : EdgeReference Cell E D => Ok (er_target e) in
  forall cost goal k start,
  (forall a e, In a (geo_nodes G) -> EdgeAt (edges m g) (edges_next m g) a e -> 0 <= cost e) ->
  1 <= k -> In start (geo_nodes G) ->
  exists st r,
    kshortest_init H (node_count m g) start = Ok st /\
    Returns (kshortest_round veqb H (to_index m g) (edges m g) (edges_next m g) target cost goal k)
      st r /\
    KthCosts (fun c w y => Taken (edges m g) (edges_next m g) target cost start w y c) goal k r.
Proof. exact (@c126_costs). Qed.
Print Assumptions C126_costs.

(** On an undirected graph, from a node with an edge, the map has the same nodes for every [k]:
    those that can be reached. *)
Theorem C126_undirected :
  forall (A D N E : Type) (m : mode) (s : Shape Cell A D) (G : Geometry A D), Sound m s G ->
  forall (g : LatticeGraph Cell A D N E) nf ef, Built m s G g nf ef ->
  forall H, HeapOK H -> ag_directed (geo_ax G) = false ->
  let target := fun e : EdgeReference Cell E D => Ok (er_target e) in
  forall cost k start,
  (forall a e, In a (geo_nodes G) -> EdgeAt (edges m g) (edges_next m g) a e -> 0 <= cost e) ->
  1 <= k -> In start (geo_nodes G) ->
  (exists e, EdgeAt (edges m g) (edges_next m g) start e) ->
  forall st r, kshortest_init H (node_count m g) start = Ok st ->
  Returns (kshortest_round veqb H (to_index m g) (edges m g) (edges_next m g) target cost None k)
    st r ->
  forall c, r c <> None <->
    exists p x, Route (edges m g) (edges_next m g) target cost start p x c.
Proof. exact (@c126_undirected). Qed.
Print Assumptions C126_undirected.

(** With [k = 0] the map is empty. *)
Theorem C126_zero :
  forall (A D N E : Type) (m : mode) (s : Shape Cell A D) (G : Geometry A D), Sound m s G ->
  forall (g : LatticeGraph Cell A D N E) nf ef, Built m s G g nf ef ->
  forall H, HeapOK H ->
  let target := fun e : EdgeReference Cell E D => Ok (er_target e) in
  forall cost goal start, In start (geo_nodes G) ->
  exists st,
    kshortest_init H (node_count m g) start = Ok st /\
    Returns (kshortest_round veqb H (to_index m g) (edges m g) (edges_next m g) target cost goal 0)
      st (fun _ => None).
Proof. exact (@c126_zero). Qed.
Print Assumptions C126_zero.

(** A directed board, without a goal and with one; and the centre of the knight's board of three
    by three, from which there is one walk, to itself. *)
Example C126_case :
  let run {A D N} (g : LatticeGraph Cell A D N Z) (price : Z -> Z) k goal c l :=
    match kshortest_init list_heap (node_count Debug g) c with
    | Ok st =>
        match loop (kshortest_round veqb list_heap (to_index Debug g) (edges Debug g)
          (edges_next Debug g) (fun e => Ok (er_target e)) (fun e => price (er_weight e)) goal k) st
        with Ok r => map r l | Fail _ => [] end
    | Fail _ => []
    end in
  let shown := [(0, 0); (-1, 1); (-1, 2); (1, 0); (0, 1); (0, 2); (2, 0); (1, 1); (1, 2)] in
  Sound Debug hd hdG /\ Built Debug hd hdG (demo hd Debug) demo_node (demo_edge hd) /\
  HeapOK (list_heap (C := Cell)) /\
  run (demo hd Debug) (fun w => w mod 7) 1 None (0, 0) shown =
    [Some 0; Some 4; Some 2; Some 0; Some 2; Some 3; Some 2; Some 1; Some 5] /\
  run (demo hd Debug) (fun w => w mod 7) 3 None (0, 0) shown =
    [Some 6; Some 8; Some 4; Some 2; Some 4; Some 4; Some 4; Some 3; Some 7] /\
  run (demo hd Debug) (fun w => w mod 7) 3 (Some (0, 1)) (0, 0) shown =
    [None; None; None; Some 2; Some 4; None; None; Some 3; None] /\
  Sound Debug sq sqG /\ ag_directed (geo_ax sqG) = false /\
  Built Debug sq sqG (demo sq Debug) demo_node (demo_edge sq) /\
  run (demo sq Debug) (fun w => w mod 7) 5 None (0, 0) (geo_nodes sqG) =
    [Some 0; Some 0; Some 4; Some 2; Some 5; Some 6] /\
  (let s := chess 3 3 in
   Sound Debug s (contract_geometry s [NE1; NE2; SE2; SE1] GFoward turn (fun x y => (x, y))
     (knight_step 3 3) usize_pair) /\
   run (demo s Debug) (fun _ => 1) 1 None (1, 1) [(0, 0); (1, 1)] = [None; Some 0] /\
   run (demo s Debug) (fun _ => 1) 2 None (1, 1) [(0, 0); (1, 1)] = [None; None]).
Proof.
  cbv zeta. split; [apply sound_crate; exact hd_ok|]. split; [apply demo_built, hd_ok|].
  split; [apply list_heap_ok|].
  split; [vm_compute; reflexivity|]. split; [vm_compute; reflexivity|].
  split; [vm_compute; reflexivity|].
  split; [apply sound_crate; exact sq_ok|]. split; [reflexivity|]. split; [apply demo_built, sq_ok|].
  split; [vm_compute; reflexivity|]. split.
  - eapply sound_user; [apply chess_contract; repeat split; vm_compute; congruence|reflexivity].
  - split; vm_compute; reflexivity.
Qed.

(** ** C127 *)

Theorem C127_costs :
  forall (N E : Type) (ix : IxType) (S : LoopShape) (m : mode) (h v : Z),
  sq_size S h v -> sq_index_fits ix h v ->
  forall (g : SquareGraph N E ix S) nf ef, SqBuilt m h v g nf ef ->
  forall H, HeapOK H ->
  let edges := fun n => Ok (sg_edges g n) in
  let target := sr_target (ix := ix) (S := S) m in
  forall cost goal k start,
  (forall a e, on_board h v a -> EdgeAt edges (sg_edges_next m g) a e -> 0 <= cost e) ->
  1 <= k -> on_board h v start ->
  exists st r,
    kshortest_init H (Ok (sg_node_count g)) start = Ok st /\
    Returns (kshortest_round veqb H (sg_to_index m g) edges (sg_edges_next m g) target cost goal k)
      st r /\
    KthCosts (fun c w y => Taken edges (sg_edges_next m g) target cost start w y c) goal k r.
Proof. exact (@c127_costs). Qed.
Print Assumptions C127_costs.

Theorem C127_map :
  forall (N E : Type) (ix : IxType) (S : LoopShape) (m : mode) (h v : Z),
  sq_size S h v -> sq_index_fits ix h v ->
  forall (g : SquareGraph N E ix S) nf ef, SqBuilt m h v g nf ef ->
  forall H, HeapOK H ->
  let edges := fun n => Ok (sg_edges g n) in
  let target := sr_target (ix := ix) (S := S) m in
  forall cost k start,
  (forall a e, on_board h v a -> EdgeAt edges (sg_edges_next m g) a e -> 0 <= cost e) ->
  1 <= k -> on_board h v start ->
  (exists e, EdgeAt edges (sg_edges_next m g) start e) ->
  forall st r, kshortest_init H (Ok (sg_node_count g)) start = Ok st ->
  Returns (kshortest_round veqb H (sg_to_index m g) edges (sg_edges_next m g) target cost None k)
    st r ->
  forall c, r c <> None <-> exists p x, Route edges (sg_edges_next m g) target cost start p x c.
Proof. exact (@c127_map). Qed.
Print Assumptions C127_map.

Theorem C127_zero :
  forall (N E : Type) (ix : IxType) (S : LoopShape) (m : mode) (h v : Z),
  sq_size S h v -> sq_index_fits ix h v ->
  forall (g : SquareGraph N E ix S) nf ef, SqBuilt m h v g nf ef ->
  forall H, HeapOK H ->
  let edges := fun n => Ok (sg_edges g n) in
  let target := sr_target (ix := ix) (S := S) m in
  forall cost goal start, on_board h v start ->
  exists st,
    kshortest_init H (Ok (sg_node_count g)) start = Ok st /\
    Returns (kshortest_round veqb H (sg_to_index m g) edges (sg_edges_next m g) target cost goal 0)
      st (fun _ => None).
Proof. exact (@c127_zero). Qed.
Print Assumptions C127_zero.

Example C127_case :
  let run k goal :=
    match kshortest_init list_heap (Ok (sg_node_count hl)) (0, 0) with
    | Ok st =>
        match loop (kshortest_round veqb list_heap (sg_to_index Debug hl)
          (fun n => Ok (sg_edges hl n)) (sg_edges_next Debug hl)
          (sr_target (ix := IxU8) (S := HorizontalLoop) Debug) (fun e => sr_weight e mod 7) goal k) st
        with Ok r => map r (sq_nodes 3 2) | Fail _ => [] end
    | Fail _ => []
    end in
  sq_size HorizontalLoop 3 2 /\ sq_index_fits IxU8 3 2 /\ SqBuilt Debug 3 2 hl sq_node sq_edge /\
  HeapOK (list_heap (C := NodeIndex)) /\
  sq_nodes 3 2 = [(0, 0); (0, 1); (1, 0); (1, 1); (2, 0); (2, 1)] /\
  run 1 None = [Some 0; Some 4; Some 2; Some 2; Some 1; Some 4] /\
  run 4 None = [Some 4; Some 5; Some 2; Some 2; Some 5; Some 7] /\
  run 2 (Some (2, 0)) = [Some 2; None; Some 2; Some 2; Some 3; None].
Proof.
  cbv zeta. split; [apply hl_size|]. split; [apply hl_fits|]. split; [apply hl_built|].
  split; [apply list_heap_ok|]. split; [reflexivity|]. vm_compute. auto.
Qed.
