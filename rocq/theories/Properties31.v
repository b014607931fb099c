(** * Properties31: least costs where edges may cost less than nothing (C124, C125).

    [bellman_ford] (Bellman.v) is petgraph's.  [Route] (Spec4.v): a way along [edges] and what it
    costs; [NegativeCycle], [Answered], [at_index] (Spec23.v); [Sound] (Spec21.v): the shapes of
    the crate whose boards are traversed as drawn and those of users that keep to the contract. *)

From Verif Require Import CustomDemo Machine Store Axes Shapes Lattice SquareGraph Spec SpecSquare
  Spec4 Spec19 Spec21 Bellman Spec23 BellmanMain Demo SquareDemo.

(** ** C124 *)

(** Either there is a negative cycle that can be reached and it says so, or it gives the least
    cost of every node and predecessors that trace ways of that cost. *)
Theorem C124_costs :
  forall (A D N E : Type) (m : mode) (s : Shape Cell A D) (G : Geometry A D), Sound m s G ->
  forall (g : LatticeGraph Cell A D N E) nf ef, Built m s G g nf ef ->
  let target := fun e : EdgeReference Cell E D => Ok (er_target e) in
  forall (cost : EdgeReference Cell E D -> Z) start, In start (geo_nodes G) ->
  exists r,
    bellman_ford (node_count m g) (node_bound m g) (to_index m g) (node_identifiers g)
      (node_indices_next m (g_s g)) (edges m g) (edges_next m g) target cost start = Ok r /\
    Answered (Route (edges m g) (edges_next m g) target cost) (@at_index Cell (to_index m g))
      (geo_nodes G) start r.
Proof. exact (@c124_costs). Qed.
Print Assumptions C124_costs.

(** On an undirected graph that is the case as soon as there is a negative edge to be reached:
    it can be taken there and back. *)
Theorem C124_undirected :
  forall (A D N E : Type) (m : mode) (s : Shape Cell A D) (G : Geometry A D), Sound m s G ->
  forall (g : LatticeGraph Cell A D N E) nf ef, Built m s G g nf ef ->
  ag_directed (geo_ax G) = false ->
  forall (price : E -> Z) start, In start (geo_nodes G) ->
  let target := fun e : EdgeReference Cell E D => Ok (er_target e) in
  let cost := fun e : EdgeReference Cell E D => price (er_weight e) in
  let way := Route (edges m g) (edges_next m g) target cost in
  NegativeCycle way start <->
  exists a p x e, way start p x a /\ EdgeAt (edges m g) (edges_next m g) a e /\ cost e < 0.
Proof. exact (@c124_undirected). Qed.
Print Assumptions C124_undirected.

(** What an edge costs by the axis it lies on. *)
Definition fare (l : list Z) (w : Z) : Z := nth (Z.to_nat (w mod 10)) l 0.

(** A directed board on which some edges cost less than nothing but no cycle does, the same board
    with a cycle that does, an undirected board, and the knight's moves on a board of three by
    three, whose centre cannot be reached. *)
Example C124_case :
  let run {A D N} (g : LatticeGraph Cell A D N Z) (price : Z -> Z) c :=
    bellman_ford (node_count Debug g) (node_bound Debug g) (to_index Debug g) (node_identifiers g)
      (node_indices_next Debug (g_s g)) (edges Debug g) (edges_next Debug g)
      (fun e => Ok (er_target e)) (fun e => price (er_weight e)) c in
  Sound Debug hd hdG /\ Built Debug hd hdG (demo hd Debug) demo_node (demo_edge hd) /\
  geo_nodes hdG = [(0, 0); (-1, 1); (-1, 2); (1, 0); (0, 1); (0, 2); (2, 0); (1, 1); (1, 2)] /\
  run (demo hd Debug) (fare [-1; -2; -1; 2; 3; 2]) (0, 0) = Ok (Some
    ([Some 0; Some 2; Some 1; Some (-2); Some (-1); Some (-2); Some (-4); Some (-3); Some (-4)],
     [None; Some (0, 0); Some (-1, 1); Some (0, 0); Some (0, 0); Some (0, 1); Some (1, 0);
      Some (1, 0); Some (0, 2)])) /\
  run (demo hd Debug) (fare [-2; -2; -2; 3; 3; 3]) (0, 0) = Ok None /\
  Sound Debug sq sqG /\ ag_directed (geo_ax sqG) = false /\
  Built Debug sq sqG (demo sq Debug) demo_node (demo_edge sq) /\
  run (demo sq Debug) (fun w => w mod 7) (0, 0) = Ok (Some
    ([Some 0; Some 0; Some 4; Some 2; Some 5; Some 6],
     [None; Some (0, 0); Some (1, 1); Some (0, 1); Some (1, 0); Some (1, 1)])) /\
  run (demo sq Debug) (fun w => w mod 7 - 1) (0, 0) = Ok None /\
  (let s := chess 3 3 in
   Sound Debug s (contract_geometry s [NE1; NE2; SE2; SE1] GFoward turn (fun x y => (x, y))
     (knight_step 3 3) usize_pair) /\
   exists pred, run (demo s Debug) (fun _ => 1) (0, 0) = Ok (Some
     ([Some 0; Some 3; Some 2; Some 3; None; Some 1; Some 2; Some 1; Some 4], pred)) /\
     nth 4 pred (Some (0, 0)) = None).
Proof.
  cbv zeta. split; [apply sound_crate; exact hd_ok|]. split; [apply demo_built, hd_ok|].
  split; [reflexivity|]. split; [vm_compute; reflexivity|]. split; [vm_compute; reflexivity|].
  split; [apply sound_crate; exact sq_ok|]. split; [reflexivity|]. split; [apply demo_built, sq_ok|].
  split; [vm_compute; reflexivity|]. split; [vm_compute; reflexivity|]. split.
  - eapply sound_user; [apply chess_contract; repeat split; vm_compute; congruence|reflexivity].
  - eexists. split; vm_compute; reflexivity.
Qed.

(** ** C125 *)

Theorem C125_costs :
  forall (N E : Type) (ix : IxType) (S : LoopShape) (m : mode) (h v : Z),
  sq_size S h v -> sq_index_fits ix h v ->
  forall (g : SquareGraph N E ix S) nf ef, SqBuilt m h v g nf ef ->
  let edges := fun n => Ok (sg_edges g n) in
  let target := sr_target (ix := ix) (S := S) m in
  forall (cost : SqEdgeReference E -> Z) start, on_board h v start ->
  exists r,
    bellman_ford (Ok (sg_node_count g)) (Ok (sg_node_bound g)) (sg_to_index m g)
      (sg_node_identifiers g) (sg_node_indices_next (ix := ix) m) edges (sg_edges_next m g) target
      cost start = Ok r /\
    Answered (Route edges (sg_edges_next m g) target cost) (@at_index NodeIndex (sg_to_index m g))
      (sq_nodes h v) start r.
Proof. exact (@c125_costs). Qed.
Print Assumptions C125_costs.

Theorem C125_negative :
  forall (N E : Type) (ix : IxType) (S : LoopShape) (m : mode) (h v : Z),
  sq_size S h v -> sq_index_fits ix h v ->
  forall (g : SquareGraph N E ix S) nf ef, SqBuilt m h v g nf ef ->
  let edges := fun n => Ok (sg_edges g n) in
  let target := sr_target (ix := ix) (S := S) m in
  forall (price : EdgeIndex -> E -> Z) start, on_board h v start ->
  let cost := fun e : SqEdgeReference E => price (sr_id e) (sr_weight e) in
  let way := Route edges (sg_edges_next m g) target cost in
  NegativeCycle way start <->
  exists a p x e, way start p x a /\ EdgeAt edges (sg_edges_next m g) a e /\ cost e < 0.
Proof. exact (@c125_negative). Qed.
Print Assumptions C125_negative.

(** A board whose rows wrap around: the cheapest way from (0, 0) to (2, 0) goes round the edge. *)
Example C125_case :
  let run price c :=
    bellman_ford (Ok (sg_node_count hl)) (Ok (sg_node_bound hl)) (sg_to_index Debug hl)
      (sg_node_identifiers hl) (sg_node_indices_next (ix := IxU8) Debug)
      (fun n => Ok (sg_edges hl n)) (sg_edges_next Debug hl)
      (sr_target (ix := IxU8) (S := HorizontalLoop) Debug) (fun e => price (sr_weight e)) c in
  sq_size HorizontalLoop 3 2 /\ sq_index_fits IxU8 3 2 /\ SqBuilt Debug 3 2 hl sq_node sq_edge /\
  sq_nodes 3 2 = [(0, 0); (0, 1); (1, 0); (1, 1); (2, 0); (2, 1)] /\
  run (fun w => w mod 7) (0, 0) = Ok (Some
    ([Some 0; Some 4; Some 2; Some 2; Some 1; Some 4],
     [None; Some (0, 0); Some (0, 0); Some (1, 0); Some (0, 0); Some (2, 0)])) /\
  run (fun w => w mod 7 - 1) (0, 0) = Ok None.
Proof.
  cbv zeta. split; [apply hl_size|]. split; [apply hl_fits|]. split; [apply hl_built|].
  split; [reflexivity|]. vm_compute. auto.
Qed.
