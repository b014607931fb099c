(** * Properties21: the prices between all pairs of nodes, by [floyd_warshall] (C103, C104).

    [floyd_warshall]: petgraph's, over the graph's own [node_count], [to_index], [from_index],
    [is_directed], [node_identifiers] and [edge_references] (Floyd.v).  [lo] and [hi] are the
    bounds of the type of prices, [over] which of two edges between the same nodes counts. *)

From Verif Require Import Machine Store Axes Shapes Lattice SquareGraph Traverse Astar Dijkstra Spec
  SpecSquare Spec4 Spec5 Spec6 Spec13 Floyd Spec14 FloydMain PartsProofs Demo SquareDemo AstarDemo
  MoreDemo.

(** ** C103 *)

Theorem C103_prices :
  forall (A D N E : Type) (m : mode) (s : Shape Cell A D) (G : Geometry A D), Stored s G ->
  forall (g : LatticeGraph Cell A D N E) nf ef, Built m s G g nf ef ->
  forall (lo hi : Z) (over : bool) (price : E -> Z),
  (forall r, In r (spec_edge_references G ef) -> In (er_target r) (geo_nodes G)) ->
  lo <= 0 <= hi ->
  (forall r, In r (spec_edge_references G ef) -> 0 <= price (er_weight r) <= hi) ->
  let ways := ways_of (is_directed g) (priced price (map seen (spec_edge_references G ef))) in
  (over = true -> OnePrice ways) ->
  exists r,
    floyd_warshall (pair_eqb veqb) lo hi over (is_directed g) (node_count m g) (to_index m g)
      (from_index m g) (edge_references g) (edge_references_next m g)
      (fun e => Ok (er_source e)) (fun e => Ok (er_target e)) (fun e => price (er_weight e))
      (node_identifiers g) (node_indices_next m (g_s g)) = Ok (Some r) /\
    AllPrices hi ways (geo_nodes G) r.
Proof. exact (@c103_prices). Qed.
Print Assumptions C103_prices.

(** Where an edge leads off the board, the call panics. *)
Theorem C103_off_board :
  forall (A D N E : Type) (m : mode) (s : Shape Cell A D) (G : Geometry A D), Stored s G ->
  forall (g : LatticeGraph Cell A D N E) nf ef, Built m s G g nf ef ->
  forall (lo hi : Z) (over : bool) (price : E -> Z),
  (exists r, In r (spec_edge_references G ef) /\ ~ In (er_target r) (geo_nodes G)) ->
  floyd_warshall (pair_eqb veqb) lo hi over (is_directed g) (node_count m g) (to_index m g)
    (from_index m g) (edge_references g) (edge_references_next m g)
    (fun e => Ok (er_source e)) (fun e => Ok (er_target e)) (fun e => price (er_weight e))
    (node_identifiers g) (node_indices_next m (g_s g)) = Fail FPanic.
Proof. exact (@fw_fault). Qed.
Print Assumptions C103_off_board.

(** So on every shape of the crate (C82_every_shape) it is known which of the two happens. *)
Theorem C103_every_shape :
  forall (A D : Type) (s : Shape Cell A D) (G : Geometry A D) (pieces : outcome Z),
  Parts s G pieces -> Stored s G ->
  forall (N E : Type) (m : mode) (g : LatticeGraph Cell A D N E) nf ef, Built m s G g nf ef ->
  forall (lo hi : Z) (over : bool) (price : E -> Z), lo <= 0 <= hi ->
  let ways := ways_of (is_directed g) (priced price (map seen (spec_edge_references G ef))) in
  (forall r, In r (spec_edge_references G ef) -> 0 <= price (er_weight r) <= hi) ->
  (over = true -> OnePrice ways) ->
  let run := floyd_warshall (pair_eqb veqb) lo hi over (is_directed g) (node_count m g)
    (to_index m g) (from_index m g) (edge_references g) (edge_references_next m g)
    (fun e => Ok (er_source e)) (fun e => Ok (er_target e)) (fun e => price (er_weight e))
    (node_identifiers g) (node_indices_next m (g_s g)) in
  match pieces with
  | Ok _ => exists r, run = Ok (Some r) /\ AllPrices hi ways (geo_nodes G) r
  | Fail _ => run = Fail FPanic
  end.
Proof. exact c103_parts. Qed.
Print Assumptions C103_every_shape.

(** It agrees with the searches that go along [edges] (C80), up to the largest price. *)
Theorem C103_dijkstra :
  forall (A D N E : Type) (m : mode) (s : Shape Cell A D) (G : Geometry A D), Supported s G ->
  forall (g : LatticeGraph Cell A D N E) nf ef, Built m s G g nf ef ->
  forall (lo hi : Z) (over : bool) (price : E -> Z), lo <= 0 <= hi ->
  (forall r, In r (spec_edge_references G ef) -> 0 <= price (er_weight r) <= hi) ->
  (over = true ->
   OnePrice (ways_of (is_directed g) (priced price (map seen (spec_edge_references G ef))))) ->
  exists r,
    floyd_warshall (pair_eqb veqb) lo hi over (is_directed g) (node_count m g) (to_index m g)
      (from_index m g) (edge_references g) (edge_references_next m g)
      (fun e => Ok (er_source e)) (fun e => Ok (er_target e)) (fun e => price (er_weight e))
      (node_identifiers g) (node_indices_next m (g_s g)) = Ok (Some r) /\
    forall a b k, In a (geo_nodes G) -> In b (geo_nodes G) ->
      LeastCost (edges m g) (edges_next m g) (fun e => Ok (er_target e))
        (fun e => price (er_weight e)) a b k ->
      r (a, b) = Some (Z.min k hi).
Proof. exact (@c103_dijkstra). Qed.
Print Assumptions C103_dijkstra.

(** When every edge costs one, the table holds the distances of the lattice. *)
Theorem C103_distance :
  forall (A D N E : Type) (m : mode) (s : Shape Cell A D) (G : Geometry A D), Supported s G ->
  forall (g : LatticeGraph Cell A D N E) nf ef, Built m s G g nf ef ->
  forall (lo hi : Z) (over : bool) (price : E -> Z), lo <= 0 <= hi ->
  forall dist, Distance s G dist -> 1 <= hi ->
  (forall r, In r (spec_edge_references G ef) -> price (er_weight r) = 1) ->
  exists r,
    floyd_warshall (pair_eqb veqb) lo hi over (is_directed g) (node_count m g) (to_index m g)
      (from_index m g) (edge_references g) (edge_references_next m g)
      (fun e => Ok (er_source e)) (fun e => Ok (er_target e)) (fun e => price (er_weight e))
      (node_identifiers g) (node_indices_next m (g_s g)) = Ok (Some r) /\
    forall a b, In a (geo_nodes G) -> In b (geo_nodes G) ->
      r (a, b) = Some (Z.min (dist a b) hi).
Proof. exact (@c103_distance). Qed.
Print Assumptions C103_distance.

(** The board of the repository's test, whose weights serve as prices; the same with prices up
    to fifteen only; a directed board; a board in several pieces; one with an edge off the board. *)
Example C103_case :
  let run {A D N} (g : LatticeGraph Cell A D N Z) hi (price : Z -> Z) :=
    floyd_warshall (pair_eqb veqb) 0 hi false (is_directed g) (node_count Debug g)
      (to_index Debug g) (from_index Debug g) (edge_references g) (edge_references_next Debug g)
      (fun e => Ok (er_source e)) (fun e => Ok (er_target e)) (fun e => price (er_weight e))
      (node_identifiers g) (node_indices_next Debug (g_s g)) in
  let ask l r := match r with Ok (Some r) => map r l | _ => [] end in
  Supported test_shape testG /\ Built Debug test_shape testG test_board test_node test_edge /\
  Distance test_shape testG taxicab /\
  forallb (fun r => (0 <=? er_weight r) && (er_weight r <=? 15))
    (spec_edge_references testG test_edge) = true /\
  ask [((0, 0), (3, 2)); ((3, 2), (0, 0)); ((0, 0), (2, 1)); ((1, 1), (1, 1)); ((0, 0), (4, 0))]
    (run test_board (2 ^ 32 - 1) (fun w => w)) = [Some 21; Some 21; Some 5; Some 0; None] /\
  ask [((0, 0), (3, 2)); ((3, 2), (0, 0)); ((0, 0), (2, 1))]
    (run test_board 15 (fun w => w)) = [Some 15; Some 15; Some 5] /\
  ask [((0, 0), (3, 2)); ((3, 2), (0, 0))] (run test_board 255 (fun _ => 1)) = [Some 5; Some 5] /\
  Supported hd hdG /\ Built Debug hd hdG (demo hd Debug) demo_node (demo_edge hd) /\
  is_directed (demo hd Debug) = true /\
  ask [((0, 0), (1, 2)); ((1, 2), (0, 0)); ((2, 0), (0, 0))] (run (demo hd Debug) 255 (fun _ => 1))
    = [Some 3; Some 3; Some 2] /\
  Stored db dbG /\ Built Debug db dbG (demo db Debug) demo_node (demo_edge db) /\
  ask [((0, 0), (3, 1)); ((0, 0), (5, 1))] (run (demo db Debug) 255 (fun _ => 1))
    = [Some 2; Some 255] /\
  (let s := hex_offset_q OddQ 2 1 in
   Parts s (rect_code_geometry hexq_axes s 2 1) (Fail FPanic) /\
   run (demo s Debug) 255 (fun _ => 1) = Fail FPanic).
Proof.
  cbv zeta. split; [exact test_ok|]. split; [exact test_built|].
  split; [exact (dist_square 4 3)|]. split; [vm_compute; reflexivity|].
  split; [vm_compute; reflexivity|]. split; [vm_compute; reflexivity|].
  split; [vm_compute; reflexivity|].
  split; [exact hd_ok|]. split; [apply demo_built, hd_ok|]. split; [reflexivity|].
  split; [vm_compute; reflexivity|].
  split; [exact db_ok|]. split; [apply demo_stored, db_ok|]. split; [vm_compute; reflexivity|].
  split; [apply pa_offset_q; [apply fits_small; lia|lia|lia|vm_compute; discriminate]|].
  vm_compute. reflexivity.
Qed.

(** ** C104 *)

(** The property in full would have it without [1 <= v]: see C104_no_rows and C104_refuted. *)
Theorem C104_prices_partial :
  forall (N E : Type) (ix : IxType) (S : LoopShape) (m : mode) (h v : Z),
  sq_size S h v -> sq_index_fits ix h v ->
  forall (g : SquareGraph N E ix S) nf ef, SqBuilt m h v g nf ef ->
  forall (price : E -> Z) (lo hi : Z) (over : bool), 1 <= v -> lo <= 0 <= hi ->
  (forall x, In x (sq_all_edges S h v ef) -> 0 <= price (snd (plain_view x)) <= hi) ->
  let ways := both_ways (priced price (map plain_view (sq_all_edges S h v ef))) in
  (over = true -> OnePrice ways) ->
  exists r,
    floyd_warshall (pair_eqb veqb) lo hi over (sg_is_directed g) (Ok (sg_node_count g))
      (sg_to_index m g) (sg_from_index g) (sg_edge_references g) (sg_edge_references_next m g)
      (sr_source (ix := ix) (S := S) m) (sr_target (ix := ix) (S := S) m)
      (fun e => price (sr_weight e)) (sg_node_identifiers g) (sg_node_indices_next (ix := ix) m)
      = Ok (Some r) /\
    AllPrices hi ways (sq_nodes h v) r.
Proof. exact (@c104_prices). Qed.
Print Assumptions C104_prices_partial.

Theorem C104_dijkstra :
  forall (N E : Type) (ix : IxType) (S : LoopShape) (m : mode) (h v : Z),
  sq_size S h v -> sq_index_fits ix h v ->
  forall (g : SquareGraph N E ix S) nf ef, SqBuilt m h v g nf ef ->
  forall (lo hi : Z) (over : bool) (price : E -> Z), lo <= 0 <= hi -> 1 <= v ->
  (forall x, In x (sq_all_edges S h v ef) -> 0 <= price (snd (plain_view x)) <= hi) ->
  (over = true -> OnePrice (both_ways (priced price (map plain_view (sq_all_edges S h v ef))))) ->
  exists r,
    floyd_warshall (pair_eqb veqb) lo hi over (sg_is_directed g) (Ok (sg_node_count g))
      (sg_to_index m g) (sg_from_index g) (sg_edge_references g) (sg_edge_references_next m g)
      (sr_source (ix := ix) (S := S) m) (sr_target (ix := ix) (S := S) m)
      (fun e => price (sr_weight e)) (sg_node_identifiers g) (sg_node_indices_next (ix := ix) m)
      = Ok (Some r) /\
    forall a b k, on_board h v a -> on_board h v b ->
      LeastCost (fun n => Ok (sg_edges g n)) (sg_edges_next m g)
        (sr_target (ix := ix) (S := S) m) (fun e => price (sr_weight e)) a b k ->
      r (a, b) = Some (Z.min k hi).
Proof. exact (@c104_dijkstra). Qed.
Print Assumptions C104_dijkstra.

Theorem C104_distance :
  forall (N E : Type) (ix : IxType) (S : LoopShape) (m : mode) (h v : Z),
  sq_size S h v -> sq_index_fits ix h v ->
  forall (g : SquareGraph N E ix S) nf ef, SqBuilt m h v g nf ef ->
  forall (lo hi : Z) (over : bool) (price : E -> Z), lo <= 0 <= hi -> 1 <= v -> 1 <= hi ->
  (forall x, In x (sq_all_edges S h v ef) -> price (snd (plain_view x)) = 1) ->
  exists r,
    floyd_warshall (pair_eqb veqb) lo hi over (sg_is_directed g) (Ok (sg_node_count g))
      (sg_to_index m g) (sg_from_index g) (sg_edge_references g) (sg_edge_references_next m g)
      (sr_source (ix := ix) (S := S) m) (sr_target (ix := ix) (S := S) m)
      (fun e => price (sr_weight e)) (sg_node_identifiers g) (sg_node_indices_next (ix := ix) m)
      = Ok (Some r) /\
    forall a b, on_board h v a -> on_board h v b ->
      r (a, b) = Some (Z.min (sq_distance S h v a b) hi).
Proof. exact (@c104_distance). Qed.
Print Assumptions C104_distance.

(** On a board without rows there are no nodes, but [node_identifiers] yields one for every
    column but the first (C43): with two columns or more the call panics. *)
Theorem C104_no_rows :
  forall (N E : Type) (ix : IxType) (S : LoopShape) (m : mode) (h v : Z),
  sq_size S h v -> sq_index_fits ix h v ->
  forall (g : SquareGraph N E ix S) nf ef, SqBuilt m h v g nf ef ->
  forall (price : E -> Z) (lo hi : Z) (over : bool), v = 0 ->
  floyd_warshall (pair_eqb veqb) lo hi over (sg_is_directed g) (Ok (sg_node_count g))
    (sg_to_index m g) (sg_from_index g) (sg_edge_references g) (sg_edge_references_next m g)
    (sr_source (ix := ix) (S := S) m) (sr_target (ix := ix) (S := S) m)
    (fun e => price (sr_weight e)) (sg_node_identifiers g) (sg_node_indices_next (ix := ix) m)
    = if h <=? 1 then Ok (Some (fun _ => None)) else Fail FPanic.
Proof. exact (@c104_no_rows). Qed.
Print Assumptions C104_no_rows.

Theorem C104_refuted :
  exists (g : SquareGraph Z Z IxU32 VerticalLoop) nf ef,
    sq_size VerticalLoop 3 0 /\ sq_index_fits IxU32 3 0 /\ SqBuilt Debug 3 0 g nf ef /\
    floyd_warshall (pair_eqb veqb) 0 255 false (sg_is_directed g) (Ok (sg_node_count g))
      (sg_to_index Debug g) (sg_from_index g) (sg_edge_references g)
      (sg_edge_references_next Debug g) (sr_source (ix := IxU32) (S := VerticalLoop) Debug)
      (sr_target (ix := IxU32) (S := VerticalLoop) Debug) (fun e => sr_weight e)
      (sg_node_identifiers g) (sg_node_indices_next (ix := IxU32) Debug) = Fail FPanic.
Proof. exact c104_refuted. Qed.
Print Assumptions C104_refuted.

Example C104_case :
  let run {ix S N} (g : SquareGraph N Z ix S) hi (price : Z -> Z) :=
    floyd_warshall (pair_eqb veqb) 0 hi false (sg_is_directed g) (Ok (sg_node_count g))
      (sg_to_index Debug g) (sg_from_index g) (sg_edge_references g)
      (sg_edge_references_next Debug g) (sr_source (ix := ix) (S := S) Debug)
      (sr_target (ix := ix) (S := S) Debug) (fun e => price (sr_weight e))
      (sg_node_identifiers g) (sg_node_indices_next (ix := ix) Debug) in
  let ask l r := match r with Ok (Some r) => map r l | _ => [] end in
  sq_size HorizontalLoop 6 1 /\ sq_index_fits IxU32 6 1 /\
  SqBuilt Debug 6 1 (sqd IxU32 HorizontalLoop Debug 6 1) sq_node sq_edge /\
  ask [((1, 0), (0, 0)); ((1, 0), (5, 0)); ((1, 0), (4, 0)); ((1, 0), (6, 0))]
    (run (sqd IxU32 HorizontalLoop Debug 6 1) 255 (fun _ => 1)) = [Some 1; Some 2; Some 3; None] /\
  ask [((1, 0), (5, 0)); ((1, 0), (4, 0))] (run (sqd IxU32 HorizontalLoop Debug 6 1) 2 (fun _ => 1)) = [Some 2; Some 2] /\
  SqBuilt Debug 3 4 sq_test_board (fun _ => tt) sq_test_edge /\
  ask [((0, 0), (2, 3)); ((2, 3), (0, 0))] (run sq_test_board 255 (fun w => w))
    = [Some 31; Some 31] /\
  SqBuilt Debug 3 0 (sqd IxU32 VerticalLoop Debug 3 0) sq_node sq_edge /\
  run (sqd IxU32 VerticalLoop Debug 3 0) 255 (fun w => w) = Fail FPanic.
Proof.
  assert (SZ : sq_size HorizontalLoop 6 1) by sq_size.
  cbv zeta. split; [exact SZ|]. split; [index_fits|]. split; [apply sqd_built; exact SZ|].
  split; [vm_compute; reflexivity|]. split; [vm_compute; reflexivity|].
  split; [exact sq_test_built|]. split; [vm_compute; reflexivity|].
  split; [apply sqd_built; sq_size|]. vm_compute. reflexivity.
Qed.
