(** * Properties5: walks and traversals (C63-C67).

    [Supported s G]: a shape of the crate on a board of allocatable size, and the lattice [G]
    it stands for; [Built m s G g nf ef]: [g] was built by construction and any writes (Spec.v).
    [shortest m g a b n]: [n] steps, each to one of the [neighbors], lead from [a] to [b], and
    no fewer do; [Distance s G dist]: the distance in the plane that belongs to the shape
    (Spec4.v).  [bfs_new], [bfs_next], [dfs_new], [dfs_next]: petgraph's [Bfs] and [Dfs] over
    the graph's own [neighbors] and visit map (Traverse.v).  [SqBuilt], [on_board], [sq_nodes],
    [sq_shortest], [sq_distance]: the same notions for [SquareGraph] (SpecSquare.v). *)

From Verif Require Import Machine Store Axes Shapes Lattice SquareGraph Traverse Spec SpecSquare
  Spec4 Main1 DistProofs SearchProofs SquareSearch Demo SquareDemo.
From Coq Require Import Permutation.

(** ** C63 *)

Theorem C63_shortest :
  forall (A D N E : Type) (m : mode) (s : Shape Cell A D) (G : Geometry A D) dist,
  Supported s G -> Distance s G dist ->
  forall (g : LatticeGraph Cell A D N E) nf ef, Built m s G g nf ef ->
  forall a b, In a (geo_nodes G) -> In b (geo_nodes G) -> shortest m g a b (dist a b).
Proof. exact c63. Qed.
Print Assumptions C63_shortest.

(** Each of the shapes has a distance, so the theorem speaks about all of them. *)
Theorem C63_every_shape :
  forall (A D : Type) (s : Shape Cell A D) (G : Geometry A D),
  Supported s G -> exists dist, Distance s G dist.
Proof. exact c63_every. Qed.
Print Assumptions C63_every_shape.

(** On the looped board of three columns the western and eastern rims are one step apart, on
    the board without the loop they are two steps apart. *)
Example C63_case :
  Supported lp lpG /\
  Distance lp lpG
    (fun c c' => around hex_rows (6, 0) (offset_r_pos OddR c) (offset_r_pos OddR c')) /\
  Built Debug lp lpG (demo lp Debug) demo_node (demo_edge lp) /\
  In (0, 0) (geo_nodes lpG) /\ In (2, 0) (geo_nodes lpG) /\
  around hex_rows (6, 0) (offset_r_pos OddR (0, 0)) (offset_r_pos OddR (2, 0)) = 1 /\
  Distance hx hxG (fun c c' => hex_rows (offset_r_pos OddR c) (offset_r_pos OddR c')) /\
  hex_rows (offset_r_pos OddR (0, 0)) (offset_r_pos OddR (2, 0)) = 2 /\
  Distance sq sqG taxicab /\ taxicab (0, 0) (2, 1) = 3.
Proof.
  split; [exact lp_ok|]. split; [exact (dist_offset_r_loop OddR 3 2)|].
  split; [apply demo_built, lp_ok|]. split; [vm_compute; tauto|]. split; [vm_compute; tauto|].
  split; [reflexivity|]. split; [exact (dist_offset_r OddR 3 3)|]. split; [reflexivity|].
  split; [exact (dist_square 3 2)|reflexivity].
Qed.

(** ** C64 *)

(** Every cell once, the start first, and never a cell before one that is closer. *)
Theorem C64_bfs :
  forall (A D N E : Type) (m : mode) (s : Shape Cell A D) (G : Geometry A D), Supported s G ->
  forall (g : LatticeGraph Cell A D N E) nf ef, Built m s G g nf ef ->
  forall start, In start (geo_nodes G) ->
  exists it l, bfs_new (vm_visit m (g_s g)) (visit_map g) start = Ok it /\
    Drains (bfs_next (neighbors g) (neighbors_next m g) (vm_visit m (g_s g))) it l /\
    Permutation l (geo_nodes G) /\ hd_error l = Some start /\
    forall l1 a l2 b l3 na nb, l = l1 ++ a :: l2 ++ b :: l3 ->
      shortest m g start a na -> shortest m g start b nb -> na <= nb.
Proof. exact (@c64). Qed.
Print Assumptions C64_bfs.

Example C64_case :
  Supported hx hxG /\ Built Debug hx hxG (demo hx Debug) demo_node (demo_edge hx) /\
  In (1, 0) (geo_nodes hxG) /\
  (let g := demo hx Debug in
   let! it := bfs_new (vm_visit Debug (g_s g)) (visit_map g) (1, 0) in
   collect (bfs_next (neighbors g) (neighbors_next Debug g) (vm_visit Debug (g_s g))) 20 it)
  = Ok [(1, 0); (1, 1); (2, 0); (0, 0); (0, 1); (2, 2); (2, 1); (1, 2); (0, 2)].
Proof.
  split; [exact hx_ok|]. split; [apply demo_built, hx_ok|]. split; [vm_compute; tauto|].
  vm_compute. reflexivity.
Qed.

(** ** C65 *)

(** Every cell once, the start first, each further cell next to one that came before. *)
Theorem C65_dfs :
  forall (A D N E : Type) (m : mode) (s : Shape Cell A D) (G : Geometry A D), Supported s G ->
  forall (g : LatticeGraph Cell A D N E) nf ef, Built m s G g nf ef ->
  forall start, In start (geo_nodes G) ->
  exists l, Drains (dfs_next (neighbors g) (neighbors_next m g) (vm_visit m (g_s g))
      (vm_is_visited m (g_s g))) (dfs_new (visit_map g) start) l /\
    Permutation l (geo_nodes G) /\ hd_error l = Some start /\
    forall l1 c l2, l = l1 ++ c :: l2 -> l1 <> [] ->
      exists p ln, In p l1 /\ Drains (neighbors_next m g p) (neighbors g p) ln /\ In c ln.
Proof. exact (@c65). Qed.
Print Assumptions C65_dfs.

Example C65_case :
  Supported hx hxG /\ Built Debug hx hxG (demo hx Debug) demo_node (demo_edge hx) /\
  In (1, 0) (geo_nodes hxG) /\
  (let g := demo hx Debug in
   collect (dfs_next (neighbors g) (neighbors_next Debug g) (vm_visit Debug (g_s g))
     (vm_is_visited Debug (g_s g))) 20 (dfs_new (visit_map g) (1, 0)))
  = Ok [(1, 0); (0, 1); (0, 2); (1, 2); (1, 1); (2, 0); (2, 1); (2, 2); (0, 0)].
Proof.
  split; [exact hx_ok|]. split; [apply demo_built, hx_ok|]. split; [vm_compute; tauto|].
  vm_compute. reflexivity.
Qed.

(** ** C66 *)

Theorem C66_square_searches :
  forall (N E : Type) (ix : IxType) (S : LoopShape) (m : mode) (h v : Z),
  sq_size S h v -> sq_index_fits ix h v ->
  forall (g : SquareGraph N E ix S) nf ef, SqBuilt m h v g nf ef ->
  forall start, on_board h v start ->
  let next := fun _ : NodeIndex => sg_neighbors_next (ix := ix) (S := S) m in
  (exists it l, bfs_new svm_visit (sg_visit_map g) start = Ok it /\
     Drains (bfs_next (sg_neighbors g) next svm_visit) it l /\
     Permutation l (sq_nodes h v) /\ hd_error l = Some start /\
     forall l1 a l2 b l3 na nb, l = l1 ++ a :: l2 ++ b :: l3 ->
       sq_shortest m g start a na -> sq_shortest m g start b nb -> na <= nb) /\
  (exists l, Drains (dfs_next (sg_neighbors g) next svm_visit svm_is_visited)
       (dfs_new (sg_visit_map g) start) l /\
     Permutation l (sq_nodes h v) /\ hd_error l = Some start /\
     forall l1 c l2, l = l1 ++ c :: l2 -> l1 <> [] ->
       exists p ln, In p l1 /\ Drains (next p) (sg_neighbors g p) ln /\ In c ln).
Proof. exact (@c66). Qed.
Print Assumptions C66_square_searches.

Example C66_case :
  sq_size HorizontalLoop 3 2 /\ sq_index_fits IxU8 3 2 /\
  SqBuilt Debug 3 2 hl sq_node sq_edge /\ on_board 3 2 (0, 1) /\
  (let next := fun _ : NodeIndex => sg_neighbors_next (ix := IxU8) (S := HorizontalLoop) Debug in
   (let! it := bfs_new svm_visit (sg_visit_map hl) (0, 1) in
    collect (bfs_next (sg_neighbors hl) next svm_visit) 20 it)
     = Ok [(0, 1); (2, 1); (1, 1); (0, 0); (2, 0); (1, 0)] /\
   collect (dfs_next (sg_neighbors hl) next svm_visit svm_is_visited) 20
     (dfs_new (sg_visit_map hl) (0, 1))
     = Ok [(0, 1); (0, 0); (1, 0); (1, 1); (2, 1); (2, 0)]).
Proof.
  split; [exact hl_size|]. split; [exact hl_fits|]. split; [exact hl_built|].
  split; [unfold on_board; cbn; lia|]. vm_compute. auto.
Qed.

(** ** C67 *)

Theorem C67_square_shortest :
  forall (N E : Type) (ix : IxType) (S : LoopShape) (m : mode) (h v : Z),
  sq_size S h v -> sq_index_fits ix h v ->
  forall (g : SquareGraph N E ix S) nf ef, SqBuilt m h v g nf ef ->
  forall a b, on_board h v a -> on_board h v b ->
  sq_shortest m g a b (sq_distance S h v a b).
Proof. exact (@sq_shortest_dist). Qed.
Print Assumptions C67_square_shortest.

Example C67_case :
  sq_size HorizontalLoop 3 2 /\ sq_index_fits IxU8 3 2 /\
  SqBuilt Debug 3 2 hl sq_node sq_edge /\ on_board 3 2 (0, 1) /\ on_board 3 2 (2, 0) /\
  sq_distance HorizontalLoop 3 2 (0, 1) (2, 0) = 2 /\
  sq_size DefaultShape 3 2 /\ sq_index_fits IxU32 3 2 /\ SqBuilt Debug 3 2 ds sq_node sq_edge /\
  sq_distance DefaultShape 3 2 (0, 1) (2, 0) = 3.
Proof.
  split; [exact hl_size|]. split; [exact hl_fits|]. split; [exact hl_built|].
  split; [unfold on_board; cbn; lia|]. split; [unfold on_board; cbn; lia|].
  split; [reflexivity|]. split; [exact ds_size|]. split; [exact ds_fits|].
  split; [exact ds_built|reflexivity].
Qed.
