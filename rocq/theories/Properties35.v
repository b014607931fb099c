(** * Properties35: how often a node is listed among the neighbours of another (C131, C132).

    [Unlooped], [LoopsAfter], [Wide]: Spec27.v.  [loops_h], [loops_v]: SpecSquare.v. *)

From Verif Require Import CustomDemo Machine Store Axes Shapes Lattice SquareGraph Spec SpecSquare Spec4 Astar
  SimplePaths Spec27 OnceMain Demo SquareDemo AstarDemo.

(** ** C131 *)

(** Every board is of one of the two kinds, the looped ones being as wide as the shape says. *)
Theorem C131_kinds :
  forall (A D : Type) (s : Shape Cell A D) (G : Geometry A D), Supported s G ->
  Unlooped G \/ LoopsAfter G (sh_horizontal s).
Proof. exact (@c131_kind). Qed.
Print Assumptions C131_kinds.

(** Without a loop no node is its own neighbour and none is listed twice. *)
Theorem C131_unlooped :
  forall (A D N E : Type) (m : mode) (s : Shape Cell A D) (G : Geometry A D), Supported s G ->
  forall (g : LatticeGraph Cell A D N E) nf ef, Built m s G g nf ef ->
  Unlooped G -> forall a l, In a (geo_nodes G) ->
  Drains (neighbors_next m g a) (neighbors g a) l -> NoDup l /\ ~ In a l.
Proof. exact (@c131_once). Qed.
Print Assumptions C131_unlooped.

(** Looped boards of one column: each node is its own neighbour; of one or two: some node is listed
    twice; of more: neither. *)
Theorem C131_looped :
  forall (A D N E : Type) (m : mode) (s : Shape Cell A D) (G : Geometry A D), Supported s G ->
  forall (g : LatticeGraph Cell A D N E) nf ef, Built m s G g nf ef ->
  forall w, LoopsAfter G w -> forall a l, In a (geo_nodes G) ->
  Drains (neighbors_next m g a) (neighbors g a) l ->
  (In a l <-> w = 1) /\ (NoDup l <-> 3 <= w).
Proof. exact (@c131_looped). Qed.
Print Assumptions C131_looped.

(** The edges of a node lead to different nodes. *)
Theorem C131_edges :
  forall (A D N E : Type) (m : mode) (s : Shape Cell A D) (G : Geometry A D), Supported s G ->
  forall (g : LatticeGraph Cell A D N E) nf ef, Built m s G g nf ef ->
  Wide G -> forall a it l, In a (geo_nodes G) -> edges m g a = Ok it ->
  Drains (edges_next m g) it l -> NoDup (map er_target l).
Proof. exact (@c131_edges). Qed.
Print Assumptions C131_edges.

(** Two nodes are joined by one edge at most, on directed boards by one each way. *)
Theorem C131_one_edge :
  forall (A D N E : Type) (m : mode) (s : Shape Cell A D) (G : Geometry A D), Supported s G ->
  forall (g : LatticeGraph Cell A D N E) nf ef, Built m s G g nf ef ->
  Wide G -> forall l r r', Drains (edge_references_next m g) (edge_references g) l ->
  In r l -> In r' l ->
  er_source r = er_source r' /\ er_target r = er_target r' \/
  ag_directed (geo_ax G) = false /\ er_source r = er_target r' /\ er_target r = er_source r' ->
  r = r'.
Proof. exact (@c131_one_edge). Qed.
Print Assumptions C131_one_edge.

(** So [all_simple_paths] (C129) yields no path twice. *)
Theorem C131_paths :
  forall (A D N E : Type) (m : mode) (s : Shape Cell A D) (G : Geometry A D), Supported s G ->
  forall (g : LatticeGraph Cell A D N E) nf ef, Built m s G g nf ef ->
  Wide G -> forall a b least most l, In a (geo_nodes G) -> a <> b -> 0 <= least < USIZE - 1 ->
  match most with Some k => 0 <= k < USIZE - 1 | None => True end ->
  AllSimplePaths veqb m (node_count m g) (fun c => neighbors_directed g c Outgoing)
    (neighbors_next m g) b a least most l -> NoDup l.
Proof. exact (@c131_paths). Qed.
Print Assumptions C131_paths.

Example C131_case :
  let nbs {A D} (s : Shape Cell A D) c :=
    collect (neighbors_next Debug (demo s Debug) c) 10 (neighbors (demo s Debug) c) in
  let lew w := hex_offset_r_lew OddR w 2 in
  let lewG w := offset_r_loop_geometry hexr_axes OddR w 2 in
  Supported sq sqG /\ Unlooped sqG /\ Wide sqG /\
  Built Debug sq sqG (demo sq Debug) demo_node (demo_edge sq) /\ In (1, 0) (geo_nodes sqG) /\
  nbs sq (1, 0) = Ok [(2, 0); (1, 1); (0, 0)] /\
  (forall w, 1 <= w <= 3 -> Supported (lew w) (lewG w) /\ LoopsAfter (lewG w) w /\
     Built Debug (lew w) (lewG w) (demo (lew w) Debug) demo_node (demo_edge (lew w))) /\
  In (0, 0) (geo_nodes (lewG 1)) /\ In (0, 0) (geo_nodes (lewG 2)) /\ Wide (lewG 3) /\
  nbs (lew 1) (0, 0) = Ok [(0, 1); (0, 0); (0, 0); (0, 1)] /\
  nbs (lew 2) (0, 0) = Ok [(0, 1); (1, 0); (1, 0); (1, 1)] /\
  nbs (lew 3) (0, 0) = Ok [(0, 1); (1, 0); (2, 0); (2, 1)].
Proof.
  cbv zeta. assert (K : forall w, 1 <= w <= 3 ->
    Supported (hex_offset_r_lew OddR w 2) (offset_r_loop_geometry hexr_axes OddR w 2)).
  { intros w Hw. apply sup_offset_r_loop. apply fits_small; lia. }
  split; [exact sq_ok|]. split; [constructor|]. split; [left; constructor|].
  split; [apply demo_built, sq_ok|]. split; [vm_compute; tauto|]. split; [vm_compute; reflexivity|].
  split; [intros w Hw; split; [auto|split; [constructor|apply demo_built; auto]]|].
  split; [vm_compute; tauto|]. split; [vm_compute; tauto|].
  split; [right; exists 3; split; [constructor|lia]|].
  split; [vm_compute; reflexivity|]. split; vm_compute; reflexivity.
Qed.

(** ** C132 *)

(** A looped side of one: each node is its own neighbour; of one or two: some node is listed twice;
    otherwise neither. *)
Theorem C132_once :
  forall (N E : Type) (ix : IxType) (S : LoopShape) (m : mode) (h v : Z),
  sq_size S h v -> sq_index_fits ix h v ->
  forall (g : SquareGraph N E ix S) nf ef, SqBuilt m h v g nf ef ->
  forall a l, on_board h v a ->
  Drains (sg_neighbors_next (ix := ix) (S := S) m) (sg_neighbors g a) l ->
  (In a l <-> loops_h S = true /\ h = 1 \/ loops_v S = true /\ v = 1) /\
  (NoDup l <-> (loops_h S = true -> 3 <= h) /\ (loops_v S = true -> 3 <= v)).
Proof. exact (@c132_once). Qed.
Print Assumptions C132_once.

(** Two nodes are joined by one edge at most. *)
Theorem C132_one_edge :
  forall (N E : Type) (ix : IxType) (S : LoopShape) (m : mode) (h v : Z),
  sq_size S h v -> sq_index_fits ix h v ->
  forall (g : SquareGraph N E ix S) nf ef, SqBuilt m h v g nf ef ->
  (loops_h S = true -> 3 <= h) -> (loops_v S = true -> 3 <= v) ->
  forall l r r' e e' w w' n n' t t',
  Drains (sg_edge_references_next m g) (sg_edge_references g) l -> In r l -> In r' l ->
  sq_view ix S m r = Ok (e, w, n, t) -> sq_view ix S m r' = Ok (e', w', n', t') ->
  n = n' /\ t = t' \/ n = t' /\ t = n' -> e = e'.
Proof. exact (@c132_one_edge). Qed.
Print Assumptions C132_one_edge.

(** So [all_simple_paths] (C130) yields no path twice. *)
Theorem C132_paths :
  forall (N E : Type) (ix : IxType) (S : LoopShape) (m : mode) (h v : Z),
  sq_size S h v -> sq_index_fits ix h v ->
  forall (g : SquareGraph N E ix S) nf ef, SqBuilt m h v g nf ef ->
  (loops_h S = true -> 3 <= h) -> (loops_v S = true -> 3 <= v) ->
  forall a b least most l, on_board h v a -> a <> b -> 0 <= least < USIZE - 1 ->
  match most with Some k => 0 <= k < USIZE - 1 | None => True end ->
  AllSimplePaths veqb m (Ok (sg_node_count g)) (sg_neighbors g)
    (fun _ => sg_neighbors_next (ix := ix) (S := S) m) b a least most l -> NoDup l.
Proof. exact (@c132_paths). Qed.
Print Assumptions C132_paths.

Example C132_case :
  let nbs S h v (n : NodeIndex) :=
    collect (sg_neighbors_next (ix := IxU8) (S := S) Debug) 10 (sg_neighbors (sqd IxU8 S Debug h v) n) in
  sq_size HVLoop 1 3 /\ sq_index_fits IxU8 1 3 /\ SqBuilt Debug 1 3 (sqd IxU8 HVLoop Debug 1 3) sq_node sq_edge /\
  on_board 1 3 (0, 0) /\ nbs HVLoop 1 3 (0, 0) = Ok [(0, 0); (0, 0); (0, 2); (0, 1)] /\
  sq_size VerticalLoop 3 2 /\ sq_index_fits IxU8 3 2 /\
  SqBuilt Debug 3 2 (sqd IxU8 VerticalLoop Debug 3 2) sq_node sq_edge /\
  on_board 3 2 (0, 0) /\ nbs VerticalLoop 3 2 (0, 0) = Ok [(1, 0); (0, 1); (0, 1)] /\
  sq_size HorizontalLoop 3 2 /\ SqBuilt Debug 3 2 hl sq_node sq_edge /\
  nbs HorizontalLoop 3 2 (0, 0) = Ok [(2, 0); (1, 0); (0, 1)].
Proof.
  cbv zeta. split; [sq_size|]. split; [index_fits|]. split; [apply sqd_built; sq_size|].
  split; [unfold on_board; cbn; lia|]. split; [vm_compute; reflexivity|].
  split; [sq_size|]. split; [index_fits|]. split; [apply sqd_built; sq_size|].
  split; [unfold on_board; cbn; lia|]. split; [vm_compute; reflexivity|].
  split; [exact hl_size|]. split; [exact hl_built|vm_compute; reflexivity].
Qed.
