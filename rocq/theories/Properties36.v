(** * Properties36: nodes put in pairs (C133, C134).

    [greedy_matching], [mate_of], [is_perfect]: petgraph's [greedy_matching], [Matching::mate] and
    [Matching::is_perfect] (Matching.v); the second part of the result is [Matching::len], the number
    of pairs. [Paired], [NoneLeft], [with_mate]: Spec28.v; [Neighbor]: Spec25.v. [Sound] (Spec21.v):
    the shapes of the crate whose boards are traversed as drawn and those of users that keep to the
    contract. *)

From Verif Require Import CustomDemo Machine Store Axes Shapes Lattice SquareGraph Spec SpecSquare
  Spec19 Spec21 Spec25 Matching Spec28 MatchingMain Demo SquareDemo.

(** ** C133 *)

(** Joined nodes are put in pairs until no two joined nodes are left over. *)
Theorem C133_pairs :
  forall (A D N E : Type) (m : mode) (s : Shape Cell A D) (G : Geometry A D), Sound m s G ->
  forall (g : LatticeGraph Cell A D N E) nf ef, Built m s G g nf ef ->
  exists r mate,
    greedy_matching m (node_identifiers g) (node_indices_next m (g_s g)) (neighbors g)
      (neighbors_next m g) (node_bound m g) (to_index m g) (visit_map g) (vm_visit m (g_s g))
      (vm_is_visited m (g_s g)) = Ok r /\
    (forall c, In c (geo_nodes G) -> mate_of (to_index m g) r c = Ok (mate c)) /\
    Paired (Neighbor m g) (geo_nodes G) mate /\ NoneLeft (Neighbor m g) (geo_nodes G) mate /\
    2 * snd r = Z.of_nat (length (with_mate (geo_nodes G) mate)).
Proof. exact (@c133_pairs). Qed.
Print Assumptions C133_pairs.

(** No other way to pair joined nodes makes more than twice as many pairs. *)
Theorem C133_half :
  forall (A D N E : Type) (m : mode) (s : Shape Cell A D) (G : Geometry A D), Sound m s G ->
  forall (g : LatticeGraph Cell A D N E) nf ef, Built m s G g nf ef ->
  forall r,
  greedy_matching m (node_identifiers g) (node_indices_next m (g_s g)) (neighbors g)
    (neighbors_next m g) (node_bound m g) (to_index m g) (visit_map g) (vm_visit m (g_s g))
    (vm_is_visited m (g_s g)) = Ok r ->
  forall other, Paired (Neighbor m g) (geo_nodes G) other ->
  Z.of_nat (length (with_mate (geo_nodes G) other)) <= 2 * (2 * snd r).
Proof. exact (@c133_half). Qed.
Print Assumptions C133_half.

(** [is_perfect]: whether every node has a mate. *)
Theorem C133_perfect :
  forall (A D N E : Type) (m : mode) (s : Shape Cell A D) (G : Geometry A D), Sound m s G ->
  forall (g : LatticeGraph Cell A D N E) nf ef, Built m s G g nf ef ->
  forall r,
  greedy_matching m (node_identifiers g) (node_indices_next m (g_s g)) (neighbors g)
    (neighbors_next m g) (node_bound m g) (to_index m g) (visit_map g) (vm_visit m (g_s g))
    (vm_is_visited m (g_s g)) = Ok r ->
  exists b, is_perfect (node_count m g) r = Ok b /\
    (b = true <-> forall c, In c (geo_nodes G) -> exists c', mate_of (to_index m g) r c = Ok (Some c')).
Proof. exact (@c133_perfect). Qed.
Print Assumptions C133_perfect.

Example C133_case :
  let run {A D N E} (g : LatticeGraph Cell A D N E) :=
    greedy_matching Debug (node_identifiers g) (node_indices_next Debug (g_s g)) (neighbors g)
      (neighbors_next Debug g) (node_bound Debug g) (to_index Debug g) (visit_map g)
      (vm_visit Debug (g_s g)) (vm_is_visited Debug (g_s g)) in
  let perfect {A D N E} (g : LatticeGraph Cell A D N E) :=
    let! r := run g in is_perfect (node_count Debug g) r in
  Sound Debug sq sqG /\ Built Debug sq sqG (demo sq Debug) demo_node (demo_edge sq) /\
  geo_nodes sqG = [(0, 0); (0, 1); (1, 0); (1, 1); (2, 0); (2, 1)] /\
  run (demo sq Debug) =
    Ok ([Some (1, 0); Some (1, 1); Some (0, 0); Some (0, 1); Some (2, 1); Some (2, 0)], 3) /\
  perfect (demo sq Debug) = Ok true /\
  Sound Debug hd hdG /\ Built Debug hd hdG (demo hd Debug) demo_node (demo_edge hd) /\
  perfect (demo hd Debug) = Ok false /\
  Sound Debug lp lpG /\ Built Debug lp lpG (demo lp Debug) demo_node (demo_edge lp) /\
  perfect (demo lp Debug) = Ok true.
Proof.
  cbv zeta. split; [apply sound_crate; exact sq_ok|]. split; [apply demo_built, sq_ok|].
  split; [vm_compute; reflexivity|].
  split; [vm_compute; reflexivity|]. split; [vm_compute; reflexivity|].
  split; [apply sound_crate; exact hd_ok|]. split; [apply demo_built, hd_ok|].
  split; [vm_compute; reflexivity|].
  split; [apply sound_crate; exact lp_ok|]. split; [apply demo_built, lp_ok|].
  vm_compute; reflexivity.
Qed.

(** ** C134 *)

Theorem C134_pairs :
  forall (N E : Type) (ix : IxType) (S : LoopShape) (m : mode) (h v : Z),
  sq_size S h v -> sq_index_fits ix h v ->
  forall (g : SquareGraph N E ix S) nf ef, SqBuilt m h v g nf ef -> 1 <= v ->
  let next := fun _ => sg_neighbors_next (ix := ix) (S := S) m in
  let joined := fun a b => exists l, Drains (next a) (sg_neighbors g a) l /\ In b l in
  exists r mate,
    greedy_matching m (sg_node_identifiers g) (sg_node_indices_next (ix := ix) m) (sg_neighbors g)
      next (Ok (sg_node_bound g)) (sg_to_index m g) (sg_visit_map g) svm_visit svm_is_visited = Ok r /\
    (forall c, In c (sq_nodes h v) -> mate_of (sg_to_index m g) r c = Ok (mate c)) /\
    Paired joined (sq_nodes h v) mate /\ NoneLeft joined (sq_nodes h v) mate /\
    2 * snd r = Z.of_nat (length (with_mate (sq_nodes h v) mate)).
Proof. exact (@c134_run). Qed.
Print Assumptions C134_pairs.

Theorem C134_half :
  forall (N E : Type) (ix : IxType) (S : LoopShape) (m : mode) (h v : Z),
  sq_size S h v -> sq_index_fits ix h v ->
  forall (g : SquareGraph N E ix S) nf ef, SqBuilt m h v g nf ef -> 1 <= v ->
  let next := fun _ => sg_neighbors_next (ix := ix) (S := S) m in
  let joined := fun a b => exists l, Drains (next a) (sg_neighbors g a) l /\ In b l in
  forall r,
  greedy_matching m (sg_node_identifiers g) (sg_node_indices_next (ix := ix) m) (sg_neighbors g)
    next (Ok (sg_node_bound g)) (sg_to_index m g) (sg_visit_map g) svm_visit svm_is_visited = Ok r ->
  forall other, Paired joined (sq_nodes h v) other ->
  Z.of_nat (length (with_mate (sq_nodes h v) other)) <= 2 * (2 * snd r).
Proof. exact (@c134_half_). Qed.
Print Assumptions C134_half.

Theorem C134_perfect :
  forall (N E : Type) (ix : IxType) (S : LoopShape) (m : mode) (h v : Z),
  sq_size S h v -> sq_index_fits ix h v ->
  forall (g : SquareGraph N E ix S) nf ef, SqBuilt m h v g nf ef -> 1 <= v ->
  forall r,
  greedy_matching m (sg_node_identifiers g) (sg_node_indices_next (ix := ix) m) (sg_neighbors g)
    (fun _ => sg_neighbors_next (ix := ix) (S := S) m) (Ok (sg_node_bound g)) (sg_to_index m g)
    (sg_visit_map g) svm_visit svm_is_visited = Ok r ->
  exists b, is_perfect (Ok (sg_node_count g)) r = Ok b /\
    (b = true <->
     forall c, In c (sq_nodes h v) -> exists c', mate_of (sg_to_index m g) r c = Ok (Some c')).
Proof. exact (@c134_perfect_). Qed.
Print Assumptions C134_perfect.

(** A board without rows: [node_identifiers] yields nodes that are not there (C43). *)
Theorem C134_no_rows :
  forall (N E : Type) (ix : IxType) (S : LoopShape) (m : mode) (h v : Z),
  sq_size S h v -> sq_index_fits ix h v ->
  forall (g : SquareGraph N E ix S) nf ef, SqBuilt m h v g nf ef -> v = 0 -> 2 <= h ->
  greedy_matching m (sg_node_identifiers g) (sg_node_indices_next (ix := ix) m) (sg_neighbors g)
    (fun _ => sg_neighbors_next (ix := ix) (S := S) m) (Ok (sg_node_bound g)) (sg_to_index m g)
    (sg_visit_map g) svm_visit svm_is_visited = Fail FPanic.
Proof. exact (@c134_no_rows_). Qed.
Print Assumptions C134_no_rows.

Example C134_case :
  let run {N E ix S} (g : SquareGraph N E ix S) :=
    greedy_matching Debug (sg_node_identifiers g) (sg_node_indices_next (ix := ix) Debug)
      (sg_neighbors g) (fun _ => sg_neighbors_next (ix := ix) (S := S) Debug) (Ok (sg_node_bound g))
      (sg_to_index Debug g) (sg_visit_map g) svm_visit svm_is_visited in
  let perfect {N E ix S} (g : SquareGraph N E ix S) :=
    let! r := run g in is_perfect (Ok (sg_node_count g)) r in
  sq_size HorizontalLoop 3 2 /\ sq_index_fits IxU8 3 2 /\ SqBuilt Debug 3 2 hl sq_node sq_edge /\
  run hl = Ok ([Some (2, 0); Some (2, 1); Some (1, 1); Some (1, 0); Some (0, 0); Some (0, 1)], 3) /\
  perfect hl = Ok true /\
  run (sqd IxU8 HorizontalLoop Debug 1 1) = Ok ([None], 0) /\
  perfect (sqd IxU8 HorizontalLoop Debug 1 1) = Ok false /\
  sq_size VerticalLoop 2 0 /\ sq_index_fits IxU8 2 0 /\
  SqBuilt Debug 2 0 (sqd IxU8 VerticalLoop Debug 2 0) sq_node sq_edge.
Proof.
  assert (SZ : sq_size VerticalLoop 2 0) by sq_size.
  cbv zeta. split; [apply hl_size|]. split; [apply hl_fits|]. split; [apply hl_built|].
  split; [vm_compute; reflexivity|]. split; [vm_compute; reflexivity|]. split; [vm_compute; reflexivity|].
  split; [vm_compute; reflexivity|]. split; [exact SZ|]. split; [index_fits|]. apply sqd_built, SZ.
Qed.
