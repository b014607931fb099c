(** * Properties38: [depth_first_search] with a visitor that prunes (C137, C138).

    [lattice_pdfs], [square_pdfs]: the search (PruneDfs.v).
    [PrunedFirst], [pruned_by], [ptold], [Ruled], [allowed]: Spec30.v; [Leads]: Spec16.v. *)

From Verif Require Import Machine Store Axes Shapes Lattice SquareGraph DfsEvents PruneDfs Spec
  SpecSquare Spec4 Spec11 Spec16 Spec30 Demo SquareDemo PruneMain.

(** ** C137 *)

(** Whatever the visitor does, the events that it is told are those of a depth first search with
    the parts left out that it prunes. *)
Theorem C137_events :
  forall (A D N E : Type) (m : mode) (s : Shape Cell A D) (G : Geometry A D), Stored s G ->
  forall (g : LatticeGraph Cell A D N E) nf ef, Built m s G g nf ef ->
  forall (Ids : Type) (it : Ids) next starts, Drains next it starts ->
  Z.of_nat (length starts) + 1 < 2 ^ 72 -> incl starts (geo_nodes G) ->
  forall (V B : Type) (visitor : V -> DfsEvent Cell -> Control V B) w,
  exists tr, PrunedFirst (pruned_by visitor w) (spec_neighbors G) (geo_nodes G) starts tr /\
    lattice_pdfs m g it next visitor w = ptold visitor w tr.
Proof. exact (@c137). Qed.
Print Assumptions C137_events.

(** Pruning by a rule it discovers exactly the nodes that the starts lead to by the steps that the
    rule leaves. *)
Theorem C137_rule :
  forall (A D N E : Type) (m : mode) (s : Shape Cell A D) (G : Geometry A D), Stored s G ->
  forall (g : LatticeGraph Cell A D N E) nf ef, Built m s G g nf ef ->
  forall (Ids : Type) (it : Ids) next starts, Drains next it starts ->
  Z.of_nat (length starts) + 1 < 2 ^ 72 -> incl starts (geo_nodes G) ->
  forall stop skip (V B : Type) (visitor : V -> DfsEvent Cell -> Control V B) w,
  Ruled stop skip visitor ->
  exists tr w', PrunedFirst (fun _ => ruled stop skip) (spec_neighbors G) (geo_nodes G) starts tr /\
    lattice_pdfs m g it next visitor w = Ok (inl w') /\ state_after visitor w tr = Some w' /\
    forall c, In c (discovered tr) <->
      Leads (allowed stop skip (spec_neighbors G)) (geo_nodes G) starts c.
Proof. exact (@c137_rule). Qed.
Print Assumptions C137_rule.

(** [wall] and [gate] (PruneMain.v) prune the discovery of (1, 0), and the tree edge from (0, 0) to it;
    [late] prunes at [Finish]. *)
Example C137_case :
  let s := square_shape 2 2 in let g := demo s Debug in
  Stored s (square_geometry square_axes 2 2) /\
  Built Debug s (square_geometry square_axes 2 2) g demo_node (demo_edge s) /\
  Ruled at_wall (fun _ _ => false) wall /\
  lattice_pdfs Debug g (node_identifiers g) (node_indices_next Debug (g_s g)) wall []
  = Ok (inl [Discover (0, 0) 0; TreeEdge (0, 0) (1, 0); Discover (1, 0) 1; Finish (1, 0) 2;
             TreeEdge (0, 0) (0, 1); Discover (0, 1) 3; TreeEdge (0, 1) (1, 1);
             Discover (1, 1) 4; BackEdge (1, 1) (0, 1); CrossForwardEdge (1, 1) (1, 0);
             Finish (1, 1) 5; BackEdge (0, 1) (0, 0); Finish (0, 1) 6; Finish (0, 0) 7]) /\
  Ruled (fun _ => false) at_gate gate /\
  lattice_pdfs Debug g (node_identifiers g) (node_indices_next Debug (g_s g)) gate []
  = Ok (inl [Discover (0, 0) 0; TreeEdge (0, 0) (1, 0); TreeEdge (0, 0) (0, 1);
             Discover (0, 1) 1; TreeEdge (0, 1) (1, 1); Discover (1, 1) 2;
             BackEdge (1, 1) (0, 1); TreeEdge (1, 1) (1, 0); Discover (1, 0) 3;
             BackEdge (1, 0) (1, 1); BackEdge (1, 0) (0, 0); Finish (1, 0) 4; Finish (1, 1) 5;
             BackEdge (0, 1) (0, 0); Finish (0, 1) 6; Finish (0, 0) 7]) /\
  lattice_pdfs Debug g (node_identifiers g) (node_indices_next Debug (g_s g)) late []
  = Fail FPanic.
Proof.
  cbv zeta. split; [apply st_supported, sup_square, fits_small; lia|].
  split; [apply demo_built, sup_square, fits_small; lia|].
  split; [exact wall_ruled|]. split; [vm_compute; reflexivity|].
  split; [exact gate_ruled|]. split; vm_compute; reflexivity.
Qed.

(** ** C138 *)

Theorem C138_events :
  forall (N E : Type) (ix : IxType) (S : LoopShape) (m : mode) (h v : Z),
  sq_size S h v -> sq_index_fits ix h v ->
  forall (g : SquareGraph N E ix S) nf ef, SqBuilt m h v g nf ef ->
  forall (Ids : Type) (it : Ids) next starts, Drains next it starts ->
  Z.of_nat (length starts) + 1 < 2 ^ 72 -> incl starts (sq_nodes h v) ->
  forall (V B : Type) (visitor : V -> DfsEvent NodeIndex -> Control V B) w,
  exists tr, PrunedFirst (pruned_by visitor w) (sq_neighbours S h v) (sq_nodes h v) starts tr /\
    square_pdfs m g it next visitor w = ptold visitor w tr.
Proof. exact (@c138). Qed.
Print Assumptions C138_events.

Theorem C138_rule :
  forall (N E : Type) (ix : IxType) (S : LoopShape) (m : mode) (h v : Z),
  sq_size S h v -> sq_index_fits ix h v ->
  forall (g : SquareGraph N E ix S) nf ef, SqBuilt m h v g nf ef ->
  forall (Ids : Type) (it : Ids) next starts, Drains next it starts ->
  Z.of_nat (length starts) + 1 < 2 ^ 72 -> incl starts (sq_nodes h v) ->
  forall stop skip (V B : Type) (visitor : V -> DfsEvent NodeIndex -> Control V B) w,
  Ruled stop skip visitor ->
  exists tr w', PrunedFirst (fun _ => ruled stop skip) (sq_neighbours S h v) (sq_nodes h v) starts tr /\
    square_pdfs m g it next visitor w = Ok (inl w') /\ state_after visitor w tr = Some w' /\
    forall c, In c (discovered tr) <->
      Leads (allowed stop skip (sq_neighbours S h v)) (sq_nodes h v) starts c.
Proof. exact (@c138_rule). Qed.
Print Assumptions C138_rule.

Example C138_case :
  let g := sqd IxU32 DefaultShape Debug 2 2 in
  SqBuilt Debug 2 2 g sq_node sq_edge /\ Ruled at_wall (fun _ _ => false) wall /\
  square_pdfs Debug g (sg_node_identifiers g) (sg_node_indices_next (ix := IxU32) Debug) wall []
  = Ok (inl [Discover (0, 0) 0; TreeEdge (0, 0) (1, 0); Discover (1, 0) 1; Finish (1, 0) 2;
             TreeEdge (0, 0) (0, 1); Discover (0, 1) 3; TreeEdge (0, 1) (1, 1);
             Discover (1, 1) 4; BackEdge (1, 1) (0, 1); CrossForwardEdge (1, 1) (1, 0);
             Finish (1, 1) 5; BackEdge (0, 1) (0, 0); Finish (0, 1) 6; Finish (0, 0) 7]).
Proof.
  cbv zeta. split; [apply sqd_built; sq_size|]. split; [exact wall_ruled|]. vm_compute. reflexivity.
Qed.
