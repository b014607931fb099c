(** * Properties16: what comparing two graphs gives when it gets to the edges (C35, continued). *)

From Verif Require Import Machine Store Axes Shapes Lattice Spec Demo MoreDemo EqProofs.

(** ** C35, continued *)

(** Comparing graphs of one shape with equal nodes looks at the slots of the edges, axis by
    axis and node by node.  The first one that has no edge, or whose edges differ, decides: the
    former is undefined behaviour, the latter gives [false].  (With [C35_compare_nodes_partial]
    this is everything: every board with a node has a slot without edge.) *)
Theorem C35_compare_edges :
  forall (A D : Type) (s : Shape Cell A D) (G : Geometry A D) (m : mode) (N E : Type),
  Stored s G ->
  forall (g1 g2 : LatticeGraph Cell A D N E) nf1 ef1 nf2 ef2 neq eeq sq,
  Built m s G g1 nf1 ef1 -> Built m s G g2 nf2 ef2 ->
  (forall c, In c (geo_nodes G) -> neq (nf1 c) (nf2 c) = true) ->
  forall a_before a a_after c_before c c_after,
  ag_axes (geo_ax G) = a_before ++ a :: a_after ->
  geo_nodes G = c_before ++ c :: c_after ->
  (forall b x, In b a_before /\ In x (geo_nodes G) \/ b = a /\ In x c_before ->
     edge_exists G x b /\ eeq (ef1 x b) (ef2 x b) = true) ->
  (~ edge_exists G c a -> eq_graph neq eeq sq g1 g2 = Fail FUB) /\
  (edge_exists G c a -> eeq (ef1 c a) (ef2 c a) = false ->
     eq_graph neq eeq sq g1 g2 = Ok false).
Proof. exact (fun A D s G m N E H => @c35_edges A D N E m s G H). Qed.
Print Assumptions C35_compare_edges.

(** The first slot is the horizontal edge of (0, 0); (2, 0) has none. *)
Example C35_edges_case :
  Stored sq sqG /\ Built Debug sq sqG (demo sq Debug) demo_node (demo_edge sq) /\
  Built Debug sq sqG (tinted sq 5) demo_node (fun c a => 5 + demo_edge sq c a) /\
  (exists c_after, geo_nodes sqG = [] ++ (0, 0) :: c_after) /\
  (exists a a_after, ag_axes (geo_ax sqG) = [] ++ a :: a_after /\ edge_exists sqG (0, 0) a /\
     ~ edge_exists sqG (2, 0) a) /\
  eq_graph Z.eqb Z.eqb true (demo sq Debug) (tinted sq 5) = Ok false /\
  eq_graph Z.eqb Z.eqb true (demo sq Debug) (tinted sq 0) = Fail FUB.
Proof.
  split; [apply st_supported, sq_ok|]. split; [apply demo_stored, st_supported, sq_ok|].
  split; [apply tinted_built, st_supported, sq_ok|]. split; [eexists; reflexivity|].
  split; [|split; vm_compute; reflexivity].
  eexists _, _. split; [reflexivity|]. split.
  - split; [vm_compute; tauto|vm_compute; discriminate].
  - intros [_ H]. apply H. reflexivity.
Qed.
