(** * Properties37: the graphs written as text (C135, C136).

    [dot]: what petgraph's [Dot] writes (Dot.v), a line per node and a line per edge, nodes by number.
    [numbered], [Numbers], [swapped]: Spec29.v. *)

From Coq Require Import Permutation.
From Verif Require Import Machine Store Axes Shapes Lattice SquareGraph Spec SpecSquare Dot Spec29
  DotMain Demo SquareDemo.

(** ** C135 *)

(** The nodes are numbered from [0] in the order of [node_identifiers], with their weights.  The lines of
    the edges, read from both ends if the graph is undirected, are the edges that [edges] lists at all
    nodes, as often as it does. *)
Theorem C135_text :
  forall (A D N E : Type) (m : mode) (s : Shape Cell A D) (G : Geometry A D), Supported s G ->
  forall (g : LatticeGraph Cell A D N E) nf ef, Built m s G g nf ef ->
  exists t,
    dot (is_directed g) (to_index m g) (node_references g) (node_references_next m g)
      (edge_references g) (edge_references_next m g) (fun e => Ok (er_source e))
      (fun e => Ok (er_target e)) er_weight = Ok t /\
    dot_directed t = is_directed g /\
    dot_nodes t = numbered (map nf (geo_nodes G)) /\
    forall num eb, Numbers (geo_nodes G) num ->
    (forall c, In c (geo_nodes G) -> exists it, edges m g c = Ok it /\ Drains (edges_next m g) it (eb c)) ->
    Permutation
      (flat_map (fun c => map (fun r => (num c, num (er_target r), er_weight r)) (eb c)) (geo_nodes G))
      (dot_edges t ++ if dot_directed t then [] else map swapped (dot_edges t)).
Proof. exact (@c135_text). Qed.
Print Assumptions C135_text.

Example C135_case :
  let text {A D N E} (g : LatticeGraph Cell A D N E) :=
    dot (is_directed g) (to_index Debug g) (node_references g) (node_references_next Debug g)
      (edge_references g) (edge_references_next Debug g) (fun e => Ok (er_source e))
      (fun e => Ok (er_target e)) er_weight in
  let number c := match to_index Debug (demo sq Debug) c with Ok z => z | Fail _ => 0 end in
  Supported sq sqG /\ Built Debug sq sqG (demo sq Debug) demo_node (demo_edge sq) /\
  map number (geo_nodes sqG) = [0; 1; 2; 3; 4; 5] /\
  text (demo sq Debug) =
    Ok (mkDot false [(0, 0); (1, 1); (2, 10); (3, 11); (4, 20); (5, 21)]
      [(0, 2, 1000); (0, 1, 1001); (1, 3, 1010); (2, 4, 1100); (2, 3, 1101); (3, 5, 1110);
       (4, 5, 1201)]) /\
  Supported hd hdG /\ Built Debug hd hdG (demo hd Debug) demo_node (demo_edge hd) /\
  is_directed (demo hd Debug) = true /\
  match text (demo hd Debug) with Ok t => length (dot_edges t) = 32%nat | Fail _ => False end.
Proof.
  cbv zeta. split; [exact sq_ok|]. split; [apply demo_built, sq_ok|].
  split; [vm_compute; reflexivity|]. split; [vm_compute; reflexivity|].
  split; [exact hd_ok|]. split; [apply demo_built, hd_ok|]. split; vm_compute; reflexivity.
Qed.

(** ** C136 *)

Theorem C136_text :
  forall (N E : Type) (ix : IxType) (S : LoopShape) (m : mode) (h v : Z),
  sq_size S h v -> sq_index_fits ix h v ->
  forall (g : SquareGraph N E ix S) nf ef, SqBuilt m h v g nf ef ->
  exists t,
    dot (sg_is_directed g) (sg_to_index m g) (sg_node_references g)
      (sg_node_references_next (ix := ix) m) (sg_edge_references g) (sg_edge_references_next m g)
      (sr_source (ix := ix) (S := S) m) (sr_target (ix := ix) (S := S) m) sr_weight = Ok t /\
    dot_directed t = false /\
    dot_nodes t = numbered (map nf (sq_nodes h v)) /\
    forall num eb, Numbers (sq_nodes h v) num ->
    (forall n, on_board h v n -> Drains (sg_edges_next m g) (sg_edges g n) (eb n)) ->
    exists views, map (sq_view ix S m) (flat_map eb (sq_nodes h v)) = map Ok views /\
      Permutation (map (fun x => let '(a, b, w) := plain_view x in (num a, num b, w)) views)
        (dot_edges t ++ map swapped (dot_edges t)).
Proof. exact (@c136_text). Qed.
Print Assumptions C136_text.

Example C136_case :
  let text :=
    dot (sg_is_directed hl) (sg_to_index Debug hl) (sg_node_references hl)
      (sg_node_references_next (ix := IxU8) Debug) (sg_edge_references hl)
      (sg_edge_references_next Debug hl) (sr_source (ix := IxU8) (S := HorizontalLoop) Debug)
      (sr_target (ix := IxU8) (S := HorizontalLoop) Debug) sr_weight in
  sq_size HorizontalLoop 3 2 /\ sq_index_fits IxU8 3 2 /\ SqBuilt Debug 3 2 hl sq_node sq_edge /\
  text =
    Ok (mkDot false [(0, 0); (1, 1); (2, 10); (3, 11); (4, 20); (5, 21)]
      [(0, 2, 100); (0, 1, 200); (1, 3, 101); (2, 4, 110); (2, 3, 210); (3, 5, 111); (4, 0, 120);
       (4, 5, 220); (5, 1, 121)]).
Proof.
  cbv zeta. split; [apply hl_size|]. split; [apply hl_fits|]. split; [apply hl_built|].
  vm_compute; reflexivity.
Qed.
