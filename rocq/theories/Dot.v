(** * Dot: petgraph 0.8's [Dot] (src/dot.rs, [graph_fmt]), as a client of the graphs.

    petgraph is outside of the repository; this is what it writes, reduced to what it asks of a graph:
    [is_directed], [node_references], [edge_references], [to_index], and [source], [target] and [weight]
    of an edge.
    - A line of the text is what its columns are made from: [dot_directed] stands for [digraph] or [graph]
      in the first line and for [->] or [--] in the lines of edges.  How a weight is printed is up to its
      type.  The writer is one that does not fail, and there are no further attributes. *)

From Verif Require Import Machine Store Traverse.

Record DotText (N E : Type) := mkDot {
  dot_directed : bool;
  dot_nodes : list (Z * N);
  dot_edges : list (Z * Z * E)
}.
Arguments mkDot {N E}.
Arguments dot_directed {N E}.
Arguments dot_nodes {N E}.
Arguments dot_edges {N E}.

Section Dot.
  Context {C N E Nodes Edges R : Type} (directed : bool) (to_index : C -> outcome Z)
    (nodes : Nodes) (nodes_next : Nodes -> outcome (option (C * N) * Nodes))
    (edges : Edges) (edges_next : Edges -> outcome (option R * Edges))
    (source target : R -> outcome C) (weight : R -> E).

  (** [graph_fmt] *)
  Definition dot : outcome (DotText N E) :=
    let! ns := for_each nodes_next nodes (fun out node =>
      let! i := to_index (fst node) in
      Ok (out ++ [(i, snd node)])) [] in
    let! es := for_each edges_next edges (fun out edge =>
      let! a := source edge in
      let! i := to_index a in
      let! b := target edge in
      let! j := to_index b in
      Ok (out ++ [(i, j, weight edge)])) [] in
    Ok (mkDot directed ns es).
End Dot.
