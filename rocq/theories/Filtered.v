(** * Filtered: the adaptors [NodeFiltered] and [EdgeFiltered] of petgraph 0.8
    (src/visit/filter.rs), as clients of the graphs.

    petgraph is outside of the repository; these are its adaptors as published, reduced to what
    the searches ask of a graph.  They hand [visit_map] on to the graph below.  The filters are
    pure functions. *)

From Verif Require Import Machine.

(** [Iterator::find]: the first item of which [f] holds. *)
Definition find_next {It X} (next : It -> outcome (option X * It)) (f : X -> outcome bool)
  (it : It) : outcome (option X * It) :=
  loop (fun it =>
    let! (x, it') := next it in
    match x with
    | None => Ok (inr (None, it'))
    | Some x => let! b := f x in Ok (if (b : bool) then inr (Some x, it') else inl it')
    end) it.

(** ** [NodeFiltered(graph, keep)] *)

Section Nodes.
  Context {C It Ed Ie : Type} (keep : C -> bool)
    (nb : C -> It) (nb_next : C -> It -> outcome (option C * It))
    (edges : C -> outcome Ie) (edges_next : Ie -> outcome (option Ed * Ie))
    (target : Ed -> outcome C) (source : Ed -> outcome C).

  (** [NodeFilteredNeighbors { include_source, iter, .. }] *)
  Definition nf_neighbors (n : C) : bool * It := (keep n, nb n).
  Definition nf_neighbors_next (n : C) (st : bool * It) : outcome (option C * (bool * It)) :=
    if fst st then
      let! (x, it') := find_next (nb_next n) (fun t => Ok (keep t)) (snd st) in
      Ok (x, (true, it'))
    else Ok (None, st).

  (** [NodeFilteredEdges { include_source, iter, .. }] *)
  Definition nf_edges (n : C) : outcome (bool * Ie) :=
    let! it := edges n in Ok (keep n, it).
  Definition nf_edges_next (st : bool * Ie) : outcome (option Ed * (bool * Ie)) :=
    if fst st then
      let! (x, it') :=
        find_next edges_next (fun e => let! t := target e in Ok (keep t)) (snd st) in
      Ok (x, (true, it'))
    else Ok (None, st).

  (** [NodeFilteredEdgeReferences]: the edges of which both ends are kept. *)
  Definition nf_refs_next (next : Ie -> outcome (option Ed * Ie)) (it : Ie)
    : outcome (option Ed * Ie) :=
    find_next next (fun e => let! a := source e in
      if keep a then let! b := target e in Ok (keep b) else Ok false) it.

  (** [NodeFilteredNodes], for [node_identifiers]. *)
  Definition nf_nodes_next (next : It -> outcome (option C * It)) (it : It)
    : outcome (option C * It) := find_next next (fun c => Ok (keep c)) it.
End Nodes.

(** ** [EdgeFiltered(graph, pass)] *)

Section Edges.
  Context {C Ed Ie : Type} (pass : Ed -> bool)
    (edges : C -> outcome Ie) (edges_next : Ie -> outcome (option Ed * Ie))
    (target : Ed -> outcome C).

  (** [EdgeFilteredEdges]; the iterator of [edges_next] is that of the graph. *)
  Definition ef_edges_next (it : Ie) : outcome (option Ed * Ie) :=
    find_next edges_next (fun e => Ok (pass e)) it.

  (** [EdgeFilteredNeighbors]: the targets of the edges that pass.  A fault of [edges] itself
      shows here at the first [next] and not at the call of [neighbors]. *)
  Definition ef_neighbors (n : C) : outcome Ie := edges n.
  Definition ef_neighbors_next (n : C) (st : outcome Ie) : outcome (option C * outcome Ie) :=
    let! it := st in
    let! (x, it') := ef_edges_next it in
    match x with
    | None => Ok (None, Ok it')
    | Some e => let! t := target e in Ok (Some t, Ok it')
    end.
End Edges.
