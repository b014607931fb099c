(** * Dijkstra: the shortest path search of petgraph 0.8 (src/algo/dijkstra.rs), as a client of
    the graphs.

    petgraph is outside of the repository; this is its algorithm as published, reduced to what
    it asks of a graph: [visit_map], [is_visited], [visit], [edges], and of each edge its target
    and its cost.  Costs, maps and the heap are as in Astar.v. *)

From Verif Require Import Machine Traverse Astar.

Section Dijkstra.
  Context {C Ed It VM : Type} (eqb : C -> C -> bool) (H : HeapOps C)
    (edges : C -> outcome It) (edges_next : It -> outcome (option Ed * It))
    (target : Ed -> outcome C) (cost : Ed -> Z)
    (visit : VM -> C -> outcome (bool * VM)) (visited : VM -> C -> outcome bool)
    (goal : option C).

  (** [visit_next], [scores] and [visited]. *)
  Record DState := mkD {
    d_heap : list (Z * C);
    d_scores : C -> option Z;
    d_visited : VM
  }.

  (** The locals before the loop; [fresh] is [graph.visit_map()]. *)
  Definition dijkstra_init (fresh : VM) (start : C) : DState :=
    mkD (heap_push H (0, start) []) (map_insert eqb (fun _ => None) start 0) fresh.

  (** The body of [for edge in graph.edges(node)]. *)
  Definition dijkstra_relax (vm : VM) (node_score : Z) (st : list (Z * C) * (C -> option Z))
    (e : Ed) : outcome (list (Z * C) * (C -> option Z)) :=
    let! next := target e in
    let! v := visited vm next in
    if (v : bool) then Ok st else
    let next_score := node_score + cost e in
    let improve := (heap_push H (next_score, next) (fst st),
                    map_insert eqb (snd st) next next_score) in
    match snd st next with
    | Some old => if next_score <? old then Ok improve else Ok st
    | None => Ok improve
    end.

  (** One round of [while let Some(..) = visit_next.pop()]; [inr] is the map returned. *)
  Definition dijkstra_round (st : DState) : outcome (DState + (C -> option Z)) :=
    match heap_pop H (d_heap st) with
    | None => Ok (inr (d_scores st))
    | Some ((node_score, node), q) =>
        let! v := visited (d_visited st) node in
        if (v : bool) then Ok (inl (mkD q (d_scores st) (d_visited st))) else
        if match goal with Some b => eqb b node | None => false end
        then Ok (inr (d_scores st)) else
        let! it := edges node in
        let! (q, scores) := for_each edges_next it (dijkstra_relax (d_visited st) node_score)
          (q, d_scores st) in
        let! (_, vm) := visit (d_visited st) node in
        Ok (inl (mkD q scores vm))
    end.
End Dijkstra.
