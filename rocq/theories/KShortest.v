(** * KShortest: [k_shortest_path] of petgraph 0.8 (src/algo/k_shortest_path.rs), as a client of
    the graphs.

    petgraph is outside of the repository; this is its algorithm as published, reduced to what
    it asks of a graph: [node_count], [to_index], [edges], and of each edge its target and its
    cost.  Costs, maps and the heap are as in Astar.v; [counter] is a table as in Bellman.v, whose
    entries are not bounded. *)

From Verif Require Import Machine Store Traverse Astar Bellman.

Section KShortest.
  Context {C Ed It : Type} (eqb : C -> C -> bool) (H : HeapOps C) (count : outcome Z)
    (to_index : C -> outcome Z) (edges : C -> outcome It)
    (edges_next : It -> outcome (option Ed * It)) (target : Ed -> outcome C) (cost : Ed -> Z)
    (goal : option C) (k : Z).

  (** [counter], [scores] and [visit_next]. *)
  Record KState := mkK {
    k_counter : list Z;
    k_scores : C -> option Z;
    k_heap : list (Z * C)
  }.

  (** The locals before the loop. *)
  Definition kshortest_init (start : C) : outcome KState :=
    let! n := count in
    Ok (mkK (repeat 0 (Z.to_nat n)) (fun _ => None) (heap_push H (0, start) [])).

  (** The body of [for edge in graph.edges(node)]. *)
  Definition kshortest_push (node_score : Z) (q : list (Z * C)) (e : Ed) : outcome (list (Z * C)) :=
    let! next := target e in
    Ok (heap_push H (node_score + cost e, next) q).

  (** One round of [while let Some(..) = visit_next.pop()]; [inr] is the map returned. *)
  Definition kshortest_round (st : KState) : outcome (KState + (C -> option Z)) :=
    match heap_pop H (k_heap st) with
    | None => Ok (inr (k_scores st))
    | Some ((node_score, node), q) =>
        let! i := to_index node in
        let! before := row_get (k_counter st) i in
        let! counter := row_set (k_counter st) i (before + 1) in
        let current_counter := before + 1 in
        if k <? current_counter then Ok (inl (mkK counter (k_scores st) q)) else
        let scores := if current_counter =? k
                      then map_insert eqb (k_scores st) node node_score else k_scores st in
        if match goal with Some b => eqb b node | None => false end && (current_counter =? k)
        then Ok (inr scores) else
        let! it := edges node in
        let! q := for_each edges_next it (kshortest_push node_score) q in
        Ok (inl (mkK counter scores q))
    end.
End KShortest.
