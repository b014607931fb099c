(** * Cliques: [maximal_cliques] of petgraph 0.8 (src/algo/maximal_cliques.rs), as a client of the
    graph.

    petgraph is outside of the repository; this is its algorithm (Bron and Kerbosch, with a pivot)
    as published, reduced to what it asks of a graph: [node_identifiers], [neighbors] and
    [is_adjacent].
    - A [HashSet] is a list without repetitions.  The order in which the set [p] is iterated is not
      known; it is [order r p], where [r] tells the calls apart: the nodes chosen so far, the last
      one first.
    - The recursion is bounded by the number of candidates; [FDiverge] stands for more. *)

From Verif Require Import Machine Traverse.

Section Cliques.
  Context {C It NIt : Type} (eqb : C -> C -> bool) (order : list C -> list C -> list C)
    (ids : NIt) (ids_next : NIt -> outcome (option C * NIt))
    (nb : C -> It) (nb_next : C -> It -> outcome (option C * It))
    (is_adjacent : C -> C -> outcome bool).

  Definition mem (l : list C) (c : C) : bool := existsb (eqb c) l.

  (** [g.neighbors(v).count()] *)
  Definition degree (v : C) : outcome Z :=
    for_each (nb_next v) (nb v) (fun n _ => Ok (n + 1)) 0.

  (** [HashSet::from_iter(g.neighbors(v))], of which only the members matter. *)
  Definition around_set (v : C) : outcome (list C) :=
    for_each (nb_next v) (nb v) (fun l y => Ok (y :: l)) [].

  (** [max_by_key]: of several the last. *)
  Fixpoint pivot (best : C) (l : list C) : outcome C :=
    match l with
    | [] => Ok best
    | v :: l =>
        let! a := degree best in
        let! b := degree v in
        pivot (if a <=? b then v else best) l
    end.

  (** The filter of [todo]: [*u == *v || !adjacent(u, v) || !adjacent(v, u)]. *)
  Definition not_joined (u v : C) : outcome bool :=
    if eqb u v then Ok true else
    let! a := is_adjacent u v in
    if negb a then Ok true else
    let! b := is_adjacent v u in Ok (negb b).

  Definition select (u : C) (l : list C) : outcome (list C) :=
    fold_outcome (fun acc v => let! b := not_joined u v in Ok (if (b : bool) then acc ++ [v] else acc))
      l [].

  (** [bron_kerbosch_pivot]; [todo.pop()] takes the last. *)
  Fixpoint bron_kerbosch (fuel : nat) (r p x : list C) : outcome (list (list C)) :=
    match fuel with
    | O => Fail FDiverge
    | S fuel =>
        match p with
        | [] => Ok (match x with [] => [r] | _ => [] end)
        | _ =>
            let! u := match order r p with
                      | [] => Fail FPanic
                      | v :: l => pivot v l
                      end in
            let! todo := select u (order r p) in
            let! (st, _) := fold_outcome (fun st v =>
              let '(cliques, p, x) := st in
              let! neighbors := around_set v in
              let p := filter (fun y => negb (eqb v y)) p in
              let! more := bron_kerbosch fuel (v :: r) (filter (mem neighbors) p)
                             (filter (mem neighbors) x) in
              Ok (cliques ++ more, p, v :: x)) (rev todo) ([], p, x) in
            Ok (fst st)
        end
    end.

  Definition maximal_cliques : outcome (list (list C)) :=
    let! p := for_each ids_next ids (fun l c => Ok (l ++ [c])) [] in
    bron_kerbosch (S (length p)) [] p [].
End Cliques.
