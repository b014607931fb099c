(** * Matching: [greedy_matching] of petgraph 0.8 (src/algo/matching.rs), as a client of the graphs.

    petgraph is outside of the repository; this is its algorithm as published, reduced to what it asks
    of a graph: [node_identifiers], [neighbors], [node_bound], [to_index], [visit_map], [visit] and
    [is_visited].
    - [non_backtracking_dfs] calls itself.  Here the calls may be nested one deeper than there are nodes;
      a deeper one counts as running forever ([FDiverge]), and so the theorems say that there is none.
      Running out of stack is not modelled. *)

From Verif Require Import Machine Store Traverse.

Section Matching.
  Context {C It Ids VM : Type} (m : mode) (ids : Ids) (ids_next : Ids -> outcome (option C * Ids))
    (nb : C -> It) (nb_next : C -> It -> outcome (option C * It))
    (bound : outcome Z) (to_index : C -> outcome Z)
    (fresh : VM) (visit : VM -> C -> outcome (bool * VM)) (visited : VM -> C -> outcome bool).

  (** [mate], [n_edges], [last] and [visited] of [greedy_matching_inner]. *)
  Record Greedy := mkGreedy {
    gr_mate : list (option C);
    gr_edges : Z;
    gr_last : option C;
    gr_vm : VM
  }.

  (** [mate[graph.to_index(c)] = Some(x)] *)
  Definition set_mate (mate : list (option C)) (c x : C) : outcome (list (option C)) :=
    let! i := to_index c in
    if (0 <=? i) && (i <? Z.of_nat (length mate)) then Ok (list_set mate (Z.to_nat i) (Some x))
    else Fail FPanic.

  (** The closure that is called with each node on the way. *)
  Definition meet (st : Greedy) (next : C) : outcome Greedy :=
    match gr_last st with
    | Some last =>
        let! mate := set_mate (gr_mate st) last next in
        let! mate := set_mate mate next last in
        let! n := usize_add m (gr_edges st) 1 in
        Ok (mkGreedy mate n None (gr_vm st))
    | None => Ok (mkGreedy (gr_mate st) (gr_edges st) (Some next) (gr_vm st))
    end.

  (** [for target in graph.neighbors(source)] up to its [break]: the first one not visited. *)
  Definition first_unvisited (vm : VM) (source : C) : outcome (option C) :=
    loop (fun it =>
      let! (x, it') := nb_next source it in
      match x with
      | None => Ok (inr None)
      | Some target =>
          let! v := visited vm target in
          if v then Ok (inl it') else Ok (inr (Some target))
      end) (nb source).

  (** [non_backtracking_dfs] *)
  Fixpoint non_backtracking_dfs (fuel : nat) (source : C) (st : Greedy) : outcome Greedy :=
    match fuel with
    | O => Fail FDiverge
    | S fuel =>
        let! (new, vm) := visit (gr_vm st) source in
        let st := mkGreedy (gr_mate st) (gr_edges st) (gr_last st) vm in
        if new then
          let! t := first_unvisited vm source in
          match t with
          | None => Ok st
          | Some target => let! st := meet st target in non_backtracking_dfs fuel target st
          end
        else Ok st
    end.

  (** [greedy_matching]: the mates by index, and the number of pairs. *)
  Definition greedy_matching : outcome (list (option C) * Z) :=
    let! n := bound in
    let! st := for_each ids_next ids (fun st start =>
      non_backtracking_dfs (S (Z.to_nat n)) start
        (mkGreedy (gr_mate st) (gr_edges st) (Some start) (gr_vm st)))
      (mkGreedy (repeat None (Z.to_nat n)) 0 None fresh) in
    Ok (gr_mate st, gr_edges st).

  (** [Matching::mate] *)
  Definition mate_of (r : list (option C) * Z) (c : C) : outcome (option C) :=
    let! i := to_index c in
    Ok (match nth_error (fst r) (Z.to_nat i) with Some x => x | None => None end).

  (** [Matching::is_perfect] *)
  Definition is_perfect (count : outcome Z) (r : list (option C) * Z) : outcome bool :=
    let! n := count in
    Ok ((n mod 2 =? 0) && (snd r =? n / 2)).
End Matching.
Arguments mkGreedy {C VM}.
Arguments gr_mate {C VM}.
Arguments gr_edges {C VM}.
Arguments gr_last {C VM}.
Arguments gr_vm {C VM}.
