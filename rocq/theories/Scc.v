(** * Scc: petgraph's [kosaraju_scc] on the two graph types.

    petgraph 0.8, src/algo/scc/kosaraju_scc.rs (not in /repo), over the trait methods that
    /repo implements: [node_identifiers] (nodes.rs:42-47, square/nodes.rs), [neighbors] and
    [neighbors_directed] (neighbors.rs, square/neighbors.rs), [visit_map] and [reset_map]
    (mod.rs, square/mod.rs). *)

From Verif Require Import Machine Store Axes Shapes Lattice SquareGraph Traverse Clients.

(** [while let Some(x) = it.next() { v.push(x) }]: the vector and the iterator after it. *)
Definition push_all {It X} (next : It -> outcome (option X * It)) (it : It) (v : list X)
  : outcome (list X * It) :=
  loop (fun st : It * list X =>
    let! (x, it') := next (fst st) in
    Ok (match x with
        | None => inr (snd st, it')
        | Some x => inl (it', snd st ++ [x])
        end)) (it, v).

Section Kosaraju.
  Context {C It Ids VM : Type} (ids : Ids) (ids_next : Ids -> outcome (option C * Ids))
    (nb : C -> It) (rev_nb : C -> It) (nb_next : C -> It -> outcome (option C * It))
    (visit : VM -> C -> outcome (bool * VM)) (visited : VM -> C -> outcome bool)
    (fresh : VM) (reset : VM -> VM).

  (** The first phase: post-orders over [Reversed(g)], whose [neighbors] are
      [neighbors_directed(_, Incoming)]; [move_to] empties the stack and pushes the node. *)
  Definition finish_order : outcome (list C * Dpo (C := C) (VM := VM)) :=
    for_each ids_next ids (fun (st : list C * Dpo) i =>
      let '(order, (stack, (discovered, finished))) := st in
      let! v := visited discovered i in
      if v then Ok st
      else push_all (dpo_next rev_nb nb_next visit visited) ([i], (discovered, finished)) order)
      ([], ([], (fresh, fresh))).

  (** The second phase: [Dfs] over [g], from the nodes in reverse order. *)
  Definition kosaraju_scc : outcome (list (list C)) :=
    let! (order, dpo) := finish_order in
    let! st := fold_outcome (fun (st : list (list C) * Dfs (C := C) (VM := VM)) i =>
      let '(sccs, (stack, discovered)) := st in
      let! v := visited discovered i in
      if v then Ok st
      else
        let! (scc, dfs) := push_all (dfs_next nb nb_next visit visited) ([i], discovered) [] in
        Ok (sccs ++ [scc], dfs))
      (rev order) ([], ([], reset (fst (snd dpo)))) in
    Ok (fst st).
End Kosaraju.

(** On [LatticeGraph] *)
Definition lattice_scc {A D N E : Type} (m : mode) (g : LatticeGraph (Z * Z) A D N E)
  : outcome (list (list (Z * Z))) :=
  kosaraju_scc (node_identifiers g) (node_indices_next m (g_s g)) (neighbors g)
    (fun n => neighbors_directed g n Incoming) (neighbors_next m g) (vm_visit m (g_s g))
    (vm_is_visited m (g_s g)) (visit_map g) (reset_map g).

(** On [SquareGraph] *)
Definition square_scc {N E : Type} {ix : IxType} {S : LoopShape} (m : mode)
  (g : SquareGraph N E ix S) : outcome (list (list NodeIndex)) :=
  kosaraju_scc (sg_node_identifiers g) (sg_node_indices_next (ix := ix) m) (sg_neighbors g)
    (sg_neighbors g) (fun _ => sg_neighbors_next (ix := ix) (S := S) m) svm_visit
    svm_is_visited (sg_visit_map g) (sg_reset_map g).
