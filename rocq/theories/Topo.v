(** * Topo: petgraph's [toposort] on the two graph types.

    petgraph 0.8, src/algo/mod.rs (not in /repo), over the trait methods that /repo implements:
    [node_identifiers] (nodes.rs:42-47, square/nodes.rs), [neighbors] and [neighbors_directed]
    (neighbors.rs, square/neighbors.rs), [visit_map] and [reset_map] (mod.rs, square/mod.rs).
    Its optional [DfsSpace] is left out: with [None] a fresh one is used. *)

From Verif Require Import Machine Store Axes Shapes Lattice SquareGraph Traverse Clients.

Section Toposort.
  Context {C It Ids VM : Type} (ids : Ids) (ids_next : Ids -> outcome (option C * Ids))
    (nb : C -> It) (rev_nb : C -> It) (nb_next : C -> It -> outcome (option C * It))
    (visit : VM -> C -> outcome (bool * VM)) (visited : VM -> C -> outcome bool)
    (fresh : VM) (reset : VM -> VM) (dec : forall a b : C, {a = b} + {a <> b}).

  (** [finish_stack], [dfs.stack] (top first), [dfs.discovered] and [finished] *)
  Definition Topo : Type := list C * Dpo (C := C) (VM := VM).

  (** [while let Some(&nx) = dfs.stack.last()]: one round; a loop at [nx] ends the function with
      [Err(Cycle(nx))]. *)
  Definition topo_round (st : Topo) : outcome (Topo + (Topo + C)) :=
    let '(order, (stack, (discovered, finished))) := st in
    match stack with
    | [] => Ok (inr (inl st))
    | nx :: rest =>
        let! (new, discovered) := visit discovered nx in
        if new then
          let! r := for_return (nb_next nx) (nb nx) (fun stack succ =>
            if dec succ nx then Ok (inr nx)
            else
              let! v := visited discovered succ in
              Ok (inl (if v then stack else succ :: stack))) stack in
          Ok (match r with
              | inl stack => inl (order, (stack, (discovered, finished)))
              | inr c => inr (inr c)
              end)
        else
          let! (new, finished) := visit finished nx in
          Ok (inl (if new then order ++ [nx] else order, (rest, (discovered, finished))))
    end.

  (** The first phase *)
  Definition topo_start (st : Topo) (i : C) : outcome (Topo + C) :=
    let '(order, (stack, (discovered, finished))) := st in
    let! v := visited discovered i in
    if v then Ok (inl st) else loop topo_round (order, (i :: stack, (discovered, finished))).

  (** The second phase, for one node [i]: [dfs.move_to(i)] and
      [while let Some(j) = dfs.next(Reversed(g))], whose [neighbors] are
      [neighbors_directed(_, Incoming)]; a second [j] ends the function with [Err(Cycle(j))]. *)
  Definition topo_check (i : C) (vm : VM) : outcome (Dfs (C := C) (VM := VM) + C) :=
    loop (fun st : bool * Dfs (C := C) (VM := VM) =>
      let! (j, dfs) := dfs_next rev_nb nb_next visit visited (snd st) in
      Ok (match j with
          | None => inr (inl dfs)
          | Some j => if fst st then inr (inr j) else inl (true, dfs)
          end)) (false, ([i], vm)).
  Fixpoint topo_checks (l : list C) (dfs : Dfs (C := C) (VM := VM)) : outcome (option C) :=
    match l with
    | [] => Ok None
    | i :: l =>
        let! r := topo_check i (snd dfs) in
        match r with inl dfs => topo_checks l dfs | inr j => Ok (Some j) end
    end.

  (** [Ok(finish_stack)] as [inl] and [Err(Cycle(c))] as [inr c] *)
  Definition toposort : outcome (list C + C) :=
    let! r := for_return ids_next ids topo_start ([], ([], (reset fresh, fresh))) in
    match r with
    | inr c => Ok (inr c)
    | inl (order, (stack, (discovered, _))) =>
        let! r := topo_checks (rev order) ([], reset discovered) in
        Ok (match r with None => inl (rev order) | Some c => inr c end)
    end.
End Toposort.

Definition node_dec : forall a b : Z * Z, {a = b} + {a <> b}.
Proof. decide equality; apply Z.eq_dec. Defined.

(** On [LatticeGraph] *)
Definition lattice_toposort {A D N E : Type} (m : mode) (g : LatticeGraph (Z * Z) A D N E)
  : outcome (list (Z * Z) + Z * Z) :=
  toposort (node_identifiers g) (node_indices_next m (g_s g)) (neighbors g)
    (fun n => neighbors_directed g n Incoming) (neighbors_next m g) (vm_visit m (g_s g))
    (vm_is_visited m (g_s g)) (visit_map g) (reset_map g) node_dec.

(** On [SquareGraph] *)
Definition square_toposort {N E : Type} {ix : IxType} {S : LoopShape} (m : mode)
  (g : SquareGraph N E ix S) : outcome (list NodeIndex + NodeIndex) :=
  toposort (sg_node_identifiers g) (sg_node_indices_next (ix := ix) m) (sg_neighbors g)
    (sg_neighbors g) (fun _ => sg_neighbors_next (ix := ix) (S := S) m) svm_visit
    svm_is_visited (sg_visit_map g) (sg_reset_map g) node_dec.
