(** * Tarjan: [tarjan_scc] of petgraph 0.8 (src/algo/mod.rs or src/algo/scc/tarjan_scc.rs), as a
    client of the graphs.

    petgraph is outside of the repository; this is its algorithm as published (D. J. Pearce's
    variant), reduced to what it asks of a graph: [node_identifiers], [neighbors], [node_bound]
    and [to_index].
    - [visit] calls itself.  Here the calls may be nested one deeper than there are nodes; a
      deeper one counts as running forever ([FDiverge]), and so the theorems say that there is
      none.  Running out of stack is not modelled.
    - [stack] is kept with its last item first. *)

From Verif Require Import Machine Store Axes Shapes Lattice SquareGraph Traverse.

(** [NonZeroUsize::new] *)
Definition non_zero (x : Z) : option Z := if x =? 0 then None else Some x.

(** [a < b] on [Option<NonZeroUsize>] *)
Definition root_ltb (a b : option Z) : bool :=
  match a, b with
  | None, Some _ => true
  | Some x, Some y => x <? y
  | _, None => false
  end.

Section Tarjan.
  Context {C It Ids : Type} (m : mode) (ids : Ids) (ids_next : Ids -> outcome (option C * Ids))
    (nb : C -> It) (nb_next : C -> It -> outcome (option C * It))
    (bound : outcome Z) (to_index : C -> outcome Z).

  (** [TarjanScc] and the vector that [tarjan_scc] collects the components in. *)
  Record Tarjan := mkTarjan {
    ta_index : Z;
    ta_count : Z;
    ta_nodes : list (option Z);
    ta_stack : list C;
    ta_sccs : list (list C)
  }.

  (** [self.nodes[g.to_index(c)].rootindex] *)
  Definition root_of (st : Tarjan) (c : C) : outcome (option Z) :=
    let! i := to_index c in
    if i <? 0 then Fail FPanic else unwrap (nth_error (ta_nodes st) (Z.to_nat i)).

  (** [self.nodes[g.to_index(c)].rootindex = x] *)
  Definition set_root (st : Tarjan) (c : C) (x : option Z) : outcome Tarjan :=
    let! _ := root_of st c in
    let! i := to_index c in
    Ok (mkTarjan (ta_index st) (ta_count st) (list_set (ta_nodes st) (Z.to_nat i) x)
          (ta_stack st) (ta_sccs st)).

  (** The body of [for w in g.neighbors(v)], with [v_is_local_root]; [visit] is the call. *)
  Definition tarjan_neighbour (visit : C -> Tarjan -> outcome Tarjan) (v : C)
    (acc : bool * Tarjan) (w : C) : outcome (bool * Tarjan) :=
    let '(root, st) := acc in
    let! x := root_of st w in
    let! st := match x with None => visit w st | Some _ => Ok st end in
    let! x := root_of st w in
    let! y := root_of st v in
    if root_ltb x y then
      let! st := set_root st v x in Ok (false, st)
    else Ok (root, st).

  (** [self.stack.iter().rposition(..)]: the items from the end on whose root is not before that
      of [v] get the root [c] and are counted in [adj].  It gives [adj], these items in the order
      of the stack, and the rest of the stack. *)
  Fixpoint tarjan_pop (v : C) (c : option Z) (stack popped : list C) (adj : Z) (st : Tarjan)
    : outcome (Z * list C * list C * Tarjan) :=
    match stack with
    | [] => Ok (adj, popped, [], st)
    | w :: rest =>
        let! x := root_of st v in
        let! y := root_of st w in
        if root_ltb y x then Ok (adj, popped, stack, st)
        else
          let! st := set_root st w c in
          let! adj := usize_add m adj 1 in
          tarjan_pop v c rest (w :: popped) adj st
    end.

  (** [visit] *)
  Fixpoint tarjan_visit (fuel : nat) (v : C) (st : Tarjan) : outcome Tarjan :=
    match fuel with
    | O => Fail FDiverge
    | S fuel =>
        let! x := root_of st v in
        let! _ := debug_assert m (match x with None => true | Some _ => false end) in
        let! st := set_root st v (non_zero (ta_index st)) in
        let! i := usize_add m (ta_index st) 1 in
        let st := mkTarjan i (ta_count st) (ta_nodes st) (ta_stack st) (ta_sccs st) in
        let! (root, st) := for_each (nb_next v) (nb v)
          (tarjan_neighbour (tarjan_visit fuel) v) (true, st) in
        if root then
          let c := non_zero (ta_count st) in
          let! r := tarjan_pop v c (ta_stack st) [] 1 st in
          let '(adj, popped, rest, st) := r in
          let! st := set_root st v c in
          let! i := usize_sub m (ta_index st) adj in
          let! n := usize_sub m (ta_count st) 1 in
          Ok (mkTarjan i n (ta_nodes st) rest (ta_sccs st ++ [popped ++ [v]]))
        else
          Ok (mkTarjan (ta_index st) (ta_count st) (ta_nodes st) (v :: ta_stack st) (ta_sccs st))
    end.

  (** [TarjanScc::new] and [run], called from [tarjan_scc] *)
  Definition tarjan_scc : outcome (list (list C)) :=
    let! n := bound in
    let! st := for_each ids_next ids (fun st c =>
      let! x := root_of st c in
      match x with
      | Some _ => Ok st
      | None => tarjan_visit (S (Z.to_nat n)) c st
      end) (mkTarjan 1 (USIZE - 1) (repeat None (Z.to_nat n)) [] []) in
    let! _ := debug_assert m (match ta_stack st with [] => true | _ => false end) in
    Ok (ta_sccs st).
End Tarjan.
Arguments mkTarjan {C}.
Arguments ta_index {C}.
Arguments ta_count {C}.
Arguments ta_nodes {C}.
Arguments ta_stack {C}.
Arguments ta_sccs {C}.

(** On [LatticeGraph] *)
Definition lattice_tarjan {A D N E : Type} (m : mode) (g : LatticeGraph (Z * Z) A D N E)
  : outcome (list (list (Z * Z))) :=
  tarjan_scc m (node_identifiers g) (node_indices_next m (g_s g)) (neighbors g)
    (neighbors_next m g) (node_bound m g) (to_index m g).

(** On [SquareGraph] *)
Definition square_tarjan {N E : Type} {ix : IxType} {S : LoopShape} (m : mode)
  (g : SquareGraph N E ix S) : outcome (list (list NodeIndex)) :=
  tarjan_scc m (sg_node_identifiers g) (sg_node_indices_next (ix := ix) m) (sg_neighbors g)
    (fun _ => sg_neighbors_next (ix := ix) (S := S) m) (Ok (sg_node_bound g)) (sg_to_index m g).
