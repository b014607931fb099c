(** * DfsEvents: [depth_first_search] of petgraph 0.8 (src/visit/dfsvisit.rs) and
    [is_cyclic_directed] (src/algo/mod.rs), as clients of the graphs.

    petgraph is outside of the repository; these are its algorithms as published, reduced to
    what they ask of a graph: [neighbors], [node_identifiers], [visit_map], [visit] and
    [is_visited].
    - A visitor is a function of its own state and the event; it goes on or breaks off with a
      value ([Control::Break], or [Err]).  Visitors that prune: PruneDfs.
    - The calls of [dfs_visitor] within each other are a list of nodes with the rests of their
      loops; running out of stack is not modelled.
    - [Time] counts in [Z]: it goes up by one at most twice per node. *)

From Verif Require Import Machine Traverse Clients Lattice SquareGraph.

Inductive DfsEvent (C : Type) :=
| Discover (c : C) (time : Z)
| TreeEdge (a b : C)
| BackEdge (a b : C)
| CrossForwardEdge (a b : C)
| Finish (c : C) (time : Z).
Arguments Discover {C}.
Arguments TreeEdge {C}.
Arguments BackEdge {C}.
Arguments CrossForwardEdge {C}.
Arguments Finish {C}.

Section Search.
  Context {C It Ids VM V B : Type} (m : mode) (nb : C -> It)
    (nb_next : C -> It -> outcome (option C * It))
    (visit : VM -> C -> outcome (bool * VM)) (visited : VM -> C -> outcome bool)
    (visitor : V -> DfsEvent C -> V + B).

  (** The open calls (innermost first), [discovered], [finished], [time] and the visitor. *)
  Record DfsState := mkDfs {
    ds_open : list (C * It);
    ds_disc : VM;
    ds_fin : VM;
    ds_time : Z;
    ds_val : V
  }.

  (** The start of [dfs_visitor(graph, u, ..)], up to its loop over the neighbours. *)
  Definition dfs_enter (st : DfsState) (u : C) : outcome (DfsState + B) :=
    let! (new, disc) := visit (ds_disc st) u in
    if new then
      Ok (match visitor (ds_val st) (Discover u (ds_time st)) with
          | inr b => inr b
          | inl w => inl (mkDfs ((u, nb u) :: ds_open st) disc (ds_fin st) (ds_time st + 1) w)
          end)
    else Ok (inl (mkDfs (ds_open st) disc (ds_fin st) (ds_time st) (ds_val st))).

  (** One round of the innermost loop over neighbours, or the end of its call. *)
  Definition dfs_round (st : DfsState) : outcome (DfsState + (DfsState + B)) :=
    match ds_open st with
    | [] => Ok (inr (inl st))
    | (u, it) :: rest =>
        let! (x, it') := nb_next u it in
        match x with
        | Some v =>
            let! d := visited (ds_disc st) v in
            if d then
              let! f := visited (ds_fin st) v in
              Ok (match visitor (ds_val st) (if f then CrossForwardEdge u v else BackEdge u v) with
                  | inr b => inr (inr b)
                  | inl w => inl (mkDfs ((u, it') :: rest) (ds_disc st) (ds_fin st) (ds_time st) w)
                  end)
            else
              match visitor (ds_val st) (TreeEdge u v) with
              | inr b => Ok (inr (inr b))
              | inl w =>
                  let! r := dfs_enter
                    (mkDfs ((u, it') :: rest) (ds_disc st) (ds_fin st) (ds_time st) w) v in
                  Ok (match r with inl st => inl st | inr b => inr (inr b) end)
              end
        | None =>
            let! (first, fin) := visit (ds_fin st) u in
            (* debug_assert!(first_finish) *)
            match first, m with
            | false, Debug => Fail FPanic
            | _, _ =>
                Ok (match visitor (ds_val st) (Finish u (ds_time st)) with
                    | inr b => inr (inr b)
                    | inl w => inl (mkDfs rest (ds_disc st) fin (ds_time st + 1) w)
                    end)
            end
        end
    end.

  (** [dfs_visitor] called from [depth_first_search]. *)
  Definition dfs_visitor (st : DfsState) (u : C) : outcome (DfsState + B) :=
    let! r := dfs_enter st u in
    match r with
    | inr b => Ok (inr b)
    | inl st => loop dfs_round st
    end.

  Definition depth_first_search (fresh : VM) (starts : Ids)
    (starts_next : Ids -> outcome (option C * Ids)) (w : V) : outcome (V + B) :=
    let! r := for_return starts_next starts dfs_visitor (mkDfs [] fresh fresh 0 w) in
    Ok (match r with inl st => inl (ds_val st) | inr b => inr b end).
End Search.
Arguments mkDfs {C It VM V}.
Arguments ds_open {C It VM V}.
Arguments ds_disc {C It VM V}.
Arguments ds_fin {C It VM V}.
Arguments ds_time {C It VM V}.
Arguments ds_val {C It VM V}.

(** The visitor of [is_cyclic_directed]. *)
Definition back_edge {C} (_ : unit) (e : DfsEvent C) : unit + unit :=
  match e with BackEdge _ _ => inr tt | _ => inl tt end.

(** The result of [is_err()]. *)
Definition is_err {V B} (r : outcome (V + B)) : outcome bool :=
  let! r := r in Ok (match r with inl _ => false | inr _ => true end).

(** On [LatticeGraph] *)
Definition lattice_dfs {A D N E Ids V B : Type} (m : mode) (g : LatticeGraph (Z * Z) A D N E)
  (starts : Ids) (starts_next : Ids -> outcome (option (Z * Z) * Ids))
  (visitor : V -> DfsEvent (Z * Z) -> V + B) (w : V) : outcome (V + B) :=
  depth_first_search m (neighbors g) (neighbors_next m g) (vm_visit m (g_s g))
    (vm_is_visited m (g_s g)) visitor (visit_map g) starts starts_next w.

Definition lattice_is_cyclic_directed {A D N E : Type} (m : mode)
  (g : LatticeGraph (Z * Z) A D N E) : outcome bool :=
  is_err (lattice_dfs m g (node_identifiers g) (node_indices_next m (g_s g)) back_edge tt).

(** On [SquareGraph] *)
Definition square_dfs {N E Ids V B : Type} {ix : IxType} {S : LoopShape} (m : mode)
  (g : SquareGraph N E ix S) (starts : Ids) (starts_next : Ids -> outcome (option NodeIndex * Ids))
  (visitor : V -> DfsEvent NodeIndex -> V + B) (w : V) : outcome (V + B) :=
  depth_first_search m (sg_neighbors g) (fun _ => sg_neighbors_next (ix := ix) (S := S) m)
    svm_visit svm_is_visited visitor (sg_visit_map g) starts starts_next w.

Definition square_is_cyclic_directed {N E : Type} {ix : IxType} {S : LoopShape} (m : mode)
  (g : SquareGraph N E ix S) : outcome bool :=
  is_err (square_dfs m g (sg_node_identifiers g) (sg_node_indices_next (ix := ix) m) back_edge tt).
