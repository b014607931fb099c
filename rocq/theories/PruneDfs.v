(** * PruneDfs: [depth_first_search] of petgraph 0.8 (src/visit/dfsvisit.rs) with a visitor that
    returns [Control], as a client of the graphs.

    As in DfsEvents, but the visitor may also prune, by [Control::Prune]:
    - at [Discover] the loop over the neighbours is left out, the node is finished at once;
    - at [TreeEdge] the loop goes on with the next neighbour;
    - at [BackEdge] and [CrossForwardEdge] it does so anyway;
    - at [Finish] it panics.
    The calls within each other are a list of nodes with the rests of their loops; running out of
    stack is not modelled, and [Time] counts in [Z]. *)

From Verif Require Import Machine Traverse Clients Lattice SquareGraph DfsEvents.

(** [Control], with the state of the visitor. *)
Inductive Control (V B : Type) :=
| Continue (w : V)
| Prune (w : V)
| Break (b : B).
Arguments Continue {V B}.
Arguments Prune {V B}.
Arguments Break {V B}.

Section Search.
  Context {C It Ids VM V B : Type} (m : mode) (nb : C -> It)
    (nb_next : C -> It -> outcome (option C * It))
    (visit : VM -> C -> outcome (bool * VM)) (visited : VM -> C -> outcome bool)
    (visitor : V -> DfsEvent C -> Control V B).

  (** The state of DfsEvents; a loop that is left out is [None]. *)
  Notation state := (@DfsState C (option It) VM V).

  (** The start of [dfs_visitor(graph, u, ..)], up to its loop over the neighbours. *)
  Definition pdfs_enter (st : state) (u : C) : outcome (state + B) :=
    let! (new, disc) := visit (ds_disc st) u in
    if new then
      let opened it w := inl (mkDfs ((u, it) :: ds_open st) disc (ds_fin st) (ds_time st + 1) w) in
      Ok (match visitor (ds_val st) (Discover u (ds_time st)) with
          | Break b => inr b
          | Prune w => opened None w
          | Continue w => opened (Some (nb u)) w
          end)
    else Ok (inl (mkDfs (ds_open st) disc (ds_fin st) (ds_time st) (ds_val st))).

  (** One round of the innermost loop over neighbours, or the end of its call. *)
  Definition pdfs_round (st : state) : outcome (state + (state + B)) :=
    match ds_open st with
    | [] => Ok (inr (inl st))
    | (u, it) :: rest =>
        let! (x, it') :=
          match it with
          | None => Ok (None, None)
          | Some i => let! (x, i') := nb_next u i in Ok (x, Some i')
          end in
        match x with
        | Some v =>
            let onward w := mkDfs ((u, it') :: rest) (ds_disc st) (ds_fin st) (ds_time st) w in
            let! d := visited (ds_disc st) v in
            if d then
              let! f := visited (ds_fin st) v in
              Ok (match visitor (ds_val st) (if f then CrossForwardEdge u v else BackEdge u v) with
                  | Break b => inr (inr b)
                  | Prune w | Continue w => inl (onward w)
                  end)
            else
              match visitor (ds_val st) (TreeEdge u v) with
              | Break b => Ok (inr (inr b))
              | Prune w => Ok (inl (onward w))
              | Continue w =>
                  let! r := pdfs_enter (onward w) v in
                  Ok (match r with inl st => inl st | inr b => inr (inr b) end)
              end
        | None =>
            let! (first, fin) := visit (ds_fin st) u in
            (* debug_assert!(first_finish) *)
            match first, m with
            | false, Debug => Fail FPanic
            | _, _ =>
                match visitor (ds_val st) (Finish u (ds_time st)) with
                | Break b => Ok (inr (inr b))
                | Prune _ => Fail FPanic
                | Continue w => Ok (inl (mkDfs rest (ds_disc st) fin (ds_time st + 1) w))
                end
            end
        end
    end.

  (** [dfs_visitor] called from [depth_first_search]. *)
  Definition pdfs_visitor (st : state) (u : C) : outcome (state + B) :=
    let! r := pdfs_enter st u in
    match r with
    | inr b => Ok (inr b)
    | inl st => loop pdfs_round st
    end.

  Definition pruning_search (fresh : VM) (starts : Ids)
    (starts_next : Ids -> outcome (option C * Ids)) (w : V) : outcome (V + B) :=
    let! r := for_return starts_next starts pdfs_visitor (mkDfs [] fresh fresh 0 w) in
    Ok (match r with inl st => inl (ds_val st) | inr b => inr b end).
End Search.

(** On [LatticeGraph] *)
Definition lattice_pdfs {A D N E Ids V B : Type} (m : mode) (g : LatticeGraph (Z * Z) A D N E)
  (starts : Ids) (starts_next : Ids -> outcome (option (Z * Z) * Ids))
  (visitor : V -> DfsEvent (Z * Z) -> Control V B) (w : V) : outcome (V + B) :=
  pruning_search m (neighbors g) (neighbors_next m g) (vm_visit m (g_s g))
    (vm_is_visited m (g_s g)) visitor (visit_map g) starts starts_next w.

(** On [SquareGraph] *)
Definition square_pdfs {N E Ids V B : Type} {ix : IxType} {S : LoopShape} (m : mode)
  (g : SquareGraph N E ix S) (starts : Ids) (starts_next : Ids -> outcome (option NodeIndex * Ids))
  (visitor : V -> DfsEvent NodeIndex -> Control V B) (w : V) : outcome (V + B) :=
  pruning_search m (sg_neighbors g) (fun _ => sg_neighbors_next (ix := ix) (S := S) m)
    svm_visit svm_is_visited visitor (sg_visit_map g) starts starts_next w.
