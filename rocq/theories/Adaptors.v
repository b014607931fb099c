(** * Adaptors: [Reversed] and [UndirectedAdaptor] of petgraph 0.8 (src/visit/reversed.rs,
    src/visit/undirected_adaptor.rs), as clients of the graphs.

    petgraph is outside of the repository; these are its adaptors as published, reduced to what
    the searches ask of a graph.  They hand [visit_map] and [node_identifiers] on to the graph
    below. *)

From Verif Require Import Machine Lattice.

(** [Iterator::chain]: the first iterator until it ends, then the second. *)
Definition chain_next {I1 I2 X} (next1 : I1 -> outcome (option X * I1))
  (next2 : I2 -> outcome (option X * I2)) (st : option I1 * I2)
  : outcome (option X * (option I1 * I2)) :=
  let second i2 := let! (x, i2') := next2 i2 in Ok (x, (None, i2')) in
  match fst st with
  | None => second (snd st)
  | Some i1 =>
      let! (x, i1') := next1 i1 in
      match x with
      | Some x => Ok (Some x, (Some i1', snd st))
      | None => second (snd st)
      end
  end.

Section Adaptors.
  Context {C It Ed Ie : Type}
    (neighbors_directed : C -> PetDirection -> It) (nb_next : C -> It -> outcome (option C * It))
    (edges_directed : C -> PetDirection -> outcome Ie)
    (edges_next : Ie -> outcome (option Ed * Ie))
    (source target : Ed -> outcome C).

  (** ** [Reversed(graph)] *)

  (** The items are [ReversedEdgeReference(e)], a wrapper with the two ends exchanged. *)
  Definition rv_neighbors (n : C) : It := neighbors_directed n Incoming.
  Definition rv_edges (n : C) : outcome Ie := edges_directed n Incoming.
  Definition rv_source (e : Ed) : outcome C := target e.
  Definition rv_target (e : Ed) : outcome C := source e.

  (** ** [UndirectedAdaptor(graph)] *)

  Definition un_neighbors (n : C) : option It * It :=
    (Some (neighbors_directed n Incoming), neighbors_directed n Outgoing).
  Definition un_neighbors_next (n : C) (st : option It * It)
    : outcome (option C * (option It * It)) := chain_next (nb_next n) (nb_next n) st.

  (** [MaybeReversedEdges { iter, reversed }]; the items are
      [MaybeReversedEdgeReference { inner, reversed }]. *)
  Definition maybe_next (reversed : bool) (it : Ie) : outcome (option (Ed * bool) * Ie) :=
    let! (x, it') := edges_next it in
    Ok (option_map (fun e => (e, reversed)) x, it').
  Definition un_edges (n : C) : outcome (option Ie * Ie) :=
    let! incoming := edges_directed n Incoming in
    let! outgoing := edges_directed n Outgoing in
    Ok (Some incoming, outgoing).
  Definition un_edges_next (st : option Ie * Ie)
    : outcome (option (Ed * bool) * (option Ie * Ie)) :=
    chain_next (maybe_next true) (maybe_next false) st.
  Definition un_source (e : Ed * bool) : outcome C :=
    if snd e then target (fst e) else source (fst e).
  Definition un_target (e : Ed * bool) : outcome C :=
    if snd e then source (fst e) else target (fst e).
End Adaptors.
