(** * Coloring: [dsatur_coloring] of petgraph 0.8 (src/algo/coloring.rs), as a client of the graphs.

    petgraph is outside of the repository; this is its algorithm as published, reduced to what it asks
    of a graph: [node_identifiers], [edges], [neighbors], [node_bound], [to_index], [visit_map],
    [visit] and [is_visited].
    - The [HashMap] of colours is a function, a [HashSet] of colours a list without repetitions.
    - The [BinaryHeap] of [MaxScored] is any that keeps to [MaxHeapOK]. *)

From Verif Require Import Machine Store Traverse Astar.
From Coq Require Import Permutation.

(** A heap of nodes scored by two numbers, in some internal order. *)
Record MaxHeap (C : Type) := {
  mh_push : (Z * Z) * C -> list ((Z * Z) * C) -> list ((Z * Z) * C);
  mh_pop : list ((Z * Z) * C) -> option (((Z * Z) * C) * list ((Z * Z) * C))
}.
Arguments mh_push {C}.
Arguments mh_pop {C}.

(** Tuples are ordered by their first and then by their second part. *)
Definition score_le (a b : Z * Z) : Prop := fst a < fst b \/ (fst a = fst b /\ snd a <= snd b).

(** The contract of std's [BinaryHeap] with petgraph's [MaxScored] (greatest score first). *)
Definition MaxHeapOK {C} (H : MaxHeap C) : Prop :=
  (forall x q, Permutation (mh_push H x q) (x :: q)) /\
  (forall q, match mh_pop H q with
             | None => q = []
             | Some (x, q') => Permutation q (x :: q') /\ forall y, In y q -> score_le (fst y) (fst x)
             end).

Section Coloring.
  Context {C Ed It EIt Ids VM : Type} (m : mode) (H : MaxHeap C) (eqb : C -> C -> bool)
    (ids : Ids) (ids_next : Ids -> outcome (option C * Ids))
    (nb : C -> It) (nb_next : C -> It -> outcome (option C * It))
    (edges : C -> outcome EIt) (edges_next : EIt -> outcome (option Ed * EIt))
    (bound : outcome Z) (to_index : C -> outcome Z)
    (fresh : VM) (visit : VM -> C -> outcome (bool * VM)) (visited : VM -> C -> outcome bool).

  (** [queue], [adj_color_map], [seen], [colors] and [max_color]; [degree_map] does not change. *)
  Record Colors := mkColors {
    cl_queue : list ((Z * Z) * C);
    cl_adj : list (list Z);
    cl_seen : VM;
    cl_colors : C -> option Z;
    cl_max : Z
  }.

  (** [v[i]] *)
  Definition vec_at {X} (v : list X) (i : Z) : outcome X :=
    match nth_error v (Z.to_nat i) with Some x => Ok x | None => Fail FPanic end.

  (** [HashSet::contains] and [HashSet::insert] *)
  Definition has (set : list Z) (z : Z) : bool := existsb (Z.eqb z) set.
  Definition insert (z : Z) (set : list Z) : list Z := if has set z then set else z :: set.

  (** [get_next_color]: [(0..).find(|c| !adj_color.contains(c))]; it looks at no more numbers than one
      more than the size of the set, more would count as running forever. *)
  Fixpoint next_color_from (fuel : nat) (c : Z) (set : list Z) : outcome Z :=
    match fuel with
    | O => Fail FDiverge
    | S fuel => if has set c then next_color_from fuel (c + 1) set else Ok c
    end.
  Definition next_color (set : list Z) : outcome Z := next_color_from (S (length set)) 0 set.

  (** [graph.edges(v).count()] *)
  Definition degree (v : C) : outcome Z :=
    let! it := edges v in for_each edges_next it (fun n _ => usize_add m n 1) 0.

  (** The body of [for nbor in graph.neighbors(v)] *)
  Definition spread (degrees : list Z) (color : Z) (st : list (list Z) * list ((Z * Z) * C)) (nbor : C)
    : outcome (list (list Z) * list ((Z * Z) * C)) :=
    let! j := to_index nbor in
    match nth_error (fst st) (Z.to_nat j) with
    | None => Ok st
    | Some set =>
        let set := insert color set in
        let! d := vec_at degrees j in
        Ok (list_set (fst st) (Z.to_nat j) set, mh_push H ((Z.of_nat (length set), d), nbor) (snd st))
    end.

  (** One round of [while let Some(MaxScored(_, v)) = queue.pop()] *)
  Definition color_round (degrees : list Z) (st : Colors) : outcome (Colors + Colors) :=
    match mh_pop H (cl_queue st) with
    | None => Ok (inr st)
    | Some ((_, v), q) =>
        let! s := visited (cl_seen st) v in
        if s then Ok (inl (mkColors q (cl_adj st) (cl_seen st) (cl_colors st) (cl_max st)))
        else
          let! (_, seen) := visit (cl_seen st) v in
          let! i := to_index v in
          let! set := vec_at (cl_adj st) i in
          let! color := next_color set in
          let! (adj, q) := for_each (nb_next v) (nb v) (spread degrees color) (cl_adj st, q) in
          Ok (inl (mkColors q adj seen (map_insert eqb (cl_colors st) v color)
            (Z.max (cl_max st) color)))
    end.

  (** [dsatur_coloring] *)
  Definition dsatur_coloring : outcome ((C -> option Z) * Z) :=
    let! n := bound in
    let! (degrees, q) := for_each ids_next ids (fun st v =>
      let! d := degree v in
      let! i := to_index v in
      let! _ := vec_at (fst st) i in
      Ok (list_set (fst st) (Z.to_nat i) d, mh_push H ((0, d), v) (snd st)))
      (repeat 0 (Z.to_nat n), []) in
    let! st := loop (color_round degrees)
      (mkColors q (repeat [] (Z.to_nat n)) fresh (fun _ => None) 0) in
    let! k := usize_add m (cl_max st) 1 in
    Ok (cl_colors st, k).
End Coloring.
Arguments mkColors {C VM}.
Arguments cl_queue {C VM}.
Arguments cl_adj {C VM}.
Arguments cl_seen {C VM}.
Arguments cl_colors {C VM}.
Arguments cl_max {C VM}.
