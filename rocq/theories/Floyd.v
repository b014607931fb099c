(** * Floyd: [floyd_warshall] of petgraph 0.8 (src/algo/floyd_warshall.rs), as a client of the
    graphs.

    petgraph is outside of the repository; this is its algorithm as published, reduced to what
    it asks of a graph: [node_count], [to_index], [from_index], [is_directed],
    [node_identifiers], [edge_references], and of each edge its two ends and its cost.
    - Costs are integers of a bounded type: [hi] is [K::max()], [lo] the least value; an
      [overflowing_add] outside of them reports the overflow.
    - The table is a list of rows; an index out of its bounds panics.  Running out of memory for
      the table is left out, and so is the capacity the [HashMap] is made with.
    - Published versions differ in what a second edge between the same nodes does: [over] says
      that its cost replaces the first one's, otherwise the lower of the two stays. *)

From Verif Require Import Machine Store Traverse Astar.

Definition Table : Type := list (list Z).

(** [dist[i][j]] *)
Definition tab_get (d : Table) (i j : Z) : outcome Z :=
  if (i <? 0) || (j <? 0) then Fail FPanic else
  match nth_error d (Z.to_nat i) with
  | None => Fail FPanic
  | Some row => unwrap (nth_error row (Z.to_nat j))
  end.

(** [dist[i][j] = x] *)
Definition tab_set (d : Table) (i j x : Z) : outcome Table :=
  let! _ := tab_get d i j in
  match nth_error d (Z.to_nat i) with
  | None => Fail FPanic
  | Some row => Ok (list_set d (Z.to_nat i) (list_set row (Z.to_nat j) x))
  end.

(** Equality of the keys of the map it gives. *)
Definition pair_eqb {C} (eqb : C -> C -> bool) (x y : C * C) : bool :=
  eqb (fst x) (fst y) && eqb (snd x) (snd y).

Section Client.
  Context {C Ed RIt NIt : Type} (eqb : C * C -> C * C -> bool) (lo hi : Z) (over directed : bool)
    (count : outcome Z) (to_index : C -> outcome Z) (from_index : Z -> outcome C)
    (refs : RIt) (refs_next : RIt -> outcome (option Ed * RIt))
    (source target : Ed -> outcome C) (cost : Ed -> Z)
    (ids : NIt) (ids_next : NIt -> outcome (option C * NIt)).

  (** The body of [for edge in graph.edge_references()]. *)
  Definition fw_edge (d : Table) (e : Ed) : outcome Table :=
    let! a := source e in
    let! b := target e in
    let! i := to_index a in
    let! j := to_index b in
    let! old := tab_get d i j in
    if over || (cost e <? old) then
      let! d := tab_set d i j (cost e) in
      if directed then Ok d else tab_set d j i (cost e)
    else Ok d.

  (** The body of [for node in graph.node_identifiers()]. *)
  Definition fw_node (d : Table) (c : C) : outcome Table :=
    let! i := to_index c in
    tab_set d i i 0.

  (** The body of the three loops over [k], [i] and [j]. *)
  Definition fw_relax (k i : Z) (d : Table) (j : Z) : outcome Table :=
    let! x := tab_get d i k in
    let! y := tab_get d k j in
    let! z := tab_get d i j in
    if (lo <=? x + y) && (x + y <=? hi) && (x + y <? z) then tab_set d i j (x + y) else Ok d.

  (** [None] is [Err(NegativeCycle)]. *)
  Definition floyd_warshall : outcome (option (C * C -> option Z)) :=
    let! n := count in
    let! d := for_each refs_next refs fw_edge (repeat (repeat hi (Z.to_nat n)) (Z.to_nat n)) in
    let! d := for_each ids_next ids fw_node d in
    let! d := fold_outcome (fun d k =>
                fold_outcome (fun d i => fold_outcome (fw_relax k i) (zrange n) d) (zrange n) d)
              (zrange n) d in
    let! neg := fold_outcome (fun (b : bool) i =>
                  let! x := tab_get d i i in Ok (b || (x <? 0))) (zrange n) false in
    if neg then Ok None else
    let! r := fold_outcome (fun r i =>
      fold_outcome (fun r j =>
        let! a := from_index i in
        let! b := from_index j in
        let! x := tab_get d i j in
        Ok (map_insert eqb r (a, b) x)) (zrange n) r) (zrange n) (fun _ => None) in
    Ok (Some r).
End Client.
