(** * Bellman: [bellman_ford] of petgraph 0.8 (src/algo/bellman_ford.rs), as a client of the
    graphs.

    petgraph is outside of the repository; this is its algorithm as published, reduced to what
    it asks of a graph: [node_count], [node_bound], [to_index], [node_identifiers], [edges], and
    of each edge its target and its weight.
    - Weights are floating point numbers there.  Here they are integers, with one value more for
      [infinite()]: sums are exact, and weights are finite.
    - The two tables are lists; an index out of their bounds panics.  Running out of memory for
      them is left out. *)

From Verif Require Import Machine Store Traverse.

(** Infinite is [None]: [x + w] and [x < y]. *)
Definition inf_add (x : option Z) (w : Z) : option Z := option_map (fun x => x + w) x.
Definition inf_lt (x y : option Z) : bool :=
  match x, y with
  | Some x, Some y => x <? y
  | Some _, None => true
  | None, _ => false
  end.

(** [table[i]] and [table[i] = x] *)
Definition row_get {X} (l : list X) (i : Z) : outcome X :=
  if i <? 0 then Fail FPanic else unwrap (nth_error l (Z.to_nat i)).
Definition row_set {X} (l : list X) (i : Z) (x : X) : outcome (list X) :=
  let! _ := row_get l i in Ok (list_set l (Z.to_nat i) x).

(** [for x in it { if found(x) { return true } } false] *)
Definition any_of {It X} (next : It -> outcome (option X * It)) (it : It)
  (found : X -> outcome bool) : outcome bool :=
  loop (fun it =>
    let! (x, it') := next it in
    match x with
    | None => Ok (inr false)
    | Some x => let! b := found x in Ok (if (b : bool) then inr true else inl it')
    end) it.

Section Client.
  Context {C Ed Ie NIt : Type} (count bound : outcome Z) (to_index : C -> outcome Z)
    (ids : NIt) (ids_next : NIt -> outcome (option C * NIt))
    (edges : C -> outcome Ie) (edges_next : Ie -> outcome (option Ed * Ie))
    (target : Ed -> outcome C) (weight : Ed -> Z).

  (** [distance], [predecessor] and [did_update]. *)
  Definition Relaxed : Type := list (option Z) * list (option C) * bool.

  (** [distance[ix(i)] + w < distance[ix(j)]], for an edge of [i] to [j]. *)
  Definition improves (dist : list (option Z)) (i j : C) (w : Z) : outcome bool :=
    let! x := to_index i in
    let! di := row_get dist x in
    let! y := to_index j in
    let! dj := row_get dist y in
    Ok (inf_lt (inf_add di w) dj).

  (** The body of the loops over the edges of [i]. *)
  Definition bf_edge (i : C) (st : Relaxed) (e : Ed) : outcome Relaxed :=
    let '(dist, pred, up) := st in
    let! j := target e in
    let! b := improves dist i j (weight e) in
    if (b : bool) then
      let! x := to_index i in
      let! di := row_get dist x in
      let! y := to_index j in
      let! dist := row_set dist y (inf_add di (weight e)) in
      let! pred := row_set pred y (Some i) in
      Ok (dist, pred, true)
    else Ok st.

  (** One turn of [for _ in 1..g.node_count()]. *)
  Definition bf_turn (st : Relaxed) : outcome Relaxed :=
    let '(dist, pred, _) := st in
    for_each ids_next ids (fun st i =>
      let! it := edges i in for_each edges_next it (bf_edge i) st) (dist, pred, false).

  Fixpoint bf_turns (k : nat) (st : Relaxed) : outcome Relaxed :=
    match k with
    | O => Ok st
    | S k =>
        let! st := bf_turn st in
        if snd st then bf_turns k st else Ok st
    end.

  (** [bellman_ford_initialize_relax] *)
  Definition bf_relax (source : C) : outcome Relaxed :=
    let! b := bound in
    let pred := repeat None (Z.to_nat b) in
    let! x := to_index source in
    let! dist := row_set (repeat None (Z.to_nat b)) x (Some 0) in
    let! n := count in
    bf_turns (Z.to_nat (n - 1)) (dist, pred, false).

  (** [None] is [Err(NegativeCycle)]; otherwise [Paths { distances, predecessors }]. *)
  Definition bellman_ford (source : C) : outcome (option (list (option Z) * list (option C))) :=
    let! (st, _) := bf_relax source in
    let '(dist, pred) := st in
    let! neg := any_of ids_next ids (fun i =>
      let! it := edges i in
      any_of edges_next it (fun e => let! j := target e in improves dist i j (weight e))) in
    Ok (if (neg : bool) then None else Some (dist, pred)).
End Client.
