(** * Kruskal: [connected_components] (src/algo/mod.rs) and [min_spanning_tree]
    (src/algo/min_spanning_tree.rs) of petgraph 0.8, as clients of the graphs.

    petgraph is outside of the repository; these are its algorithms as published, reduced to
    what they ask of a graph: [node_bound], [to_index], [node_references], [edge_references]
    with its [size_hint], and of each edge its two ends and its weight.
    - Weights are integers ([Z]); heap and maps are as in Astar.v.
    - [UnionFind] is any structure that keeps track of which numbers are linked ([UFOK]). *)

From Verif Require Import Machine Traverse Astar.

(** The equivalence relation that pairs generate. *)
Inductive Linked {X} (es : list (X * X)) : X -> X -> Prop :=
| linked_edge a b : In (a, b) es -> Linked es a b
| linked_refl a : Linked es a a
| linked_sym a b : Linked es a b -> Linked es b a
| linked_trans a b c : Linked es a b -> Linked es b c -> Linked es a c.

(** [UnionFind::new], [union] and [into_labeling] (src/unionfind.rs). *)
Record UFOps (T : Type) := {
  uf_new : Z -> T;
  uf_union : T -> Z -> Z -> outcome (bool * T);
  uf_labels : T -> list Z
}.
Arguments uf_new {T}.
Arguments uf_union {T}.
Arguments uf_labels {T}.

(** The contract of [UnionFind]: [Rep t n es] says that [t] holds the numbers below [n] after
    the unions [es].  [union] tells whether the two were not linked before; two numbers have
    the same label exactly if they are linked. *)
Definition UFOK {T} (U : UFOps T) : Prop :=
  exists Rep : T -> Z -> list (Z * Z) -> Prop,
  (forall n, 0 <= n -> Rep (uf_new U n) n []) /\
  (forall t n es a b, Rep t n es -> 0 <= a < n -> 0 <= b < n ->
     exists x t', uf_union U t a b = Ok (x, t') /\ (x = true <-> ~ Linked es a b) /\
       Rep t' n ((a, b) :: es)) /\
  (forall t n es, Rep t n es -> length (uf_labels U t) = Z.to_nat n /\
     forall i j, 0 <= i < n -> 0 <= j < n ->
       (nth (Z.to_nat i) (uf_labels U t) 0 = nth (Z.to_nat j) (uf_labels U t) 0 <->
        Linked es i j)).

(** [Element] (src/data.rs) *)
Inductive Element (N : Type) := ENode (w : N) | EEdge (source target w : Z).
Arguments ENode {N}.
Arguments EEdge {N}.

Section Client.
  Context {C N Ed RIt NIt T : Type} (U : UFOps T) (H : HeapOps (C * C)) (bound : outcome Z)
    (to_index : C -> outcome Z) (refs : RIt) (refs_next : RIt -> outcome (option Ed * RIt))
    (refs_hint : outcome (Z * option Z)) (source target : Ed -> outcome C) (weight : Ed -> Z)
    (nodes : NIt) (nodes_next : NIt -> outcome (option (C * N) * NIt)).

  (** The labels are sorted and freed of repetitions, and counted. *)
  Definition connected_components : outcome Z :=
    let! n := bound in
    let! t := for_each refs_next refs (fun t e =>
      let! a := source e in
      let! b := target e in
      let! i := to_index a in
      let! j := to_index b in
      let! (_, t) := uf_union U t i j in Ok t) (uf_new U n) in
    Ok (Z.of_nat (length (nodup Z.eq_dec (uf_labels U t)))).

  (** [MinSpanningTree]: [node_ids], [subgraphs], [sort_edges], [node_map], [node_count]. *)
  Record MST := mkMST {
    mst_nodes : option NIt;
    mst_uf : T;
    mst_heap : list (Z * (C * C));
    mst_map : Z -> option Z;
    mst_count : Z
  }.

  Definition mst_new : outcome MST :=
    let! n := bound in
    let! _ := refs_hint in
    let! q := for_each refs_next refs (fun q e =>
      let! a := source e in
      let! b := target e in
      Ok (heap_push H (weight e, (a, b)) q)) [] in
    Ok (mkMST (Some nodes) (uf_new U n) q (fun _ => None) 0).

  (** [while let Some(..) = self.sort_edges.pop()] in [next]: one round. *)
  Definition mst_round (node_map : Z -> option Z) (st : T * list (Z * (C * C)))
    : outcome ((T * list (Z * (C * C))) + (option (Element N) * (T * list (Z * (C * C))))) :=
    match heap_pop H (snd st) with
    | None => Ok (inr (None, st))
    | Some ((score, (a, b)), q) =>
        let! i := to_index a in
        let! j := to_index b in
        let! (new, t) := uf_union U (fst st) i j in
        if (new : bool) then
          match node_map i, node_map j with
          | Some i', Some j' => Ok (inr (Some (EEdge i' j' score), (t, q)))
          | _, _ => Fail FPanic
          end
        else Ok (inl (t, q))
    end.

  (** [MinSpanningTree::next] *)
  Definition mst_next (st : MST) : outcome (option (Element N) * MST) :=
    let! node :=
      match mst_nodes st with
      | None => Ok None
      | Some it =>
          let! (x, it) := nodes_next it in
          Ok (match x with Some x => Some (x, it) | None => None end)
      end in
    match node with
    | Some ((c, w), it) =>
        let! i := to_index c in
        Ok (Some (ENode w),
            mkMST (Some it) (mst_uf st) (mst_heap st) (map_insert Z.eqb (mst_map st) i (mst_count st))
              (mst_count st + 1))
    | None =>
        let! (x, (t, q)) := loop (mst_round (mst_map st)) (mst_uf st, mst_heap st) in
        Ok (x, mkMST None t q (mst_map st) (mst_count st))
    end.
End Client.
