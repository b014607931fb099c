(** * Astar: the A* search of petgraph 0.8 (src/algo/astar.rs), as a client of the graphs.

    petgraph is outside of the repository; this is its algorithm as published, reduced to what
    it asks of a graph: [edges], and of each edge its target and its cost.  It is the search
    the repository's own tests and benches run (src/square/tests.rs:349-381,
    src/lattice_abstract/square.rs:743-780).
    - Costs are integers without overflow ([Z]); the closures are pure functions.
    - A [HashMap] is a function to [option], an insertion replaces one value.
    - [BinaryHeap<MinScored>] is any structure whose [pop] returns an entry with the least
      score; which one of several is left open ([HeapOK]). *)

From Coq Require Import Permutation.
From Verif Require Import Machine Traverse.

(** A heap of scored nodes in some internal order. *)
Record HeapOps (C : Type) := {
  heap_push : Z * C -> list (Z * C) -> list (Z * C);
  heap_pop : list (Z * C) -> option ((Z * C) * list (Z * C))
}.
Arguments heap_push {C}.
Arguments heap_pop {C}.

(** The contract of std's [BinaryHeap] with petgraph's [MinScored] (least score first). *)
Definition HeapOK {C} (H : HeapOps C) : Prop :=
  (forall x q, Permutation (heap_push H x q) (x :: q)) /\
  (forall q, match heap_pop H q with
             | None => q = []
             | Some (x, q') => Permutation q (x :: q') /\
                               forall y, In y q -> fst x <= fst y
             end).

Section Astar.
  Context {C Ed It : Type} (eqb : C -> C -> bool) (H : HeapOps C)
    (edges : C -> outcome It) (edges_next : It -> outcome (option Ed * It))
    (target : Ed -> outcome C) (cost : Ed -> Z) (est : C -> Z) (goal : C -> bool).

  Definition map_insert {V} (f : C -> option V) (k : C) (v : V) : C -> option V :=
    fun c => if eqb c k then Some v else f c.

  (** [visit_next], [scores], [estimate_scores] and [path_tracker.came_from]. *)
  Record AState := mkA {
    a_heap : list (Z * C);
    a_scores : C -> option Z;
    a_ests : C -> option Z;
    a_came : C -> option C
  }.

  Definition astar_init (start : C) : AState :=
    mkA (heap_push H (est start, start) []) (map_insert (fun _ => None) start 0)
      (fun _ => None) (fun _ => None).

  (** [PathTracker::reconstruct_path_to] *)
  Definition reconstruct (came : C -> option C) (last : C) : outcome (list C) :=
    loop (fun st : C * list C =>
      match came (fst st) with
      | Some p => Ok (inl (p, p :: snd st))
      | None => Ok (inr (snd st))
      end) (last, [last]).

  (** The body of [for edge in graph.edges(node)]. *)
  Definition relax (node : C) (node_score : Z) (st : AState) (e : Ed) : outcome AState :=
    let! next := target e in
    let next_score := node_score + cost e in
    let improve :=
      mkA (heap_push H (next_score + est next, next) (a_heap st))
        (map_insert (a_scores st) next next_score) (a_ests st)
        (map_insert (a_came st) next node) in
    match a_scores st next with
    | Some old => if old <=? next_score then Ok st else Ok improve
    | None => Ok improve
    end.

  (** One round of [while let Some(..) = visit_next.pop()]; [inr] leaves the function. *)
  Definition astar_round (st : AState) : outcome (AState + option (Z * list C)) :=
    match heap_pop H (a_heap st) with
    | None => Ok (inr None)
    | Some ((estimate_score, node), q) =>
        match a_scores st node with
        | None => Fail FPanic
        | Some node_score =>
            if goal node then
              let! path := reconstruct (a_came st) node in
              Ok (inr (Some (node_score, path)))
            else
              let seen := match a_ests st node with
                          | Some e => e <=? estimate_score
                          | None => false
                          end in
              if seen then
                Ok (inl (mkA q (a_scores st) (a_ests st) (a_came st)))
              else
                let! it := edges node in
                let! st' := for_each edges_next it (relax node node_score)
                  (mkA q (a_scores st) (map_insert (a_ests st) node estimate_score)
                     (a_came st)) in
                Ok (inl st')
        end
    end.
End Astar.

(** [Returns body s r]: the loop [body], started in [s], ends, without a fault, with [r]. *)
Inductive Returns {S R} (body : S -> outcome (S + R)) : S -> R -> Prop :=
| returns_now s r : body s = Ok (inr r) -> Returns body s r
| returns_later s s' r : body s = Ok (inl s') -> Returns body s' r -> Returns body s r.
