(** * Spec22: ways along edges taken in either direction (C122, C123). *)

From Verif Require Import Machine Store Axes Shapes Lattice Spec Spec4.

(** What an edge costs may depend on where it comes from, where it leads to and its weight. *)
Definition priced {E D} (price : Cell -> Cell -> E -> Z) (e : EdgeReference Cell E D) : Z :=
  price (er_source e) (er_target e) (er_weight e).

(** [Either nodes a p k b]: the [nodes] [p], first [a] and last [b], are joined one to the next
    by edges, each of which leads one way or the other, that cost [k] together. *)
Section Either.
  Context {E D It : Type} (edges : Cell -> outcome It)
    (next : It -> outcome (option (EdgeReference Cell E D) * It))
    (cost : EdgeReference Cell E D -> Z) (nodes : list Cell).

  Inductive Either : Cell -> list Cell -> Z -> Cell -> Prop :=
  | either_here c : Either c [c] 0 c
  | either_step a e t p k b :
      In t nodes ->
      EdgeAt edges next a e /\ er_target e = t \/ EdgeAt edges next t e /\ er_target e = a ->
      Either t p k b -> Either a (a :: p) (cost e + k) b.
End Either.
