(** * Spec25: sets of nodes that are all joined to each other (C128). *)

From Coq Require Import Permutation.
From Verif Require Import Machine Store Axes Shapes Lattice Spec.

(** [b] is among the [neighbors] of [a]. *)
Definition Neighbor {A D N E} (m : mode) (g : LatticeGraph Cell A D N E) (a b : Cell) : Prop :=
  exists l, Drains (neighbors_next m g a) (neighbors g a) l /\ In b l.

Section Cliques.
  Context {C : Type} (joined : C -> C -> Prop) (nodes : list C).

  (** A set of nodes, as a list without repetitions, any two of which are joined. *)
  Definition Clique (S : list C) : Prop :=
    NoDup S /\ incl S nodes /\ forall a b, In a S -> In b S -> a <> b -> joined a b.

  (** No node can be added. *)
  Definition MaximalClique (S : list C) : Prop :=
    Clique S /\
    forall c, In c nodes -> (forall a, In a S -> a <> c -> joined a c) -> In c S.

  (** [l] lists them, each once. *)
  Definition ListsCliques (l : list (list C)) : Prop :=
    (forall S, In S l -> MaximalClique S) /\
    (forall S, MaximalClique S -> exists S', In S' l /\ Permutation S S') /\
    forall l1 S l2 S' l3, l = l1 ++ S :: l2 ++ S' :: l3 -> ~ Permutation S S'.
End Cliques.

(** Any order in which sets may be iterated. *)
Definition SomeOrder {C} (order : list C -> list C -> list C) : Prop :=
  forall r p, Permutation (order r p) p.
