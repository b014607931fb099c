(** * Spec6: the least cost of getting from one node to another. *)

From Verif Require Import Machine Spec4.

Section Least.
  Context {C Ed It : Type} (edges : C -> outcome It) (edges_next : It -> outcome (option Ed * It))
    (target : Ed -> outcome C) (cost : Ed -> Z).

  (** Some route from [a] to [b] costs [k], and none costs less. *)
  Definition LeastCost (a b : C) (k : Z) : Prop :=
    (exists p, Route edges edges_next target cost a p k b) /\
    forall p' k', Route edges edges_next target cost a p' k' b -> k <= k'.
End Least.
