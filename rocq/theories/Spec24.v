(** * Spec24: walks one by one, and the cost of the k-th cheapest (C126, C127). *)

From Verif Require Import Machine Store Spec.

Section Walks.
  Context {C Ed It : Type} (edges : C -> outcome It) (next : It -> outcome (option Ed * It))
    (target : Ed -> outcome C) (cost : Ed -> Z).

  (** [Taken a w x b]: a walk from [a] to [b] that costs [x]; [w] tells which of the [edges] it
      takes at each node, by their position.  It may visit nodes again. *)
  Inductive Taken : C -> list nat -> Z -> C -> Prop :=
  | taken_none c : Taken c [] 0 c
  | taken_next a it l i e t w x b :
      edges a = Ok it -> Drains next it l -> nth_error l i = Some e -> target e = Ok t ->
      Taken t w x b -> Taken a (i :: w) (cost e + x) b.
End Walks.

(** Of the walks told apart by [walk], the [k]-th cheapest costs [x]: [k] of them cost at most
    that, one of these exactly that, and all others at least that. *)
Definition Ranked (walk : list nat -> Z -> Prop) (k x : Z) : Prop :=
  exists l, NoDup l /\ Z.of_nat (length l) = k /\
    (forall w, In w l -> exists y, walk w y /\ y <= x) /\
    (exists w, In w l /\ walk w x) /\
    forall w y, walk w y -> In w l \/ x <= y.

(** There are not [k] different walks. *)
Definition FewerThan (walk : list nat -> Z -> Prop) (k : Z) : Prop :=
  forall l, NoDup l -> (forall w, In w l -> exists y, walk w y) -> Z.of_nat (length l) < k.

(** What [k_shortest_path] says with [goal]: every cost in the map is that of the [k]-th cheapest
    walk; and unless the goal is in the map, a node is left out only if there are not [k] walks
    to it. *)
Definition KthCosts {C} (walk : C -> list nat -> Z -> Prop) (goal : option C) (k : Z)
  (r : C -> option Z) : Prop :=
  (forall c x, r c = Some x -> Ranked (walk c) k x) /\
  (match goal with Some b => r b = None | None => True end ->
   forall c, r c = None -> FewerThan (walk c) k).
