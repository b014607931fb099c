(** * Spec23: least costs where edges may cost less than nothing (C124, C125). *)

From Verif Require Import Machine Store.

Section Ways.
  Context {C : Type} (way : C -> list C -> Z -> C -> Prop).

  (** A way from [start] leads to a node from which there is a way back to it that costs less
      than nothing. *)
  Definition NegativeCycle (start : C) : Prop :=
    exists c p x q k, way start p x c /\ way c q k c /\ k < 0.

  (** [Traced pred start c p]: the predecessors lead back from [c] to [start], which has none;
      [p] are the nodes on the way, [start] first. *)
  Inductive Traced (pred : C -> option (option C)) (start : C) : C -> list C -> Prop :=
  | traced_start : pred start = Some None -> Traced pred start start [start]
  | traced_step c a p :
      pred c = Some (Some a) -> Traced pred start a p -> Traced pred start c (p ++ [c]).

  (** What [bellman_ford] says: that there is such a cycle, or for each of the [nodes] the least
      cost, with predecessors that trace a way of that cost, or that there is no way to it. *)
  Definition Answered (at_node : forall X, list X -> C -> option X) (nodes : list C) (start : C)
    (r : option (list (option Z) * list (option C))) : Prop :=
    match r with
    | None => NegativeCycle start
    | Some (dist, pred) =>
        ~ NegativeCycle start /\
        forall c, In c nodes ->
          (exists x p, at_node _ dist c = Some (Some x) /\
             Traced (at_node _ pred) start c p /\ way start p x c /\
             forall p' k, way start p' k c -> x <= k) \/
          (at_node _ dist c = Some None /\ at_node _ pred c = Some None /\
             forall p k, ~ way start p k c)
    end.
End Ways.

(** The entry of a table at the index of a node. *)
Definition at_index {C} (to_index : C -> outcome Z) {X} (l : list X) (c : C) : option X :=
  match to_index c with
  | Ok i => nth_error l (Z.to_nat i)
  | Fail _ => None
  end.
