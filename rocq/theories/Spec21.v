(** * Spec21: ways through the part of a graph that is left by a filter (C117-C120). *)

From Verif Require Import Machine Store Axes Shapes Lattice Spec Spec19 Spec4.

(** The shapes of the crate whose boards are traversed as drawn, and every shape of a user's
    that keeps to the contract of Spec19.v. *)
Inductive Sound (m : mode) {A D} (s : Shape Cell A D) (G : Geometry A D) : Prop :=
| sound_crate : Supported s G -> Sound m s G
| sound_user axes fwd opp cell step coord :
    ShapeContract m s axes fwd opp cell step coord ->
    G = contract_geometry s axes fwd opp cell step coord -> Sound m s G.

(** All shapes of the crate, and those of users. *)
Inductive Walkable (m : mode) {A D} (s : Shape Cell A D) (G : Geometry A D) : Prop :=
| walk_crate : Stored s G -> Walkable m s G
| walk_user axes fwd opp cell step coord :
    ShapeContract m s axes fwd opp cell step coord ->
    G = contract_geometry s axes fwd opp cell step coord -> Walkable m s G.

Section Filter.
  Context {C Ed It : Type} (edges : C -> outcome It) (next : It -> outcome (option Ed * It))
    (target : Ed -> outcome C) (cost : Ed -> Z).

  (** [Inside keep a p k b]: a route of the graph of which every node is kept. *)
  Definition Inside (keep : C -> bool) (a : C) (p : list C) (k : Z) (b : C) : Prop :=
    Route edges next target cost a p k b /\ forall c, In c p -> keep c = true.

  (** [Along pass a p k b]: a route of the graph over edges that pass. *)
  Inductive Along (pass : Ed -> bool) : C -> list C -> Z -> C -> Prop :=
  | along_here c : Along pass c [c] 0 c
  | along_step a e t p k b :
      EdgeAt edges next a e -> pass e = true -> target e = Ok t -> Along pass t p k b ->
      Along pass a (a :: p) (cost e + k) b.
End Filter.

(** [r] is, for each node, the least cost of a way to it, and nothing where there is none. *)
Definition least_ways {C} (way : list C -> Z -> C -> Prop) (r : C -> option Z) : Prop :=
  forall c, match r c with
            | Some x => (exists p, way p x c) /\ forall p k, way p k c -> x <= k
            | None => forall p k, ~ way p k c
            end.

(** [r] is a cheapest way to a goal, or nothing where there is no way to one. *)
Definition cheapest_way {C} (way : list C -> Z -> C -> Prop) (goal : C -> bool)
  (r : option (Z * list C)) : Prop :=
  match r with
  | Some (x, p) =>
      (exists c, goal c = true /\ way p x c) /\
      forall p' k c, goal c = true -> way p' k c -> x <= k
  | None => forall p k c, goal c = true -> ~ way p k c
  end.
