(** * Spec5: edges as seen from their two ends. *)

From Verif Require Import Machine Store Axes Shapes Lattice Spec SquareGraph SpecSquare.

(** An edge from its source to its target, and the same edge the other way round. *)
Definition seen {C E D} (r : EdgeReference C E D) : C * C * E :=
  (er_source r, er_target r, er_weight r).
Definition seen_back {C E D} (r : EdgeReference C E D) : C * C * E :=
  (er_target r, er_source r, er_weight r).

(** The same for what can be observed of the references of [SquareGraph]. *)
Definition view_back {E} (x : EdgeView E) : EdgeView E :=
  let '(id, w, s, t) := x in (id, w, t, s).

(** ** Borrowed shapes *)

(** The same graph with its shape borrowed ([&S] for [S]). *)
Definition lend {A D N E} (g : LatticeGraph Cell A D N E) : LatticeGraph Cell A D N E :=
  mkGraph (g_nodes g) (g_edges g) (shape_ref (g_s g)).

(** [f] applied to the result, if there is one. *)
Definition on_ok {X Y} (f : X -> Y) (o : outcome X) : outcome Y :=
  match o with Ok x => Ok (f x) | Fail e => Fail e end.
