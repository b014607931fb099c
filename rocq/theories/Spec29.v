(** * Spec29: a graph by numbers (C135, C136). *)

From Verif Require Import Machine.

(** [0], [1], ... beside the members of a list. *)
Definition numbered {X} (l : list X) : list (Z * X) :=
  combine (map Z.of_nat (seq 0 (length l))) l.

(** [num] gives the place of each node in the list. *)
Definition Numbers {C} (nodes : list C) (num : C -> Z) : Prop :=
  forall i c, nth_error nodes i = Some c -> num c = Z.of_nat i.

(** An edge read from its other end. *)
Definition swapped {E} (x : Z * Z * E) : Z * Z * E := let '(i, j, w) := x in (j, i, w).
