(** * Spec15: what the unchecked functions do outside of their contract. *)

From Verif Require Import Machine Shapes Spec.

(** The fault of a check that only debug builds make. *)
Definition unguarded (m : mode) : fault := match m with Debug => FPanic | Release => FUB end.

(** Whatever [move_coord] refuses, [move_coord_unchecked] faults on, in debug builds by a panic. *)
Definition moves_guarded {A D} (s : Shape Cell A D) : Prop := forall m c d,
  sh_move_coord s m c d = Ok None -> sh_move_coord_unchecked s m c d = Fail (unguarded m).

(** Whatever [move_coord] refuses, [move_coord_unchecked] answers with a coordinate outside of the
    board. *)
Definition moves_bare {A D} (s : Shape Cell A D) : Prop := forall m c d,
  sh_move_coord s m c d = Ok None ->
  exists c', sh_move_coord_unchecked s m c d = Ok c' /\ sh_to_offset s m c' = Ok None.

(** The call yields nothing: it is undefined behaviour, or a panic of a debug build. *)
Definition lost {X} (m : mode) (r : outcome X) : Prop :=
  r = Fail FUB \/ (m = Debug /\ r = Fail FPanic).
