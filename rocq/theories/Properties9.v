(** * Properties9: indices out of range (C78), the deprecated direction methods (C79). *)

From Verif Require Import Machine Axes Spec AxisQuirks.

(** ** C78 *)

(** Without debug assertions an index that belongs to no axis, or to no direction, is undefined
    behaviour: the precondition in the documentation of the two functions is exact, since valid
    indices are answered (C25_unchecked_index). *)
Theorem C78_release :
  forall (A D : Type) (ax : AxisOps A D) (geo : AxisGeo A D), KnownAxis ax geo ->
  (forall i, (ax_COUNT ax <= i)%nat -> ax_from_index_unchecked ax Release i = Fail FUB) /\
  (forall i, (ax_UNDIRECTED_COUNT ax <= i)%nat ->
     dir_from_index_unchecked (ax_dir ax) Release i = Fail FUB).
Proof. exact c78_release. Qed.
Print Assumptions C78_release.

(** With debug assertions such an index should panic for every axis type.  That is so for the
    axes below and, of the square axes with diagonals, for the undirected one only; the full
    claim is refuted beneath.  [checked_outside ax] (AxisQuirks.v): both functions panic on every
    index out of range. *)
Theorem C78_debug_partial :
  checked_outside dsq_axis /\ checked_outside r_axis /\ checked_outside dr_axis /\
  checked_outside q_axis /\ checked_outside dq_axis /\
  (forall i, (4 <= i)%nat -> ax_from_index_unchecked dg_axis Debug i = Fail FPanic) /\
  (forall i, (4 <= i)%nat -> dir_from_index_unchecked (ax_dir sq_axis) Debug i = Fail FPanic).
Proof. exact c78_debug. Qed.
Print Assumptions C78_debug_partial.

(** [SquareAxis] and [DirectedSquareDiagonalAxis], which is also the direction of
    [SquareDiagonalAxis], do not check even then. *)
Theorem C78_debug_refuted :
  (forall i, (2 <= i)%nat -> ax_from_index_unchecked sq_axis Debug i = Fail FUB) /\
  (forall i, (8 <= i)%nat -> ax_from_index_unchecked ddg_axis Debug i = Fail FUB) /\
  (forall i, (8 <= i)%nat -> dir_from_index_unchecked (ax_dir dg_axis) Debug i = Fail FUB) /\
  (forall i, (8 <= i)%nat -> dir_from_index_unchecked (ax_dir ddg_axis) Debug i = Fail FUB).
Proof. exact c78_debug_refuted. Qed.
Print Assumptions C78_debug_refuted.

Example C78_case : KnownAxis q_axis hexq_axes /\
  ax_from_index_unchecked q_axis Debug 2 <> Fail FPanic /\
  ax_from_index_unchecked q_axis Debug 3 = Fail FPanic /\
  ax_from_index_unchecked q_axis Release 3 = Fail FUB /\
  dir_from_index_unchecked (ax_dir q_axis) Debug 5 <> Fail FPanic /\
  dir_from_index_unchecked (ax_dir q_axis) Debug 6 = Fail FPanic.
Proof. split; [constructor|]. repeat split; discriminate. Qed.

(** ** C79 *)

(** The deprecated [is_forward] agrees with the [is_forward_direction] it refers to where the
    axis is directed. *)
Theorem C79_directed :
  forall (A D : Type) (ax : AxisOps A D) (geo : AxisGeo A D) (m : mode), KnownAxis ax geo ->
  ax_DIRECTED ax = true ->
  forall d, ax_is_forward_direction ax m d = Ok (dir_is_forward (ax_dir ax) d).
Proof. exact c79_directed. Qed.
Print Assumptions C79_directed.

(** It answers true for every direction of every axis type ... *)
Theorem C79_always :
  forall (A D : Type) (ax : AxisOps A D) (geo : AxisGeo A D), KnownAxis ax geo ->
  forall d, dir_is_forward (ax_dir ax) d = true.
Proof. exact c79_forward. Qed.
Print Assumptions C79_always.

(** ... so that it is wrong for some direction of every undirected one. *)
Theorem C79_undirected_refuted :
  forall (A D : Type) (ax : AxisOps A D) (geo : AxisGeo A D) (m : mode), KnownAxis ax geo ->
  ax_DIRECTED ax = false ->
  exists d, dir_is_forward (ax_dir ax) d = true /\ ax_is_forward_direction ax m d = Ok false.
Proof. exact c79_refuted. Qed.
Print Assumptions C79_undirected_refuted.

(** The deprecated [Direction<T>] numbers the forward directions first and the backward ones
    after them, without gaps, and its [is_forward] tells them apart. *)
Theorem C79_generic :
  forall (A D : Type) (ax : AxisOps A D) (geo : AxisGeo A D) (m : mode), KnownAxis ax geo ->
  let o := gdirection_ops ax in
  (forall i d, dir_from_index o i = Some d <-> dir_to_index o d = i) /\
  (forall i, (exists d, dir_from_index o i = Some d) <-> (i < 2 * ax_COUNT ax)%nat) /\
  (forall i d, dir_from_index o i = Some d -> dir_from_index_unchecked o m i = Ok d) /\
  (forall i, (2 * ax_COUNT ax <= i)%nat -> dir_from_index_unchecked o Release i = Fail FUB) /\
  (forall d, dir_is_forward o d = Nat.ltb (dir_to_index o d) (ax_COUNT ax)).
Proof. exact c79_generic. Qed.
Print Assumptions C79_generic.

Example C79_case : KnownAxis r_axis hexr_axes /\ ax_DIRECTED r_axis = false /\
  KnownAxis dr_axis (directed_axes hexr_axes) /\ ax_DIRECTED dr_axis = true /\
  dir_from_index (gdirection_ops r_axis) 4 = Some (GBackward AE) /\
  dir_is_forward (gdirection_ops r_axis) (GBackward AE) = false.
Proof. split; [constructor|]. split; [reflexivity|]. split; [constructor|]. repeat split. Qed.
