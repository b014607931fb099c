(** * Properties25: the public steps of the bases (C110), and bases a user declares flat-top
    (C111). *)

From Coq Require Import ZArith.
From Verif Require Import Machine Axes Shapes Spec17 BaseProofs.
Local Open Scope Z_scope.

(** ** C110 *)

(** [DoubleCoordShapeBase::move_coord]: from a coordinate inside the limits the step is taken if
    it stays inside them, and only then. *)
Theorem C110_rows :
  forall w h m c d, 0 <= w <= USIZE - 2 -> 0 <= h <= USIZE - 2 -> inside w h c ->
  exists o, double_move_r w h m c d = Ok o /\
    forall t, o = Some t <-> t = plus c (double_vec_r d) /\ inside w h t.
Proof. exact c110_rows. Qed.
Print Assumptions C110_rows.

Theorem C110_columns :
  forall w h m c d, 0 <= w <= USIZE - 2 -> 0 <= h <= USIZE - 2 -> inside w h c ->
  exists o, double_move_q w h m c d = Ok o /\
    forall t, o = Some t <-> t = plus c (double_vec_q d) /\ inside w h t.
Proof. exact c110_columns. Qed.
Print Assumptions C110_columns.

(** The step the other way leads back. *)
Theorem C110_back :
  forall w h m c, 0 <= w <= USIZE - 2 -> 0 <= h <= USIZE - 2 -> inside w h c ->
  (forall d d' t, double_move_r w h m c d = Ok (Some t) ->
     plus (double_vec_r d) (double_vec_r d') = (0, 0) -> double_move_r w h m t d' = Ok (Some c)) /\
  (forall d d' t, double_move_q w h m c d = Ok (Some t) ->
     plus (double_vec_q d) (double_vec_q d') = (0, 0) -> double_move_q w h m t d' = Ok (Some c)).
Proof. exact c110_back. Qed.
Print Assumptions C110_back.

(** With a limit of [usize::MAX] the steps of two from its last coordinate panic in a debug
    build and come back to zero in a release build. *)
Theorem C110_overflow :
  forall w h m x y,
  (0 <= y -> double_move_r (USIZE - 1) h m (USIZE - 2, y) RE =
     match m with Debug => Fail FPanic | Release => Ok (Some (0, y)) end) /\
  (0 <= x -> double_move_q w (USIZE - 1) m (x, USIZE - 2) QN =
     match m with Debug => Fail FPanic | Release => Ok (Some (x, 0)) end).
Proof. exact c110_overflow. Qed.
Print Assumptions C110_overflow.

(** From a coordinate outside the limits a step may be taken although it stays outside. *)
Example C110_outside :
  forall m,
  double_move_q 3 3 m (0, 7) QSE = Ok (Some (1, 6)) /\
  double_move_r 3 3 m (0, 7) RSE = Ok (Some (1, 6)).
Proof. exact c110_outside. Qed.

Example C110_case :
  inside 6 5 (3, 1) /\
  double_move_q 6 5 Debug (3, 1) QN = Ok (Some (3, 3)) /\
  double_move_q 6 5 Debug (3, 3) QN = Ok None /\
  double_move_q 6 5 Debug (3, 3) QS = Ok (Some (3, 1)) /\
  double_move_q 6 5 Debug (3, 1) QS = Ok None /\
  double_move_r 6 5 Debug (3, 1) RE = Ok (Some (5, 1)) /\
  double_move_r 6 5 Debug (5, 1) RNE = Ok None.
Proof. repeat split; cbn; auto; discriminate. Qed.

(** ** C111 *)

(** On a board whose base has [IS_FLAT_TOP = true], [to_offset] gives column and row of the
    coordinates on the board, and refuses the others. *)
Theorem C111_offset :
  forall (A D : Type) (ax : AxisOps A D) (k : AxialKind)
    (mv : mode -> Z * Z -> D -> outcome (Z * Z)) (even : bool) w h m c,
  0 <= w < IMAX1 -> 0 <= h < IMAX1 ->
  is_isize (fst c) -> is_isize (snd c) ->
  is_isize (snd (column_cell (if even then 1 else 0) c)) ->
  exists o, sh_to_offset (axial_shape ax k mv true even w h) m c = Ok o /\
    forall p, o = Some p <-> p = column_cell (if even then 1 else 0) c /\ inside w h p.
Proof. exact (@c111_offset). Qed.
Print Assumptions C111_offset.

Theorem C111_unchecked :
  forall (A D : Type) (ax : AxisOps A D) (k : AxialKind)
    (mv : mode -> Z * Z -> D -> outcome (Z * Z)) (even : bool) w h m c,
  0 <= w < IMAX1 -> 0 <= h < IMAX1 -> is_isize (snd c) ->
  inside w h (column_cell (if even then 1 else 0) c) ->
  sh_to_offset_unchecked (axial_shape ax k mv true even w h) m c =
    Ok (column_cell (if even then 1 else 0) c).
Proof. exact (@c111_unchecked). Qed.
Print Assumptions C111_unchecked.

(** [offset_to_coordinate] is its inverse. *)
Theorem C111_coordinate :
  forall (A D : Type) (ax : AxisOps A D) (k : AxialKind)
    (mv : mode -> Z * Z -> D -> outcome (Z * Z)) (even : bool) w h m c,
  0 <= w < IMAX1 -> 0 <= h < IMAX1 ->
  inside w h (column_cell (if even then 1 else 0) c) -> holds k c ->
  sh_offset_to_coordinate (axial_shape ax k mv true even w h) m
    (column_cell (if even then 1 else 0) c) = Ok c.
Proof. exact (@c111_coordinate). Qed.
Print Assumptions C111_coordinate.

(** With the steps of [OddQ] and [EvenQ], [move_coord] takes exactly the steps that stay on the
    board. *)
Theorem C111_move :
  forall (A : Type) (ax : AxisOps A AxisDQ) (k : AxialKind) (even : bool) w h m c d,
  0 <= w < IMAX1 - 1 -> 0 <= h < IMAX1 - 1 ->
  inside w h (column_cell (if even then 1 else 0) c) -> holds k (plus c (axial_vec_q d)) ->
  exists o, sh_move_coord (axial_shape ax k (axial_move_q k) true even w h) m c d = Ok o /\
    forall t, o = Some t <->
      t = plus c (axial_vec_q d) /\ inside w h (column_cell (if even then 1 else 0) t).
Proof. exact c111_move. Qed.
Print Assumptions C111_move.

(** But with [LoopEW] it steps off the board, and refuses steps on the board. *)
Theorem C111_loop_refuted :
  exists s : Shape (Z * Z) AxisQ AxisDQ,
  s = axial_lew_shape q_axis HAxial (axial_move_q HAxial) true false 3 5 /\
  forall m,
  (exists c d t, sh_to_offset s m c = Ok (Some (column_cell 0 c)) /\
     sh_move_coord s m c d = Ok (Some t) /\ sh_to_offset s m t = Ok None) /\
  (exists c d, sh_to_offset s m c = Ok (Some (column_cell 0 c)) /\
     inside 3 5 (column_cell 0 (plus c (axial_vec_q d))) /\ sh_move_coord s m c d = Ok None).
Proof. exists flat_loop. split; [reflexivity | exact c111_loop]. Qed.
Print Assumptions C111_loop_refuted.

Example C111_case :
  inside 4 3 (column_cell 0 (3, 0)) /\ column_cell 0 (3, 0) = (3, 1) /\
  sh_to_offset (axial_shape q_axis HAxial (axial_move_q HAxial) true false 4 3) Debug (3, 0) =
    Ok (Some (3, 1)) /\
  sh_offset_to_coordinate (axial_shape q_axis HAxial (axial_move_q HAxial) true false 4 3) Debug
    (3, 1) = Ok (3, 0) /\
  sh_move_coord (axial_shape q_axis HAxial (axial_move_q HAxial) true false 4 3) Debug (3, 0) QS =
    Ok (Some (3, -1)) /\
  sh_move_coord (axial_shape q_axis HAxial (axial_move_q HAxial) true false 4 3) Debug (3, 0) QNE =
    Ok None.
Proof. vm_compute. repeat split; congruence. Qed.
