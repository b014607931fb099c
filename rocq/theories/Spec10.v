(** * Spec10: where moves from coordinates outside of the board lead (C56, continued). *)

From Verif Require Import Machine Axes Shapes Spec Spec2.

Definition vsub (a b : Vec) : Vec := (fst a - fst b, snd a - snd b).
Definition listed {X} (o : option X) : list X := match o with Some x => [x] | None => [] end.

(** [OffsetKind s G b w h]: rows of hexagons with offset coordinates, without loop. *)
Inductive OffsetKind (b : HexR) (w h : Z) : forall A : Type,
  Shape Cell A AxisDR -> Geometry A AxisDR -> Prop :=
| ok_r : fits w h -> OffsetKind b w h _ (hex_offset_r b w h) (offset_r_geometry hexr_axes b w h)
| ok_r_dir : fits w h -> OffsetKind b w h _ (hex_offset_r_dir b w h)
    (offset_r_geometry (directed_axes hexr_axes) b w h).
Arguments OffsetKind b w h {A}.

(** With the loop: a step over the west rim leads to the last column, a step to the east to
    the first column if it does not end left of the last column.  Rows are as in
    [one_sided_step]. *)
Definition one_sided_loop_step (w h : Z) (c t : Cell) : list Cell :=
  let x := if fst t <? 0 then w - 1
           else if (fst c <? fst t) && (w <=? fst t) then 0 else fst t in
  if (0 <=? snd t) && ((snd t <=? snd c) || (snd t <? h)) then [(x, snd t)] else [].

(** [AxialLooped k co w h pos vec s G]: axial coordinates, looped in E-W direction. *)
Inductive AxialLooped (k : AxialKind) (w h : Z) : forall A D : Type,
  Z -> (Cell -> Vec) -> (D -> Vec) -> Shape Cell A D -> Geometry A D -> Prop :=
| al_r b : fits w h -> axial_fits k (co_r b) w h ->
    AxialLooped k w h _ _ (co_r b) axial_r_pos hexr_vec (hex_axial_r_lew k b w h)
      (axial_code_geometry hexr_axes (hex_axial_r_lew k b w h) k (co_r b) w h)
| al_r_dir b : fits w h -> axial_fits k (co_r b) w h ->
    AxialLooped k w h _ _ (co_r b) axial_r_pos hexr_vec (hex_axial_r_dir_lew k b w h)
      (axial_code_geometry (directed_axes hexr_axes) (hex_axial_r_dir_lew k b w h)
         k (co_r b) w h)
| al_q b : fits w h -> axial_fits k (co_q b) w h ->
    AxialLooped k w h _ _ (co_q b) axial_q_pos hexq_vec (hex_axial_q_lew k b w h)
      (axial_code_geometry hexq_axes (hex_axial_q_lew k b w h) k (co_q b) w h)
| al_q_dir b : fits w h -> axial_fits k (co_q b) w h ->
    AxialLooped k w h _ _ (co_q b) axial_q_pos hexq_vec (hex_axial_q_dir_lew k b w h)
      (axial_code_geometry (directed_axes hexq_axes) (hex_axial_q_dir_lew k b w h)
         k (co_q b) w h).
Arguments AxialLooped k w h {A D}.

(** Row [y] of the board is [first .. first + w - 1] with [first = - (y + co) / 2].  A step to
    a row of the board is brought into the row if it ends west of it; it is brought below
    [w - first] if it ends there or further east, although the row ends at [w + first]. *)
Definition axial_wrap (co w h : Z) (t : Cell) : option Cell :=
  let first := - ((snd t + co) / 2) in
  if (0 <=? snd t) && (snd t <? h) then
    if fst t <? first then Some (first + (fst t - first) mod w, snd t)
    else if w - first <=? fst t then Some (- first + (fst t + first) mod w, snd t)
    else Some t
  else None.

(** Columns of hexagons with offset coordinates.  [lifted b c]: the rows that [OddQ] and
    [EvenQ] tell apart by their parity. *)
Definition lifted (b : HexQ) (c : Cell) : bool :=
  match b with OddQ => Z.even (snd c) | EvenQ => Z.odd (snd c) end.

(** The moves without loop.  (They are not those of any arrangement of columns: to the north
    [y] grows, but to the north-east [x] does, and [y] with it in every other row only.) *)
Definition q_vec (b : HexQ) (c : Cell) (d : AxisDQ) : Vec :=
  match d, lifted b c with
  | QN, _ => (0, 1)
  | QS, _ => (0, -1)
  | QNE, true => (1, 1)
  | QNE, false => (1, 0)
  | QSE, true => (-1, 1)
  | QSE, false => (-1, 0)
  | QSW, true => (-1, 0)
  | QSW, false => (-1, -1)
  | QNW, true => (1, 0)
  | QNW, false => (1, -1)
  end.

(** To the north-east the last row is no limit. *)
Definition q_step (b : HexQ) (w h : Z) (c : Cell) (d : AxisDQ) : list Cell :=
  one_sided_step w (match d with QNE => snd c + 2 | _ => h end) c (q_vec b c d).

(** The moves with the loop, and whether they lead over the rim. *)
Definition q_loop_vec (b : HexQ) (c : Cell) (d : AxisDQ) : Vec * bool :=
  match d, lifted b c with
  | QN, _ => ((1, 0), true)
  | QS, _ => ((-1, 0), true)
  | QNE, true => ((1, 1), true)
  | QNE, false => ((1, 0), false)
  | QSE, true => ((1, -1), true)
  | QSE, false => ((-1, 0), false)
  | QSW, true => ((-1, 0), false)
  | QSW, false => ((-1, -1), true)
  | QNW, true => ((1, 0), false)
  | QNW, false => ((-1, 1), true)
  end.
Definition q_loop_step (b : HexQ) (w h : Z) (c : Cell) (d : AxisDQ) : list Cell :=
  let (v, over) := q_loop_vec b c d in
  if over then one_sided_loop_step w h c (vadd c v) else one_sided_step w h c v.

(** [OffsetColumns s G b w h]: columns of hexagons with offset coordinates, without loop. *)
Inductive OffsetColumns (b : HexQ) (w h : Z) : forall A : Type,
  Shape Cell A AxisDQ -> Geometry A AxisDQ -> Prop :=
| oc_q : fits w h -> OffsetColumns b w h _ (hex_offset_q b w h)
    (rect_code_geometry hexq_axes (hex_offset_q b w h) w h)
| oc_q_dir : fits w h -> OffsetColumns b w h _ (hex_offset_q_dir b w h)
    (rect_code_geometry (directed_axes hexq_axes) (hex_offset_q_dir b w h) w h).
Arguments OffsetColumns b w h {A}.
