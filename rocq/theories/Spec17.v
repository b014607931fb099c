(** * Spec17: steps in doubled coordinates, and boards with columns of hexagons. *)

From Coq Require Import ZArith.
From Verif Require Import Axes Shapes.
Local Open Scope Z_scope.

(** The step of a direction on doubled coordinates, for hexagons in rows and in columns. *)
Definition double_vec_r (d : AxisDR) : Z * Z :=
  match d with
  | RNE => (1, 1) | RE => (2, 0) | RSE => (1, -1)
  | RSW => (-1, -1) | RW => (-2, 0) | RNW => (-1, 1)
  end.
Definition double_vec_q (d : AxisDQ) : Z * Z :=
  match d with
  | QN => (0, 2) | QNE => (1, 1) | QSE => (1, -1)
  | QS => (0, -2) | QSW => (-1, -1) | QNW => (-1, 1)
  end.

(** The step of a direction on axial coordinates of hexagons in columns. *)
Definition axial_vec_q (d : AxisDQ) : Z * Z :=
  match d with
  | QN => (0, 1) | QNE => (1, 0) | QSE => (1, -1)
  | QS => (0, -1) | QSW => (-1, 0) | QNW => (-1, 1)
  end.

Definition plus (a b : Z * Z) : Z * Z := (fst a + fst b, snd a + snd b).

Definition inside (w h : Z) (c : Z * Z) : Prop := 0 <= fst c < w /\ 0 <= snd c < h.

(** Column and row of an axial coordinate where the columns are straight: going one column on
    the rows shift by a half, first in the even columns if [co] is 1. *)
Definition column_cell (co : Z) (c : Z * Z) : Z * Z := (fst c, snd c + (fst c + co) / 2).

(** The coordinate type can hold the coordinate. *)
Definition holds (k : AxialKind) (c : Z * Z) : Prop :=
  match k with
  | HAxial => True
  | Hex2d lo hi => lo <= fst c <= hi /\ lo <= snd c <= hi
  end.
