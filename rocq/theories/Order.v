(** * Order: the orders that the crate derives for its coordinates and ids.

    [#[derive(PartialOrd, Ord)]] compares the fields in the order of their declaration and the
    variants of an enumeration in the order of their declaration. *)

From Coq Require Export ZArith List.
From Verif Require Import Machine Store Axes Shapes Lattice SquareGraph.
Local Open Scope Z_scope.

(** lattice_abstract/shapes.rs:348-352 [Offset { horizontal, vertical }], and with it
    lattice_abstract/square.rs:92-94 [SquareOffset] and hex/offset_based/shapes.rs:8-9
    [HexOffset]; hex/axial_based/shapes.rs:20-24 [HexAxial { r, q }];
    hex/double_coord/shapes.rs:8-12 [DoubleCoord { h, v }]; square/index.rs:77-81
    [NodeIndex { horizontal, vertical }].  The model keeps all of them as pairs in this order.
    The order of [hex2d::Coordinate] belongs to another crate. *)
Definition coord_cmp (a b : Z * Z) : comparison :=
  match fst a ?= fst b with
  | Eq => snd a ?= snd b
  | c => c
  end.

(** square/index.rs:4-8 [enum Axis { Horizontal, Vertical }] *)
Definition sq_axis_cmp (a b : SqAxis) : comparison :=
  match a, b with
  | Horizontal, Vertical => Lt
  | Vertical, Horizontal => Gt
  | _, _ => Eq
  end.

(** square/index.rs:173-177 [EdgeIndex { node, axis }] *)
Definition edge_index_cmp (a b : EdgeIndex) : comparison :=
  match coord_cmp (fst a) (fst b) with
  | Eq => sq_axis_cmp (snd a) (snd b)
  | c => c
  end.

(** The place of a variant in its enumeration, by which the derived order compares.
    lattice_abstract/square.rs:18-23 [SquareAxis] *)
Definition sq_rank (a : SquareAxis) : nat := match a with SX => 0 | SY => 1 end.
(** square.rs:214-225 [DirectedSquareAxis] *)
Definition dsq_rank (a : DirectedSquareAxis) : nat :=
  match a with DX => 0 | DY => 1 | DRX => 2 | DRY => 3 end.
(** square.rs:310-317 [SquareDiagonalAxis] *)
Definition dg_rank (a : SquareDiagonalAxis) : nat :=
  match a with GN => 0 | GNE => 1 | GE => 2 | GSE => 3 end.
(** square.rs:372-383 [DirectedSquareDiagonalAxis] *)
Definition ddg_rank (a : DirectedSquareDiagonalAxis) : nat :=
  match a with
  | DN => 0 | DNE => 1 | DE => 2 | DSE => 3 | DS => 4 | DSW => 5 | DW => 6 | DNW => 7
  end.
(** hex/shapes/mod.rs:7-13 [AxisR], 67-76 [AxisDR], 141-147 [AxisQ], 201-210 [AxisDQ] *)
Definition r_rank (a : AxisR) : nat := match a with ANE => 0 | AE => 1 | ASE => 2 end.
Definition dr_rank (a : AxisDR) : nat :=
  match a with RNE => 0 | RE => 1 | RSE => 2 | RSW => 3 | RW => 4 | RNW => 5 end.
Definition q_rank (a : AxisQ) : nat := match a with BN => 0 | BNE => 1 | BSE => 2 end.
Definition dq_rank (a : AxisDQ) : nat :=
  match a with QN => 0 | QNE => 1 | QSE => 2 | QS => 3 | QSW => 4 | QNW => 5 end.

(** The derived order of an axis or direction type. *)
Definition rank_cmp {X} (rank : X -> nat) (a b : X) : comparison :=
  Nat.compare (rank a) (rank b).

(** lattice_abstract/edges.rs:45: the [EdgeId] of [LatticeGraph] is the pair of a coordinate and
    an axis; pairs compare by the first part, then by the second. *)
Definition edge_id_cmp {A} (rank : A -> nat) (a b : (Z * Z) * A) : comparison :=
  match coord_cmp (fst a) (fst b) with
  | Eq => rank_cmp rank (snd a) (snd b)
  | c => c
  end.
