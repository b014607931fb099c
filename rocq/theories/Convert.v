(** * Convert: coordinates and pairs of numbers.

    The model keeps [Offset], [SquareOffset] and [NodeIndex] as pairs (horizontal, vertical);
    the functions below are still written field by field, as the code is. *)

From Verif Require Import Machine Store Axes Shapes SquareGraph.

(** lattice_abstract/shapes.rs:417-424 [From<(T, T)> for Offset].  [into] of the unsigned types
    that convert into [usize] keeps the number. *)
Definition offset_of_pair (p : Z * Z) : Offset := (fst p, snd p).

(** lattice_abstract/shapes.rs:426-430 [From<Offset> for (T, T)]; of the machine integers on a
    64-bit target [u64] does not implement [From<usize>], so [T] is [usize]. *)
Definition offset_to_pair (x : Offset) : Z * Z := (fst x, snd x).

(** lattice_abstract/square.rs:103-111 [From<(usize, usize)> for SquareOffset] *)
Definition so_of_pair (x : Z * Z) : Z * Z := (fst x, snd x).

(** lattice_abstract/square.rs:96-101 [PartialEq<(usize, usize)> for SquareOffset] *)
Definition so_eq_pair (o p : Z * Z) : bool := (fst o =? fst p) && (snd o =? snd p).

(** square/index.rs:154-158 [PartialEq<(usize, usize)> for NodeIndex]: the comparison of pairs
    of the standard library, field by field. *)
Definition ni_eq_pair (n : NodeIndex) (p : Z * Z) : bool := (fst n =? fst p) && (snd n =? snd p).

(** square/index.rs:166-170 [From<NodeIndex> for (usize, usize)] *)
Definition ni_to_pair (n : NodeIndex) : Z * Z := (fst n, snd n).

(** square/index.rs:179-183 [From<(NodeIndex, Axis)> for EdgeIndex] *)
Definition ei_of_pair (x : NodeIndex * SqAxis) : EdgeIndex := (fst x, snd x).
