(** * Format: what [{:?}] reads of a [LatticeGraph]. *)

From Verif Require Import Machine Store Axes Shapes Lattice.

(** ndarray's [Debug] (its arrayformat.rs): of an axis of [n] elements all are shown if they
    are at most [limit], else the first and the last [limit / 2]. *)
Definition shown (limit n : Z) : list Z :=
  if n <=? limit then zrange n
  else zrange (limit / 2) ++ map (fun i => n - limit / 2 + i) (zrange (limit / 2)).

(** Arrays of fewer than 500 elements, and arrays printed with [{:#?}] ([alternate]), are shown
    whole; for others both axes of a matrix have the limit 11.  [fx] is what an element prints;
    brackets, commas, the sizes, strides and layout, which are printed too, are left out. *)
Definition fmt_array {X T} (alternate : bool) (fx : X -> list T) (a : Array2 (option X))
  : outcome (list T) :=
  let many := negb alternate && (500 <=? Z.of_nat (length (cells a))) in
  let rows := if many then shown 11 (nrows a) else zrange (nrows a) in
  let cols := if many then shown 11 (ncols a) else zrange (ncols a) in
  fold_outcome (fun l r =>
    fold_outcome (fun l c =>
      match array_get a r c with
      | Some x => let! w := read_slot x in Ok (l ++ fx w)
      | None => Fail FPanic
      end) cols l) rows [].

(** The derived [Debug], lattice_abstract/mod.rs:24: the nodes, the vector of the arrays of
    edges, the shape ([fs]). *)
Definition fmt_graph {C A D N E T} (alternate : bool) (fn : N -> list T) (fe : E -> list T)
  (fs : list T) (g : LatticeGraph C A D N E) : outcome (list T) :=
  let! n := fmt_array alternate fn (g_nodes g) in
  let! e := fold_outcome (fun l a => let! x := fmt_array alternate fe a in Ok (l ++ x))
              (g_edges g) [] in
  Ok (n ++ e ++ fs).
