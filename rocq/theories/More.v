(** * More: hashing of [LatticeGraph], graphs of default shape, weights without bytes, and
    construction of [SquareGraph] with closures that panic. *)

From Verif Require Import Machine Store Axes Shapes Lattice Spec SquareGraph.

Section Hash.
  Context {C A D N E : Type}.
  Notation graph := (LatticeGraph C A D N E).
  Notation shape := (Shape C A D).

  (** ** [Hash], derived in lattice_abstract/mod.rs:24

      What is fed to the hasher, as a list.  [hz] is what a [usize] feeds, [hx] what an element
      feeds.  ndarray hashes the slice of the sizes and then the slice of the elements; a slice
      feeds its length first.  Every element is read. *)
  Definition hash_array {X T} (hz : Z -> list T) (hx : X -> list T) (a : Array2 (option X))
    : outcome (list T) :=
    fold_outcome (fun l x => let! w := read_slot x in Ok (l ++ hx w)) (cells a)
      (hz 2 ++ hz (nrows a) ++ hz (ncols a) ++ hz (Z.of_nat (length (cells a)))).

  (** The nodes, the vector of arrays of edges, the shape ([hs]). *)
  Definition hash_graph {T} (hz : Z -> list T) (hn : N -> list T) (he : E -> list T)
    (hs : list T) (g : graph) : outcome (list T) :=
    let! n := hash_array hz hn (g_nodes g) in
    let! e := fold_outcome (fun l a => let! x := hash_array hz he a in Ok (l ++ x))
                (g_edges g) (hz (Z.of_nat (length (g_edges g)))) in
    Ok (n ++ e ++ hs).

  (** ** Zero-sized weights

      A slot of a zero-sized type (like [()]) has no bytes, and reading it gives the only value
      of the type whether it was written or not.  For such edge weights the graph [g] of the
      model stands for the graph below. *)
  Definition as_written {X} (x : X) (a : Array2 (option X)) : Array2 (option X) :=
    mkArray2 (nrows a) (ncols a)
      (map (fun s => match s with Some y => Some y | None => Some x end) (cells a)).
  Definition zero_sized (e : E) (g : graph) : graph :=
    mkGraph (g_nodes g) (map (as_written e) (g_edges g)) (g_s g).

  (** ** Graphs of default shape; [dflt] is [S::default()]. *)

  (** lattice_abstract/mod.rs:106-112 *)
  Definition new_s (m : mode) (dflt : shape) (dn : N) (de : E) : outcome graph :=
    new_default m dflt dn de.
  (** lattice_abstract/mod.rs:122-124 *)
  Definition new_uninit_s (m : mode) (dflt : shape) : outcome graph := new_uninit m dflt.
  (** lattice_abstract/mod.rs:127-133 *)
  Definition new_with_s {St} (dflt : shape) (n : St -> C -> N * St) (e : St -> C -> A -> E * St)
    (m : mode) (st : St) : outcome (graph * St) := new_with dflt n e m st.
End Hash.

(** lattice_abstract/square.rs:115-121: the derived [Default] of [SquareShape], for both kinds
    of edges.  The shapes of constant size (hex/axial_based/shapes.rs:178-185,
    hex/offset_based/shapes.rs:316-323, hex/double_coord/shapes.rs:245-254, hex/hex2d.rs:54-61)
    have the shape of their size as the default; that is the shape of the model. *)
Definition square_default : Shape (Z * Z) SquareAxis DirectedSquareAxis := square_shape 0 0.
Definition square_dir_default : Shape (Z * Z) DirectedSquareAxis DirectedSquareAxis :=
  square_dir_shape 0 0.

(** A weight that was dropped. *)
Inductive Weight (N E : Type) :=
| NodeWeight (w : N)
| EdgeWeight (w : E).
Arguments NodeWeight {N E}.
Arguments EdgeWeight {N E}.

Section Square.
  Context {N E : Type} {ix : IxType} {S : LoopShape}.
  Notation graph := (SquareGraph N E ix S).

  (** square/mod.rs:197-201, 211-215, 226-230 with a closure that may panic ([None]): the
      vector so far, the state of the closure, and whether the loops ended. *)
  Definition fill_p {St X : Type} (f : St -> Z -> Z -> option X * St) (h v : Z) (st : St)
    : list X * St * bool :=
    fold_left (fun acc hi =>
      fold_left (fun acc vi =>
        let '(l, st, ok) := acc in
        if (ok : bool) then
          let '(x, st) := f st hi vi in
          match x with
          | Some x => (l ++ [x], st, true)
          | None => (l, st, false)
          end
        else acc) (zrange v) acc) (zrange h) ([], st, true).

  (** square/mod.rs:188-235 with closures that may panic.  [inl]: the graph; [inr]: a closure
      panicked; unwinding dropped the local variables, the latest first, and a vector or array
      drops its elements from the first to the last. *)
  Definition sg_new_with_p {St : Type} (m : mode) (h v : Z)
    (fnode : St -> Z -> Z -> option N * St) (fedge : St -> Z -> Z -> SqAxis -> option E * St)
    (st : St) : outcome ((graph * St) + (list (Weight N E) * St)) :=
    if negb (0 <? h) then Fail FPanic else
    let! _ := usize_mul m h v in
    let '(nodes_vec, st, ok) := fill_p fnode h v st in
    if negb ok then Ok (inr (map NodeWeight nodes_vec, st)) else
    let! nodes := array_from_vec h v nodes_vec in
    let! mh := if LOOP_HORIZONTAL S then Ok h else usize_sub m h 1 in
    let! _ := usize_mul m mh v in
    let '(horizontal_vec, st, ok) := fill_p (fun st x y => fedge st x y Horizontal) mh v st in
    if negb ok then
      Ok (inr (map EdgeWeight horizontal_vec ++ map NodeWeight (cells nodes), st)) else
    let! horizontal := array_from_vec mh v horizontal_vec in
    let! mv := if LOOP_VERTICAL S then Ok v else usize_sub m v 1 in
    let! _ := usize_mul m h mv in
    let '(vertical_vec, st, ok) := fill_p (fun st x y => fedge st x y Vertical) h mv st in
    if negb ok then
      Ok (inr (map EdgeWeight vertical_vec ++ map EdgeWeight (cells horizontal) ++
               map NodeWeight (cells nodes), st)) else
    let! vertical := array_from_vec h mv vertical_vec in
    let! g := new_raw m nodes horizontal vertical in
    Ok (inl (g, st)).

  (** square/nodes.rs:109-114: ndarray's iterator counts the elements to come. *)
  Definition sg_node_references_count (it : SqNodeReferences N) : Z :=
    Z.of_nat (length (nr_nodes it)).
End Square.
