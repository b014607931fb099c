(** * Properties33: sets of nodes that are all joined to each other (C128).

    [maximal_cliques]: petgraph's, over [node_identifiers], [neighbors] and [is_adjacent]
    (Cliques.v).  [SomeOrder order]: [order] may be any order in which its sets are iterated.
    [Clique], [MaximalClique], [ListsCliques]: Spec25.v.  [Sound] (Spec21.v): the shapes of the
    crate whose boards are traversed as drawn and those of users that keep to the contract. *)

From Coq Require Import Permutation.
From Verif Require Import CustomDemo Machine Store Axes Shapes Lattice Spec Spec4 Spec19 Spec21
  Astar Cliques Spec25 CliquesMain Demo.

(** ** C128 *)

(** Every maximal clique is listed, once, and nothing else is. *)
Theorem C128_cliques :
  forall (A D N E : Type) (m : mode) (s : Shape Cell A D) (G : Geometry A D), Sound m s G ->
  forall (g : LatticeGraph Cell A D N E) nf ef, Built m s G g nf ef ->
  forall order, SomeOrder order ->
  exists l,
    maximal_cliques veqb order (node_identifiers g) (node_indices_next m (g_s g))
      (neighbors g) (neighbors_next m g) (is_adjacent m g) = Ok l /\
    ListsCliques (Neighbor m g) (geo_nodes G) l.
Proof. exact (@c128_cliques). Qed.
Print Assumptions C128_cliques.

(** Whatever nodes are all joined to each other, some set listed holds them all: each node and both
    ends of each edge are in one. *)
Theorem C128_part :
  forall (A D N E : Type) (m : mode) (s : Shape Cell A D) (G : Geometry A D), Sound m s G ->
  forall (g : LatticeGraph Cell A D N E) nf ef, Built m s G g nf ef ->
  forall order, SomeOrder order -> forall l,
  maximal_cliques veqb order (node_identifiers g) (node_indices_next m (g_s g))
    (neighbors g) (neighbors_next m g) (is_adjacent m g) = Ok l ->
  forall S, Clique (Neighbor m g) (geo_nodes G) S -> exists S', In S' l /\ incl S S'.
Proof. exact (@c128_part). Qed.
Print Assumptions C128_part.

(** On square boards no three nodes are all joined, on hexagonal ones no four and with diagonals no
    five. *)
Theorem C128_sizes :
  forall (A D N E : Type) (m : mode) (s : Shape Cell A D) (G : Geometry A D) dist,
  Supported s G -> Distance s G dist ->
  forall (g : LatticeGraph Cell A D N E) nf ef, Built m s G g nf ef ->
  forall S, Clique (Neighbor m g) (geo_nodes G) S ->
  (dist = taxicab -> Z.of_nat (length S) <= 2) /\
  (dist = hex_axial \/
   (exists b, dist = fun c c' => hex_rows (offset_r_pos b c) (offset_r_pos b c')) ->
   Z.of_nat (length S) <= 3) /\
  (dist = chessboard -> Z.of_nat (length S) <= 4).
Proof. exact (@c128_sizes). Qed.
Print Assumptions C128_sizes.

Example C128_case :
  let run {A D N E} (g : LatticeGraph Cell A D N E) (order : list Cell -> list Cell -> list Cell) :=
    maximal_cliques veqb order (node_identifiers g) (node_indices_next Debug (g_s g))
      (neighbors g) (neighbors_next Debug g) (is_adjacent Debug g) in
  SomeOrder (C := Cell) (fun _ p => p) /\ SomeOrder (C := Cell) (fun _ p => rev p) /\
  Sound Debug sq sqG /\ Supported sq sqG /\ Distance sq sqG taxicab /\
  Built Debug sq sqG (demo sq Debug) demo_node (demo_edge sq) /\
  run (demo sq Debug) (fun _ p => p) =
    Ok [[(2, 1); (2, 0)]; [(1, 0); (2, 0)]; [(2, 1); (1, 1)]; [(1, 0); (1, 1)]; [(0, 1); (1, 1)];
        [(1, 0); (0, 0)]; [(0, 1); (0, 0)]] /\
  Sound Debug hd hdG /\ Distance hd hdG hex_axial /\
  Built Debug hd hdG (demo hd Debug) demo_node (demo_edge hd) /\
  run (demo hd Debug) (fun _ p => p) =
    Ok [[(0, 2); (1, 1); (1, 2)]; [(1, 0); (1, 1); (2, 0)]; [(0, 2); (1, 1); (0, 1)];
        [(1, 0); (1, 1); (0, 1)]; [(0, 2); (-1, 2); (0, 1)]; [(-1, 1); (-1, 2); (0, 1)];
        [(0, 0); (-1, 1); (0, 1)]; [(1, 0); (0, 0); (0, 1)]] /\
  run (demo hx Debug) (fun _ p => rev p) =
    Ok [[(1, 0); (0, 1); (0, 0)]; [(1, 2); (0, 1); (0, 2)]; [(1, 0); (0, 1); (1, 1)];
        [(1, 2); (0, 1); (1, 1)]; [(1, 0); (2, 0); (1, 1)]; [(2, 1); (2, 0); (1, 1)];
        [(2, 2); (2, 1); (1, 1)]; [(1, 2); (2, 2); (1, 1)]] /\
  run (demo (diagonal_shape 3 2) Debug) (fun _ p => p) =
    Ok [[(2, 0); (2, 1); (1, 0); (1, 1)]; [(0, 0); (0, 1); (1, 0); (1, 1)]] /\
  (let s := chess 3 3 in
   Sound Debug s (contract_geometry s [NE1; NE2; SE2; SE1] GFoward turn (fun x y => (x, y))
     (knight_step 3 3) usize_pair) /\
   run (demo s Debug) (fun _ p => p) =
     Ok [[(1, 0); (2, 2)]; [(0, 1); (2, 2)]; [(0, 2); (2, 1)]; [(0, 0); (2, 1)]; [(1, 2); (2, 0)];
         [(0, 1); (2, 0)]; [(0, 0); (1, 2)]; [(1, 1)]; [(1, 0); (0, 2)]]).
Proof.
  cbv zeta. split; [intros r p; apply Permutation_refl|].
  split; [intros r p; apply Permutation_sym, Permutation_rev|].
  split; [apply sound_crate; exact sq_ok|]. split; [exact sq_ok|]. split; [constructor|].
  split; [apply demo_built, sq_ok|]. split; [vm_compute; reflexivity|].
  split; [apply sound_crate; exact hd_ok|]. split; [constructor|].
  split; [apply demo_built, hd_ok|].
  split; [vm_compute; reflexivity|]. split; [vm_compute; reflexivity|].
  split; [vm_compute; reflexivity|]. split.
  - eapply sound_user; [apply chess_contract; repeat split; vm_compute; congruence|reflexivity].
  - vm_compute; reflexivity.
Qed.
