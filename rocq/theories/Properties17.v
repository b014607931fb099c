(** * Properties17: post-orders on every shape (C98, continued) and strongly connected components
    (C100). *)

From Coq Require Import Permutation.
From Verif Require Import Machine Store Axes Shapes Lattice SquareGraph Traverse Clients Scc Spec
  SpecSquare Spec4 Spec11 Demo SquareDemo SccMain.

(** ** C98, continued *)

(** Every reached node once and the start last; every other node is followed by one that lists
    it; and if a node lists one that comes after it, that one leads back to it. *)
Theorem C98_post_order :
  forall (A D N E : Type) (m : mode) (s : Shape Cell A D) (G : Geometry A D), Stored s G ->
  forall (g : LatticeGraph Cell A D N E) nf ef, Built m s G g nf ef ->
  forall start, In start (geo_nodes G) ->
  exists l, Drains (dpo_next (neighbors g) (neighbors_next m g) (vm_visit m (g_s g))
      (vm_is_visited m (g_s g))) (dpo_new (visit_map g) start) (l ++ [start]) /\
    NoDup (l ++ [start]) /\
    (forall c, In c (l ++ [start]) <->
       exists n, Reached (neighbors g) (neighbors_next m g) (geo_nodes G) start n c) /\
    (forall l1 c l2, l = l1 ++ c :: l2 ->
       exists p ln, In p (l2 ++ [start]) /\
         Drains (neighbors_next m g p) (neighbors g p) ln /\ In c ln) /\
    forall l1 c l2 ln x, l = l1 ++ c :: l2 ->
      Drains (neighbors_next m g c) (neighbors g c) ln -> In x ln -> In x (l2 ++ [start]) ->
      exists n, Reached (neighbors g) (neighbors_next m g) (geo_nodes G) x n c.
Proof. exact (@c98_post). Qed.
Print Assumptions C98_post_order.

Example C98_post_case :
  Stored db dbG /\ Built Debug db dbG (demo db Debug) demo_node (demo_edge db) /\
  In (4, 0) (geo_nodes dbG) /\
  (let g := demo db Debug in
   collect (dpo_next (neighbors g) (neighbors_next Debug g) (vm_visit Debug (g_s g))
     (vm_is_visited Debug (g_s g))) 30 (dpo_new (visit_map g) (4, 0)))
  = Ok [(2, 0); (0, 0); (1, 1); (0, 2); (2, 2); (3, 1); (4, 0)].
Proof.
  split; [exact db_ok|]. split; [apply demo_stored, db_ok|].
  split; [vm_compute; tauto|]. vm_compute. reflexivity.
Qed.

(** ** C100 *)

(** On every shape the lists share out the nodes, each list is what its first node leads to
    less the lists before, and nodes that lead to each other are in one list.  But all the nodes
    of each list lead to each other just where every node that is led to leads back:
    [neighbors_directed] ignores its direction, so the search over the reversed graph is one over
    the graph itself. *)
Theorem C100_components :
  forall (A D N E : Type) (m : mode) (s : Shape Cell A D) (G : Geometry A D), Stored s G ->
  forall (g : LatticeGraph Cell A D N E) nf ef, Built m s G g nf ef ->
  let leads a b := exists n, Reached (neighbors g) (neighbors_next m g) (geo_nodes G) a n b in
  exists ls, lattice_scc m g = Ok ls /\
    Permutation (concat ls) (geo_nodes G) /\
    (forall l1 l l2, ls = l1 ++ l :: l2 -> exists r l', l = r :: l' /\
       forall c, In c l <-> leads r c /\ ~ In c (concat l1)) /\
    (forall a b, In a (geo_nodes G) -> leads a b -> leads b a ->
       exists l, In l ls /\ In a l /\ In b l) /\
    ((forall l a b, In l ls -> In a l -> In b l -> leads a b) <->
     (forall a b, In a (geo_nodes G) -> leads a b -> leads b a)).
Proof. exact (@c100). Qed.
Print Assumptions C100_components.

(** Where the moves are right there is one list, or none on an empty board. *)
Theorem C100_connected :
  forall (A D N E : Type) (m : mode) (s : Shape Cell A D) (G : Geometry A D), Supported s G ->
  forall (g : LatticeGraph Cell A D N E) nf ef, Built m s G g nf ef ->
  exists l, lattice_scc m g = Ok (match geo_nodes G with [] => [] | _ => [l] end) /\
    Permutation l (geo_nodes G).
Proof. exact (@c100_one). Qed.
Print Assumptions C100_connected.

Theorem C100_square :
  forall (N E : Type) (ix : IxType) (S : LoopShape) (m : mode) (h v : Z),
  sq_size S h v -> sq_index_fits ix h v ->
  forall (g : SquareGraph N E ix S) nf ef, SqBuilt m h v g nf ef ->
  1 <= v ->
  exists l, square_scc m g = Ok (match sq_nodes h v with [] => [] | _ => [l] end) /\
    Permutation l (sq_nodes h v).
Proof. exact (@c100_square). Qed.
Print Assumptions C100_square.

(** A [SquareGraph] without rows has no nodes, but [node_identifiers] yields some (C43). *)
Theorem C100_no_rows :
  forall (N E : Type) (ix : IxType) (S : LoopShape) (m : mode) (h v : Z),
  sq_size S h v -> sq_index_fits ix h v ->
  forall (g : SquareGraph N E ix S) nf ef, SqBuilt m h v g nf ef -> v = 0 -> 2 <= h ->
  square_scc m g = Fail FPanic.
Proof. exact (@c100_no_rows). Qed.
Print Assumptions C100_no_rows.

(** On boards of doubled coordinates of more than one column the lists are never right. *)
Theorem C100_double :
  forall (N E : Type) (m : mode) (w h : Z), fits w h -> 2 <= w -> 1 <= h ->
  forall (g : LatticeGraph Cell AxisR AxisDR N E) nf ef,
  Built m (double_shape w h) (double_code_geometry w h) g nf ef ->
  exists ls, lattice_scc m g = Ok ls /\
    ~ (forall l a b, In l ls -> In a l -> In b l -> exists n,
         Reached (neighbors g) (neighbors_next m g) (geo_nodes (double_code_geometry w h)) a n b).
Proof. exact (@c100_double). Qed.
Print Assumptions C100_double.

(** From (0, 0) nothing leads to (7, 1), but both are in the only list. *)
Example C100_case :
  (Stored db dbG /\ Built Debug db dbG (demo db Debug) demo_node (demo_edge db) /\
   lattice_scc Debug (demo db Debug)
   = Ok [[(7, 1); (6, 2); (4, 2); (2, 2); (0, 2); (1, 1); (0, 0); (2, 0); (3, 1); (5, 1); (4, 0);
          (6, 0)]] /\
   (let g := demo db Debug in
    has_path_connecting (neighbors g) (neighbors_next Debug g) (vm_visit Debug (g_s g))
      (vm_is_visited Debug (g_s g)) pair_eqb (visit_map g) (0, 0) (7, 1)) = Ok false) /\
  (Supported hd hdG /\ Built Debug hd hdG (demo hd Debug) demo_node (demo_edge hd) /\
   lattice_scc Debug (demo hd Debug)
   = Ok [[(0, 0); (-1, 1); (0, 1); (-1, 2); (0, 2); (1, 1); (1, 0); (2, 0); (1, 2)]]) /\
  (SqBuilt Debug 3 2 hl sq_node sq_edge /\
   square_scc Debug hl = Ok [[(0, 0); (0, 1); (1, 1); (1, 0); (2, 0); (2, 1)]]) /\
  (let g := sqd IxU32 VerticalLoop Debug 3 0 in
   SqBuilt Debug 3 0 g sq_node sq_edge /\ square_scc Debug g = Fail FPanic).
Proof.
  split; [|split; [|split]].
  - split; [exact db_ok|]. split; [apply demo_stored, db_ok|]. vm_compute. auto.
  - split; [exact hd_ok|]. split; [apply demo_built, hd_ok|]. vm_compute. auto.
  - split; [exact hl_built|]. vm_compute. reflexivity.
  - cbv zeta. split; [apply sqd_built; sq_size|]. vm_compute. reflexivity.
Qed.
