(** * Properties12: the orders of ids (C86, C87); two colours (C88, C89), cycles (C90, C91),
    paths and post-orders (C92, C93).

    Order.v has the derived orders; Spec8.v says what colourings and cycles are and has the
    tables of boards; [UFOK] (Kruskal.v) is the contract of a union-find structure. *)

From Coq Require Import Sorted Permutation.
From Verif Require Import Machine Store Axes Shapes Lattice SquareGraph Traverse Clients Order Spec
  SpecSquare Spec8 Spec12 Demo SquareDemo AstarDemo GeoProofs AxisProofs Kruskal KruskalDemo
  OrderProofs ColourProofs ClientsMain.

(** ** C86 *)

Theorem C86_rect :
  forall (A D N E : Type) (m : mode) (s : Shape Cell A D) (G : Geometry A D), Stored s G ->
  forall (g : LatticeGraph Cell A D N E) nf ef, Built m s G g nf ef ->
  forall w h, geo_nodes G = board w h (fun x y => (x, y)) ->
  forall a b i j, In a (geo_nodes G) -> In b (geo_nodes G) ->
    to_index m g a = Ok i -> to_index m g b = Ok j -> coord_cmp a b = (i ?= j).
Proof. exact (@c86_rect). Qed.
Print Assumptions C86_rect.

Theorem C86_axial :
  forall (A D N E : Type) (m : mode) (s : Shape Cell A D) (G : Geometry A D), Stored s G ->
  forall (g : LatticeGraph Cell A D N E) nf ef, Built m s G g nf ef ->
  forall w h co, geo_nodes G = board w h (axial_cell co) -> co = 0 \/ co = 1 ->
  (forall a b i j, In a (geo_nodes G) -> In b (geo_nodes G) ->
    to_index m g a = Ok i -> to_index m g b = Ok j -> coord_cmp a b = (i ?= j)) <->
  (w <= 0 \/ h + co <= 2).
Proof. exact (@c86_axial). Qed.
Print Assumptions C86_axial.

Theorem C86_double :
  forall (A D N E : Type) (m : mode) (s : Shape Cell A D) (G : Geometry A D), Stored s G ->
  forall (g : LatticeGraph Cell A D N E) nf ef, Built m s G g nf ef ->
  forall w h, geo_nodes G = board w h double_cell ->
  (forall a b i j, In a (geo_nodes G) -> In b (geo_nodes G) ->
    to_index m g a = Ok i -> to_index m g b = Ok j -> coord_cmp a b = (i ?= j)) <->
  (w <= 0 \/ h <= 2).
Proof. exact (@c86_double). Qed.
Print Assumptions C86_double.

(** Every board is one of the three. *)
Theorem C86_layouts :
  forall (A D : Type) (s : Shape Cell A D) (G : Geometry A D), Stored s G ->
  exists w h, 0 <= w /\ 0 <= h /\
    (geo_nodes G = board w h (fun x y => (x, y)) \/
     (exists co, (co = 0 \/ co = 1) /\ geo_nodes G = board w h (axial_cell co)) \/
     geo_nodes G = board w h double_cell).
Proof. exact c86_layouts. Qed.
Print Assumptions C86_layouts.

(** In the third row of an axial board the first cell comes before that of the row below. *)
Example C86_case :
  Stored hx hxG /\ Built Debug hx hxG (demo hx Debug) demo_node (demo_edge hx) /\
  geo_nodes hxG = board 3 3 (fun x y => (x, y)) /\
  Stored hd hdG /\ Built Debug hd hdG (demo hd Debug) demo_node (demo_edge hd) /\
  geo_nodes hdG = board 3 3 (axial_cell 1) /\
  Stored db dbG /\ geo_nodes dbG = board 4 3 double_cell /\
  to_index Debug (demo hd Debug) (-1, 1) = Ok 1 /\ to_index Debug (demo hd Debug) (0, 0) = Ok 0 /\
  coord_cmp (-1, 1) (0, 0) = Lt.
Proof.
  split; [apply st_supported, hx_ok|]. split; [apply demo_built, hx_ok|]. split; [reflexivity|].
  split; [apply st_supported, hd_ok|]. split; [apply demo_built, hd_ok|]. split; [reflexivity|].
  split; [apply db_ok|]. split; [reflexivity|]. vm_compute. auto.
Qed.

(** ** C87 *)

Theorem C87_nodes :
  forall (N E : Type) (ix : IxType) (S : LoopShape) (m : mode) (h v : Z), sq_size S h v ->
  forall (g : SquareGraph N E ix S) nf ef, SqBuilt m h v g nf ef ->
  forall a b i j, on_board h v a -> on_board h v b ->
    sg_to_index m g a = Ok i -> sg_to_index m g b = Ok j -> coord_cmp a b = (i ?= j).
Proof. exact c87_nodes. Qed.
Print Assumptions C87_nodes.

Theorem C87_edges :
  forall (N E : Type) (ix : IxType) (S : LoopShape) (m : mode) (h v : Z),
  sq_size S h v -> sq_index_fits ix h v ->
  forall (g : SquareGraph N E ix S) nf ef, SqBuilt m h v g nf ef ->
  exists l, Drains (sg_edge_references_next m g) (sg_edge_references g) l /\
    in_order edge_index_cmp (map sr_id l).
Proof. exact c87_references. Qed.
Print Assumptions C87_edges.

Example C87_case :
  sq_size HorizontalLoop 3 2 /\ sq_index_fits IxU8 3 2 /\ SqBuilt Debug 3 2 hl sq_node sq_edge /\
  (let! l := collect (sg_edge_references_next Debug hl) 30 (sg_edge_references hl) in
   Ok (map sr_id l)) =
  Ok [((0, 0), Horizontal); ((0, 0), Vertical); ((0, 1), Horizontal);
      ((1, 0), Horizontal); ((1, 0), Vertical); ((1, 1), Horizontal);
      ((2, 0), Horizontal); ((2, 0), Vertical); ((2, 1), Horizontal)].
Proof.
  split; [exact hl_size|]. split; [exact hl_fits|]. split; [exact hl_built|].
  vm_compute. reflexivity.
Qed.

(** ** C88 *)

Theorem C88_colours :
  forall (A D N E : Type) (m : mode) (s : Shape Cell A D) (G : Geometry A D), Supported s G ->
  forall (g : LatticeGraph Cell A D N E) nf ef, Built m s G g nf ef ->
  forall start, In start (geo_nodes G) ->
  exists b, is_bipartite_undirected (neighbors g) (neighbors_next m g) (vm_visit m (g_s g))
      (vm_is_visited m (g_s g)) (visit_map g) start = Ok b /\
    (b = true <-> TwoColours (neighbors g) (neighbors_next m g) (geo_nodes G)).
Proof. exact (@c88_iff). Qed.
Print Assumptions C88_colours.

Theorem C88_boards :
  forall (A D N E : Type) (m : mode) (s : Shape Cell A D) (G : Geometry A D), Supported s G ->
  forall (g : LatticeGraph Cell A D N E) nf ef, Built m s G g nf ef ->
  forall start x, In start (geo_nodes G) -> Chequered s G x ->
  is_bipartite_undirected (neighbors g) (neighbors_next m g) (vm_visit m (g_s g))
    (vm_is_visited m (g_s g)) (visit_map g) start = Ok x.
Proof. exact (@c88_boards). Qed.
Print Assumptions C88_boards.

Theorem C88_every :
  forall (A D : Type) (s : Shape Cell A D) (G : Geometry A D), Supported s G ->
  exists b, Chequered s G b.
Proof. exact chequered_every. Qed.
Print Assumptions C88_every.

Definition bipartite {A D} (s : Shape Cell A D) (start : Cell) : outcome bool :=
  let g := demo s Debug in
  is_bipartite_undirected (neighbors g) (neighbors_next Debug g) (vm_visit Debug (g_s g))
    (vm_is_visited Debug (g_s g)) (visit_map g) start.

Example C88_case :
  Supported sq sqG /\ Built Debug sq sqG (demo sq Debug) demo_node (demo_edge sq) /\
  In (1, 1) (geo_nodes sqG) /\
  Chequered sq sqG true /\ bipartite sq (1, 1) = Ok true /\
  Supported hx hxG /\ Chequered hx hxG false /\ bipartite hx (1, 1) = Ok false.
Proof.
  split; [exact sq_ok|]. split; [apply demo_built, sq_ok|].
  split; [vm_compute; auto|]. split; [constructor|]. split; [vm_compute; reflexivity|].
  split; [exact hx_ok|]. split; [apply (ch_offset_r OddR 3 3)|]. vm_compute. reflexivity.
Qed.

(** ** C89 *)

Theorem C89_colours :
  forall (N E : Type) (ix : IxType) (S : LoopShape) (m : mode) (h v : Z),
  sq_size S h v -> sq_index_fits ix h v ->
  forall (g : SquareGraph N E ix S) nf ef, SqBuilt m h v g nf ef ->
  forall start, on_board h v start ->
  is_bipartite_undirected (sg_neighbors g) (fun _ => sg_neighbors_next (ix := ix) (S := S) m)
    svm_visit svm_is_visited (sg_visit_map g) start = Ok (sq_chequered S h v) /\
  (sq_chequered S h v = true <->
   TwoColours (sg_neighbors g) (fun _ => sg_neighbors_next (ix := ix) (S := S) m) (sq_nodes h v)).
Proof. exact (@c89). Qed.
Print Assumptions C89_colours.

(** Three columns in a ring need a third colour. *)
Example C89_case :
  sq_size HorizontalLoop 3 2 /\ sq_index_fits IxU8 3 2 /\ SqBuilt Debug 3 2 hl sq_node sq_edge /\
  on_board 3 2 (1, 1) /\ sq_chequered HorizontalLoop 3 2 = false /\
  is_bipartite_undirected (sg_neighbors hl)
    (fun _ => sg_neighbors_next (ix := IxU8) (S := HorizontalLoop) Debug)
    svm_visit svm_is_visited (sg_visit_map hl) (1, 1) = Ok false /\
  is_bipartite_undirected (sg_neighbors ds)
    (fun _ => sg_neighbors_next (ix := IxU32) (S := DefaultShape) Debug)
    svm_visit svm_is_visited (sg_visit_map ds) (1, 1) = Ok true.
Proof.
  split; [exact hl_size|]. split; [exact hl_fits|]. split; [exact hl_built|].
  split; [unfold on_board; cbn; lia|]. vm_compute. auto.
Qed.

(** ** C90 *)

Theorem C90_cycles :
  forall (A D N E : Type) (m : mode) (s : Shape Cell A D) (G : Geometry A D), Stored s G ->
  forall (g : LatticeGraph Cell A D N E) nf ef, Built m s G g nf ef ->
  (forall r, In r (spec_edge_references G ef) -> In (er_target r) (geo_nodes G)) ->
  forall T (U : UFOps T), UFOK U ->
  exists b, is_cyclic_undirected U (node_bound m g) (to_index m g) (edge_references g)
      (edge_references_next m g) (fun e => Ok (er_source e)) (fun e => Ok (er_target e)) = Ok b /\
    (b = false <-> Forest (map (fun e => (er_source e, er_target e)) (spec_edge_references G ef))).
Proof. exact (@c90_iff). Qed.
Print Assumptions C90_cycles.

Theorem C90_boards :
  forall (A D N E : Type) (m : mode) (s : Shape Cell A D) (G : Geometry A D), Supported s G ->
  forall (g : LatticeGraph Cell A D N E) nf ef, Built m s G g nf ef ->
  forall T (U : UFOps T), UFOK U ->
  forall x, geo_nodes G <> [] -> Cyclic s G x ->
  is_cyclic_undirected U (node_bound m g) (to_index m g) (edge_references g)
    (edge_references_next m g) (fun e => Ok (er_source e)) (fun e => Ok (er_target e)) = Ok x.
Proof. exact (@c90_boards). Qed.
Print Assumptions C90_boards.

Theorem C90_every :
  forall (A D : Type) (s : Shape Cell A D) (G : Geometry A D), Supported s G ->
  exists b, Cyclic s G b.
Proof. exact cyclic_every. Qed.
Print Assumptions C90_every.

Definition cyclic {A D} (s : Shape Cell A D) : outcome bool :=
  let g := demo s Debug in
  is_cyclic_undirected label_uf (node_bound Debug g) (to_index Debug g) (edge_references g)
    (edge_references_next Debug g) (fun e => Ok (er_source e)) (fun e => Ok (er_target e)).

Example C90_case :
  UFOK label_uf /\ Supported hx hxG /\ Built Debug hx hxG (demo hx Debug) demo_node (demo_edge hx) /\
  geo_nodes hxG <> [] /\ Cyclic hx hxG true /\
  cyclic hx = Ok true /\
  cyclic (square_shape 5 1) = Ok false /\ cyclic (square_dir_shape 5 1) = Ok true.
Proof.
  split; [exact label_uf_ok|]. split; [exact hx_ok|]. split; [apply demo_built, hx_ok|]. split; [discriminate|].
  split; [apply (cy_offset_r OddR 3 3)|]. vm_compute. auto.
Qed.

(** ** C91 *)

Theorem C91_cycles :
  forall (N E : Type) (ix : IxType) (S : LoopShape) (m : mode) (h v : Z),
  sq_size S h v -> sq_index_fits ix h v ->
  forall (g : SquareGraph N E ix S) nf ef, SqBuilt m h v g nf ef ->
  forall T (U : UFOps T), UFOK U ->
  exists b, is_cyclic_undirected U (Ok (sg_node_bound g)) (sg_to_index m g)
      (sg_edge_references g) (sg_edge_references_next m g)
      (sr_source (ix := ix) (S := S) m) (sr_target (ix := ix) (S := S) m) = Ok b /\
    (b = false <-> Forest (map (fun x => fst (plain_view x)) (sq_all_edges S h v ef))) /\
    (0 < h -> 0 < v -> b = sq_cyclic S h v).
Proof. exact (@c91). Qed.
Print Assumptions C91_cycles.

Example C91_case :
  UFOK label_uf /\ sq_size HorizontalLoop 6 1 /\ SqBuilt Debug 6 1 (ring Debug) sq_node sq_edge /\
  is_cyclic_undirected label_uf (Ok (sg_node_bound (ring Debug))) (sg_to_index Debug (ring Debug))
    (sg_edge_references (ring Debug)) (sg_edge_references_next Debug (ring Debug))
    (sr_source (ix := IxU32) (S := HorizontalLoop) Debug)
    (sr_target (ix := IxU32) (S := HorizontalLoop) Debug) = Ok true.
Proof.
  assert (SZ : sq_size HorizontalLoop 6 1) by (unfold sq_size; cbn; lia).
  split; [exact label_uf_ok|]. split; [exact SZ|]. split; [apply sqd_built, SZ|].
  vm_compute. reflexivity.
Qed.

(** ** C92 *)

Theorem C92_path :
  forall (A D N E : Type) (m : mode) (s : Shape Cell A D) (G : Geometry A D), Supported s G ->
  forall (g : LatticeGraph Cell A D N E) nf ef, Built m s G g nf ef ->
  forall from to, In from (geo_nodes G) ->
  forall eqb : Cell -> Cell -> bool, (forall a b, eqb a b = true <-> a = b) ->
  exists b, has_path_connecting (neighbors g) (neighbors_next m g) (vm_visit m (g_s g))
      (vm_is_visited m (g_s g)) eqb (visit_map g) from to = Ok b /\
    (b = true <-> In to (geo_nodes G)).
Proof. exact (@c92_path). Qed.
Print Assumptions C92_path.

(** Every node is followed by a node that it is a neighbour of; the start comes last. *)
Theorem C92_post_order :
  forall (A D N E : Type) (m : mode) (s : Shape Cell A D) (G : Geometry A D), Supported s G ->
  forall (g : LatticeGraph Cell A D N E) nf ef, Built m s G g nf ef ->
  forall start, In start (geo_nodes G) ->
  exists l, Drains (dpo_next (neighbors g) (neighbors_next m g) (vm_visit m (g_s g))
      (vm_is_visited m (g_s g))) (dpo_new (visit_map g) start) (l ++ [start]) /\
    Permutation (l ++ [start]) (geo_nodes G) /\
    forall l1 c l2, l = l1 ++ c :: l2 ->
      exists p ln, In p (l2 ++ [start]) /\
        Drains (neighbors_next m g p) (neighbors g p) ln /\ In c ln.
Proof. exact (@c92_post). Qed.
Print Assumptions C92_post_order.

Example C92_case :
  Supported hd hdG /\ Built Debug hd hdG (demo hd Debug) demo_node (demo_edge hd) /\
  In (0, 0) (geo_nodes hdG) /\
  (forall a b, veqb a b = true <-> a = b) /\
  (let g := demo hd Debug in
   collect (dpo_next (neighbors g) (neighbors_next Debug g) (vm_visit Debug (g_s g))
     (vm_is_visited Debug (g_s g))) 30 (dpo_new (visit_map g) (0, 0))) =
  Ok [(2, 0); (1, 0); (1, 2); (1, 1); (0, 2); (-1, 2); (0, 1); (-1, 1); (0, 0)].
Proof.
  split; [exact hd_ok|]. split; [apply demo_built, hd_ok|].
  split; [vm_compute; auto|]. split; [exact veqb_eq|]. vm_compute. reflexivity.
Qed.

(** ** C93 *)

Theorem C93_path :
  forall (N E : Type) (ix : IxType) (S : LoopShape) (m : mode) (h v : Z),
  sq_size S h v -> sq_index_fits ix h v ->
  forall (g : SquareGraph N E ix S) nf ef, SqBuilt m h v g nf ef ->
  forall from to, on_board h v from ->
  forall eqb : NodeIndex -> NodeIndex -> bool, (forall a b, eqb a b = true <-> a = b) ->
  exists b, has_path_connecting (sg_neighbors g)
      (fun _ => sg_neighbors_next (ix := ix) (S := S) m) svm_visit svm_is_visited eqb
      (sg_visit_map g) from to = Ok b /\ (b = true <-> on_board h v to).
Proof. exact (@c93_path). Qed.
Print Assumptions C93_path.

Theorem C93_post_order :
  forall (N E : Type) (ix : IxType) (S : LoopShape) (m : mode) (h v : Z),
  sq_size S h v -> sq_index_fits ix h v ->
  forall (g : SquareGraph N E ix S) nf ef, SqBuilt m h v g nf ef ->
  forall start, on_board h v start ->
  exists l, Drains (dpo_next (sg_neighbors g)
      (fun _ => sg_neighbors_next (ix := ix) (S := S) m) svm_visit svm_is_visited)
      (dpo_new (sg_visit_map g) start) (l ++ [start]) /\
    Permutation (l ++ [start]) (sq_nodes h v) /\
    forall l1 c l2, l = l1 ++ c :: l2 ->
      exists p ln, In p (l2 ++ [start]) /\
        Drains (sg_neighbors_next (ix := ix) (S := S) m) (sg_neighbors g p) ln /\ In c ln.
Proof. exact (@c93_post). Qed.
Print Assumptions C93_post_order.

Example C93_case :
  sq_size HorizontalLoop 3 2 /\ sq_index_fits IxU8 3 2 /\ SqBuilt Debug 3 2 hl sq_node sq_edge /\
  on_board 3 2 (1, 1) /\
  (forall a b, veqb a b = true <-> a = b) /\
  collect (dpo_next (sg_neighbors hl) (fun _ => sg_neighbors_next (ix := IxU8) (S := HorizontalLoop) Debug)
    svm_visit svm_is_visited) 30 (dpo_new (sg_visit_map hl) (1, 1)) =
  Ok [(0, 0); (0, 1); (2, 1); (2, 0); (1, 0); (1, 1)].
Proof.
  split; [exact hl_size|]. split; [exact hl_fits|]. split; [exact hl_built|]. split; [unfold on_board; cbn; lia|].
  split; [exact veqb_eq|]. vm_compute. reflexivity.
Qed.
