(** * Properties15: searches on every shape of the crate (C98), walks along edges (C99), and
    connected components where an edge leads off the board (C82, continued). *)

From Verif Require Import Machine Store Axes Shapes Lattice Traverse Clients Astar Dijkstra Kruskal
  Spec SpecSquare Spec4 Spec6 Demo AstarDemo KruskalDemo Spec11 AnySearchMain Follow DijkstraFault ConnFault DoubleProofs.

(** ** C98

    [Reached (neighbors g) (neighbors_next m g) (geo_nodes G) start n c]: [n] steps lead from
    [start] to [c], each to a node that [neighbors] lists for the one before; what [neighbors]
    lists outside of the board does not count. *)

(** The start first, every reached node once, and none before one that needs fewer steps. *)
Theorem C98_bfs :
  forall (A D N E : Type) (m : mode) (s : Shape Cell A D) (G : Geometry A D), Stored s G ->
  forall (g : LatticeGraph Cell A D N E) nf ef, Built m s G g nf ef ->
  forall start, In start (geo_nodes G) ->
  exists it l, bfs_new (vm_visit m (g_s g)) (visit_map g) start = Ok it /\
    Drains (bfs_next (neighbors g) (neighbors_next m g) (vm_visit m (g_s g))) it l /\
    hd_error l = Some start /\ NoDup l /\
    (forall c, In c l <->
       exists n, Reached (neighbors g) (neighbors_next m g) (geo_nodes G) start n c) /\
    forall l1 a l2 b l3 n, l = l1 ++ a :: l2 ++ b :: l3 ->
      Reached (neighbors g) (neighbors_next m g) (geo_nodes G) start n b ->
      exists k, (k <= n)%nat /\
        Reached (neighbors g) (neighbors_next m g) (geo_nodes G) start k a.
Proof. exact (@c98_bfs). Qed.
Print Assumptions C98_bfs.

(** The start first, every reached node once, each a neighbour of an earlier one. *)
Theorem C98_dfs :
  forall (A D N E : Type) (m : mode) (s : Shape Cell A D) (G : Geometry A D), Stored s G ->
  forall (g : LatticeGraph Cell A D N E) nf ef, Built m s G g nf ef ->
  forall start, In start (geo_nodes G) ->
  exists l, Drains (dfs_next (neighbors g) (neighbors_next m g) (vm_visit m (g_s g))
      (vm_is_visited m (g_s g))) (dfs_new (visit_map g) start) l /\
    hd_error l = Some start /\ NoDup l /\
    (forall c, In c l <->
       exists n, Reached (neighbors g) (neighbors_next m g) (geo_nodes G) start n c) /\
    forall l1 c l2, l = l1 ++ c :: l2 -> l1 <> [] ->
      exists p ln, In p l1 /\ Drains (neighbors_next m g p) (neighbors g p) ln /\ In c ln.
Proof. exact (@c98_dfs). Qed.
Print Assumptions C98_dfs.

Theorem C98_path :
  forall (A D N E : Type) (m : mode) (s : Shape Cell A D) (G : Geometry A D), Stored s G ->
  forall (g : LatticeGraph Cell A D N E) nf ef, Built m s G g nf ef ->
  forall from to, In from (geo_nodes G) ->
  forall eqb : Cell -> Cell -> bool, (forall a b, eqb a b = true <-> a = b) ->
  exists b, has_path_connecting (neighbors g) (neighbors_next m g) (vm_visit m (g_s g))
      (vm_is_visited m (g_s g)) eqb (visit_map g) from to = Ok b /\
    (b = true <->
       exists n, Reached (neighbors g) (neighbors_next m g) (geo_nodes G) from n to).
Proof. exact (@c98_path). Qed.
Print Assumptions C98_path.


(** On a board of doubled coordinates the search from the right end of the first row gets to
    other nodes than the one from its left end: no step leads back to (4, 0).  On the looped
    axial board [neighbors] lists (2, 2), which is no node; the searches pass over it. *)
Example C98_case :
  let bfs A D (g : LatticeGraph Cell A D Z Z) c :=
    let! it := bfs_new (vm_visit Debug (g_s g)) (visit_map g) c in
    Demo.collect (bfs_next (neighbors g) (neighbors_next Debug g) (vm_visit Debug (g_s g))) 20
      it in
  let path a b := let g := demo db Debug in
    has_path_connecting (neighbors g) (neighbors_next Debug g) (vm_visit Debug (g_s g))
      (vm_is_visited Debug (g_s g)) veqb (visit_map g) a b in
  (Stored db dbG /\ Built Debug db dbG (demo db Debug) demo_node (demo_edge db) /\
   In (4, 0) (geo_nodes dbG) /\
   bfs _ _ (demo db Debug) (4, 0) = Ok [(4, 0); (2, 0); (3, 1); (0, 0); (1, 1); (2, 2); (0, 2)] /\
   bfs _ _ (demo db Debug) (0, 0) = Ok [(0, 0); (1, 1); (2, 0); (2, 2); (3, 1); (0, 2)] /\
   Demo.collect (let g := demo db Debug in
       dfs_next (neighbors g) (neighbors_next Debug g) (vm_visit Debug (g_s g))
         (vm_is_visited Debug (g_s g))) 20 (dfs_new (visit_map (demo db Debug)) (4, 0))
     = Ok [(4, 0); (3, 1); (2, 2); (0, 2); (1, 1); (0, 0); (2, 0)] /\
   path (4, 0) (0, 0) = Ok true /\ path (0, 0) (4, 0) = Ok false) /\
  (Stored al alG /\ Built Debug al alG (demo al Debug) demo_node (demo_edge al) /\
   In (1, 0) (geo_nodes alG) /\ ~ In (2, 2) (geo_nodes alG) /\
   Demo.collect (neighbors_next Debug (demo al Debug) (1, 2)) 7 0%nat
     = Ok [(2, 2); (2, 1); (1, 1); (0, 2)] /\
   bfs _ _ (demo al Debug) (1, 0)
     = Ok [(1, 0); (1, 1); (2, 0); (0, 0); (0, 1); (1, 2); (2, 1); (0, 2); (-1, 2)]).
Proof.
  cbv zeta. split.
  - split; [exact db_ok|]. split; [apply demo_stored, db_ok|]. split; [vm_compute; tauto|].
    vm_compute. auto.
  - split; [exact al_ok|]. split; [apply demo_stored, al_ok|]. split; [vm_compute; tauto|].
    split; [vm_compute; intuition congruence|]. vm_compute. auto.
Qed.

(** ** C99

    [Followed (edges m g) (edges_next m g) er_target start c]: from [start], calling [edges] and
    going on to the target of one of the edges it gives, again and again, leads to [c].
    [Enclosed], [Leaky] (Spec11.v) and [Untraversable] (Spec.v) list shapes of the crate. *)

(** The three lists leave out nothing. *)
Theorem C99_every_shape :
  forall (A D : Type) (s : Shape Cell A D) (G : Geometry A D), Stored s G ->
  Enclosed s G \/ Leaky s G \/ Untraversable s G.
Proof. exact every_shape. Qed.
Print Assumptions C99_every_shape.

(** On the first, following edges stays on the board and [edges] works everywhere on the way. *)
Theorem C99_safe :
  forall (A D N E : Type) (m : mode) (s : Shape Cell A D) (G : Geometry A D)
    (g : LatticeGraph Cell A D N E) nf ef, Built m s G g nf ef -> Enclosed s G ->
  forall start c, In start (geo_nodes G) ->
  Followed (edges m g) (edges_next m g) (@er_target Cell E D) start c ->
  In c (geo_nodes G) /\
  exists it l, edges m g c = Ok it /\ Drains (edges_next m g) it l.
Proof. exact (@c99_safe). Qed.
Print Assumptions C99_safe.

(** On every one of the others, following edges from some node ends in undefined behaviour in
    release builds and in that or a panic in debug builds. *)
Theorem C99_fault :
  forall (A D N E : Type) (m : mode) (s : Shape Cell A D) (G : Geometry A D)
    (g : LatticeGraph Cell A D N E) nf ef, Built m s G g nf ef ->
  Leaky s G \/ Untraversable s G ->
  exists start c f, In start (geo_nodes G) /\
    Followed (edges m g) (edges_next m g) (@er_target Cell E D) start c /\
    (m = Release -> f = FUB) /\ (f = FUB \/ f = FPanic) /\
    (edges m g c = Fail f \/
     exists it l it', edges m g c = Ok it /\ Consumed (edges_next m g) it l it' /\
       edges_next m g it' = Fail f).
Proof. exact (@c99_fault). Qed.
Print Assumptions C99_fault.

(** Dijkstra's search is such a walk: from a node from which edges lead off the board it panics
    in debug builds and is undefined behaviour in release builds, whatever the costs and the
    priority queue. *)
Theorem C99_dijkstra :
  forall (A D N E : Type) (m : mode) (s : Shape Cell A D) (G : Geometry A D), Traversable s G ->
  forall (g : LatticeGraph Cell A D N E) nf ef, Built m s G g nf ef ->
  forall H, HeapOK H -> forall cost start t, In start (geo_nodes G) ->
  Followed (edges m g) (edges_next m g) (@er_target Cell E D) start t ->
  ~ In t (geo_nodes G) ->
  Faults (dijkstra_round veqb H (edges m g) (edges_next m g) (fun e => Ok (er_target e)) cost
      (vm_visit m (g_s g)) (vm_is_visited m (g_s g)) None)
    (match m with Debug => FPanic | Release => FUB end)
    (dijkstra_init veqb H (visit_map g) start).
Proof. exact c99_dijkstra. Qed.
Print Assumptions C99_dijkstra.

(** From every other node it ends with the least cost of everything that edges lead to, also on
    boards where not every node is. *)
Theorem C99_dijkstra_ok :
  forall (A D N E : Type) (m : mode) (s : Shape Cell A D) (G : Geometry A D), Traversable s G ->
  forall (g : LatticeGraph Cell A D N E) nf ef, Built m s G g nf ef ->
  forall H, HeapOK H -> forall cost start, In start (geo_nodes G) ->
  let target := fun e : EdgeReference Cell E D => Ok (er_target e) in
  let followed := Followed (edges m g) (edges_next m g) (@er_target Cell E D) start in
  (forall c, followed c -> In c (geo_nodes G)) ->
  (forall c e, followed c -> EdgeAt (edges m g) (edges_next m g) c e -> 0 <= cost e) ->
  exists r,
    Returns (dijkstra_round veqb H (edges m g) (edges_next m g) target cost
        (vm_visit m (g_s g)) (vm_is_visited m (g_s g)) None)
      (dijkstra_init veqb H (visit_map g) start) r /\
    forall c, match r c with
              | Some x => LeastCost (edges m g) (edges_next m g) target cost start c x
              | None => ~ followed c
              end.
Proof. exact c99_dijkstra_ok. Qed.
Print Assumptions C99_dijkstra_ok.

(** The looped axial board of 3 x 3: an edge leads from (1, 2) to (2, 2), which is no node. *)
Example C99_case :
  let run m := let g := demo al m in
    match loop (dijkstra_round veqb list_heap (edges m g) (edges_next m g)
        (fun e => Ok (er_target e)) er_weight (vm_visit m (g_s g)) (vm_is_visited m (g_s g)) None)
      (dijkstra_init veqb list_heap (visit_map g) (0, 0)) with
    | Ok _ => None | Fail f => Some f end in
  Leaky al alG /\ Built Debug al alG (demo al Debug) demo_node (demo_edge al) /\
  (exists t, Followed (edges Debug (demo al Debug)) (edges_next Debug (demo al Debug))
     (@er_target Cell Z AxisDR) (1, 2) t /\ ~ In t (geo_nodes alG)) /\
  HeapOK (list_heap (C := Cell)) /\ run Debug = Some FPanic /\ run Release = Some FUB /\
  Enclosed sq sqG /\ Built Debug sq sqG (demo sq Debug) demo_node (demo_edge sq).
Proof.
  cbv zeta. assert (LK : Leaky al alG).
  { apply lk_axial_r_loop; [apply fits_small; lia|exact I|lia|cbn; lia]. }
  assert (BA : Built Debug al alG (demo al Debug) demo_node (demo_edge al))
    by (apply demo_stored, al_ok).
  split; [exact LK|]. split; [exact BA|]. split.
  { exists (2, 2). split; [|vm_compute; intuition congruence].
    apply (off_step_fault _ _ _ BA (leaky_traversable _ _ _ _ LK) (1, 2) RE (2, 2)).
    all: vm_compute; intuition congruence. }
  split; [apply list_heap_ok|]. split; [vm_compute; reflexivity|]. split; [vm_compute; reflexivity|].
  split; [apply en_supported, sq_ok|]. apply demo_built, sq_ok.
Qed.

(** A column-wise board of 3 x 3 on which no edge leads off the board. *)
Example C99_ok_case :
  let s := hex_offset_q EvenQ 3 3 in let G := rect_code_geometry hexq_axes s 3 3 in
  let g := demo s Debug in
  let followed := Followed (edges Debug g) (edges_next Debug g) (@er_target Cell Z AxisDQ) in
  Traversable s G /\ Built Debug s G g demo_node (demo_edge s) /\ In (0, 0) (geo_nodes G) /\
  (forall c, followed (0, 0) c -> In c (geo_nodes G)) /\
  match loop (dijkstra_round veqb list_heap (edges Debug g) (edges_next Debug g)
      (fun e => Ok (er_target e)) (fun _ => 1) (vm_visit Debug (g_s g))
      (vm_is_visited Debug (g_s g)) None) (dijkstra_init veqb list_heap (visit_map g) (0, 0)) with
  | Ok r => map r (geo_nodes G)
  | Fail _ => []
  end = [Some 0; Some 1; Some 2; Some 1; Some 2; Some 2; Some 2; Some 3; Some 3].
Proof.
  cbv zeta.
  assert (EN : Enclosed (hex_offset_q EvenQ 3 3)
      (rect_code_geometry hexq_axes (hex_offset_q EvenQ 3 3) 3 3)).
  { apply en_offset_q; [apply fits_small; lia|right; right; reflexivity]. }
  assert (TR := enclosed_traversable _ _ _ _ EN).
  split; [exact TR|].
  assert (BT := demo_stored _ _ _ _ Debug (StoreProofs.traversable_stored _ _ _ _ TR)).
  split; [exact BT|]. split; [vm_compute; tauto|]. split.
  - intros c HF. refine (proj1 (c99_safe _ _ _ BT EN (0, 0) c _ HF)). vm_compute; tauto.
  - vm_compute. reflexivity.
Qed.

(** ** C82, continued *)

(** As soon as one edge leads off the board, [connected_components] panics, in both build
    modes. *)
Theorem C82_off_board :
  forall (A D N E : Type) (m : mode) (s : Shape Cell A D) (G : Geometry A D), Stored s G ->
  forall (g : LatticeGraph Cell A D N E) nf ef, Built m s G g nf ef ->
  (exists r, In r (spec_edge_references G ef) /\ ~ In (er_target r) (geo_nodes G)) ->
  forall T (U : UFOps T), UFOK U ->
  connected_components U (node_bound m g) (to_index m g) (edge_references g)
    (edge_references_next m g) (fun e => Ok (er_source e)) (fun e => Ok (er_target e))
    = Fail FPanic.
Proof. exact (@c82_fault). Qed.
Print Assumptions C82_off_board.

(** So it does on every shape of the list [Leaky]... *)
Theorem C82_leaky :
  forall (A D N E : Type) (m : mode) (s : Shape Cell A D) (G : Geometry A D), Leaky s G ->
  forall (g : LatticeGraph Cell A D N E) nf ef, Built m s G g nf ef ->
  forall T (U : UFOps T), UFOK U ->
  connected_components U (node_bound m g) (to_index m g) (edge_references g)
    (edge_references_next m g) (fun e => Ok (er_source e)) (fun e => Ok (er_target e))
    = Fail FPanic.
Proof. exact c82_leaky. Qed.
Print Assumptions C82_leaky.

(** ... and on undirected column-wise offset boards unless their height has the parity of the
    offset. *)
Theorem C82_columns :
  forall b w h N E (m : mode), fits w h -> 2 <= w -> 1 <= h -> h mod 2 <> co_q b ->
  let s := hex_offset_q b w h in let G := rect_code_geometry hexq_axes s w h in
  forall (g : LatticeGraph Cell AxisQ AxisDQ N E) nf ef, Built m s G g nf ef ->
  forall T (U : UFOps T), UFOK U ->
  connected_components U (node_bound m g) (to_index m g) (edge_references g)
    (edge_references_next m g) (fun e => Ok (er_source e)) (fun e => Ok (er_target e))
    = Fail FPanic.
Proof. exact c82_columns. Qed.
Print Assumptions C82_columns.

(** A board of doubled coordinates falls apart: what lies within the first [w] of its doubled
    columns hangs together (with a single column not even that), every other cell is alone. *)
Theorem C82_double :
  forall (N E : Type) (m : mode) (w h : Z), fits w h ->
  let G := double_code_geometry w h in
  forall (g : LatticeGraph Cell AxisR AxisDR N E) nf ef, Built m (double_shape w h) G g nf ef ->
  forall T (U : UFOps T), UFOK U ->
  connected_components U (node_bound m g) (to_index m g) (edge_references g)
    (edge_references_next m g) (fun e => Ok (er_source e)) (fun e => Ok (er_target e))
    = Ok (if w =? 1 then Z.of_nat (length (geo_nodes G))
          else match geo_nodes G with
               | [] => 0
               | _ => 1 + Z.of_nat (length (filter (fun c => w <=? fst c) (geo_nodes G)))
               end).
Proof. exact (@c82_double). Qed.
Print Assumptions C82_double.

Example C82_double_case :
  fits 4 3 /\ Built Debug (double_shape 4 3) (double_code_geometry 4 3)
    (demo (double_shape 4 3) Debug) demo_node (demo_edge (double_shape 4 3)) /\
  UFOK label_uf /\
  filter (fun c => 4 <=? fst c) (geo_nodes (double_code_geometry 4 3))
    = [(4, 0); (5, 1); (4, 2); (6, 0); (7, 1); (6, 2)].
Proof.
  split; [apply fits_small; lia|]. split; [apply demo_stored, db_ok|]. split; [exact label_uf_ok|].
  vm_compute. reflexivity.
Qed.

Example C82_more_case :
  let cc A D (g : LatticeGraph Cell A D Z Z) m :=
    connected_components label_uf (node_bound m g) (to_index m g) (edge_references g)
      (edge_references_next m g) (fun e => Ok (er_source e)) (fun e => Ok (er_target e)) in
  UFOK label_uf /\
  (Stored al alG /\ Built Debug al alG (demo al Debug) demo_node (demo_edge al) /\
   cc _ _ (demo al Debug) Debug = Fail FPanic /\ cc _ _ (demo al Release) Release = Fail FPanic) /\
  (fits 3 4 /\ 4 mod 2 <> co_q EvenQ /\
   cc _ _ (demo (hex_offset_q EvenQ 3 4) Debug) Debug = Fail FPanic).
Proof.
  cbv zeta. split; [exact label_uf_ok|]. split.
  - split; [exact al_ok|]. split; [apply demo_stored, al_ok|].
    split; vm_compute; reflexivity.
  - split; [apply fits_small; lia|]. split; [vm_compute; congruence|]. vm_compute; reflexivity.
Qed.
