(** * Properties3: [SquareGraph] (C40-C52, C53 again, C58-C62, C70, C71).

    [sq_size S h v]: a board of this size can be made; [sq_index_fits ix h v]: the index type
    has room for its sides; [SqBuilt m h v g nf ef]: [g] is the outcome of [new_with] or [new_raw] followed
    by any writes and exchanges of arrays for others of the same size, [nf] and [ef] being the
    weights it should hold.  All of these and the
    expected adjacency are defined in SpecSquare.v without reference to the code's own
    arithmetic.  Every theorem holds for all four loop markers, index types, sizes and both
    build modes unless it says otherwise. *)

From Coq Require Import Permutation.
From Verif Require Import Machine Store Axes Shapes Lattice Spec SquareGraph SpecSquare
  SquareProofs SquareMain SquareCompare SquareQuirks Demo SquareDemo.

(** ** C40 *)

(** The closures are called once per node and edge, in the order of [sq_calls], with the
    state left by the call before; the weight of each is what its call returned. *)
Theorem C40_new_with :
  forall (N E : Type) (ix : IxType) (S : LoopShape) (St : Type)
    (fn : St -> NodeIndex -> N * St) (fe : St -> NodeIndex -> SqAxis -> E * St)
    (m : mode) (h v : Z) (st : St), sq_size S h v ->
  exists g : SquareGraph N E ix S,
    sg_new_with m h v (node_fun fn) (edge_fun fe) st
      = Ok (g, state_after fn fe (sq_calls S h v) st) /\
    horizontal_node_count g = h /\ vertical_node_count g = v /\ sg_node_count g = h * v /\
    nrows (sg_horizontal g) = edge_columns S h /\ ncols (sg_horizontal g) = v /\
    nrows (sg_vertical g) = h /\ ncols (sg_vertical g) = edge_rows S v /\
    (forall l1 n l2, sq_calls S h v = l1 ++ CallNode n :: l2 ->
       sg_node_weight g n = Some (fst (fn (state_after fn fe l1 st) n))) /\
    (forall l1 n a l2, sq_calls S h v = l1 ++ CallEdge n a :: l2 ->
       sg_edge_weight g (n, a) = Some (fst (fe (state_after fn fe l1 st) n a))).
Proof. exact (@c40). Qed.
Print Assumptions C40_new_with.

Theorem C40_calls :
  forall (S : LoopShape) (h v : Z),
  NoDup (sq_calls S h v) /\
  (forall n, In (CallNode n) (sq_calls S h v) <-> on_board h v n) /\
  (forall n a, In (CallEdge n a) (sq_calls S h v) <-> sq_edge_exists S h v (n, a)).
Proof. exact (@c40_calls). Qed.
Print Assumptions C40_calls.

Theorem C40_refuses :
  forall (N E : Type) (ix : IxType) (S : LoopShape) (St : Type)
    (fn : St -> NodeIndex -> N * St) (fe : St -> NodeIndex -> SqAxis -> E * St)
    (m : mode) (h v : Z) (st : St), is_usize h -> is_usize v -> ~ sq_size S h v ->
  sg_new_with (ix := ix) (S := S) m h v (node_fun fn) (edge_fun fe) st = Fail FPanic.
Proof. exact (@new_with_panics). Qed.
Print Assumptions C40_refuses.

(** The weights of any outcome of [new_with] are functions of the position, so that the
    theorems about [SqBuilt] apply to it. *)
Theorem C40_built :
  forall (N E : Type) (ix : IxType) (S : LoopShape) (St : Type)
    (fn : St -> NodeIndex -> N * St) (fe : St -> NodeIndex -> SqAxis -> E * St)
    (m : mode) (h v : Z) (st : St) (g : SquareGraph N E ix S) (st' : St), sq_size S h v ->
  sg_new_with m h v (node_fun fn) (edge_fun fe) st = Ok (g, st') ->
  exists nf ef, SqBuilt m h v g nf ef.
Proof. exact (@c40_pure). Qed.
Print Assumptions C40_built.

Theorem C40_new :
  forall (N E : Type) (ix : IxType) (S : LoopShape) (m : mode) (h v : Z) (dn : N) (de : E),
  sq_size S h v ->
  exists g : SquareGraph N E ix S,
    sg_new m h v dn de = Ok g /\ SqBuilt m h v g (fun _ => dn) (fun _ => de).
Proof. exact (@c40_default). Qed.
Print Assumptions C40_new.

Theorem C40_new_edge_graph :
  forall (E : Type) (ix : IxType) (S : LoopShape) (St : Type)
    (fe : St -> NodeIndex -> SqAxis -> E * St) (m : mode) (h v : Z) (st : St), sq_size S h v ->
  exists g : SquareGraph unit E ix S,
    sg_new_edge_graph m h v (edge_fun fe) st
      = Ok (g, state_after (fun st _ => (tt, st)) fe (sq_calls S h v) st) /\
    (forall n, on_board h v n -> sg_node_weight g n = Some tt) /\
    (forall l1 n a l2, sq_calls S h v = l1 ++ CallEdge n a :: l2 ->
       sg_edge_weight g (n, a)
         = Some (fst (fe (state_after (fun st _ => (tt, st)) fe l1 st) n a))).
Proof. exact (@c40_edge_graph). Qed.
Print Assumptions C40_new_edge_graph.

(** A looped board, with closures that number their calls. *)
Example C40_case :
  sq_size HorizontalLoop 2 1 /\
  (exists g : SquareGraph Z Z IxU32 HorizontalLoop,
     sg_new_with Debug 2 1 (node_fun (fun k _ => (k, k + 1)))
       (edge_fun (fun k _ _ => (k, k + 1))) 0 = Ok (g, 4) /\
     sg_node_weight g (1, 0) = Some 1 /\ sg_edge_weight g ((1, 0), Horizontal) = Some 3) /\
  ~ sq_size HVLoop 0 5 /\ ~ sq_size DefaultShape 5 0 /\ sq_size VerticalLoop 5 0.
Proof.
  split; [sq_size|]. split; [eexists; vm_compute; auto|]. split; [sq_size|].
  split; [sq_size|sq_size].
Qed.

(** ** C41 *)

Theorem C41_node_weights :
  forall (N E : Type) (ix : IxType) (S : LoopShape) (m : mode) (h v : Z), sq_size S h v ->
  forall (g : SquareGraph N E ix S) nf ef, SqBuilt m h v g nf ef ->
  forall n, (on_board h v n -> sg_node_weight g n = Some (nf n)) /\
    (~ on_board h v n -> sg_node_weight g n = None).
Proof. exact (@c41_node). Qed.
Print Assumptions C41_node_weights.

Theorem C41_edge_weights :
  forall (N E : Type) (ix : IxType) (S : LoopShape) (m : mode) (h v : Z), sq_size S h v ->
  forall (g : SquareGraph N E ix S) nf ef, SqBuilt m h v g nf ef ->
  forall e, (sq_edge_exists S h v e -> sg_edge_weight g e = Some (ef e)) /\
    (~ sq_edge_exists S h v e -> sg_edge_weight g e = None).
Proof. exact (@c41_edge). Qed.
Print Assumptions C41_edge_weights.

Example C41_case :
  sq_size HorizontalLoop 3 2 /\ SqBuilt Debug 3 2 hl sq_node sq_edge /\
  sg_node_weight hl (2, 1) = Some 21 /\ sg_node_weight hl (3, 0) = None /\
  sg_edge_weight hl ((2, 1), Horizontal) = Some 121 /\
  sg_edge_weight hl ((2, 1), Vertical) = None.
Proof. split; [exact hl_size|]. split; [exact hl_built|]. vm_compute. auto. Qed.

(** ** C42 *)

Theorem C42_bijection :
  forall (N E : Type) (ix : IxType) (S : LoopShape) (m : mode) (h v : Z),
  sq_size S h v -> sq_index_fits ix h v ->
  forall (g : SquareGraph N E ix S) nf ef, SqBuilt m h v g nf ef ->
  sg_node_bound g = h * v /\ sg_node_count g = h * v /\
  (forall n, on_board h v n ->
     exists i, sg_to_index m g n = Ok i /\ 0 <= i < sg_node_bound g /\
       sg_from_index g i = Ok n) /\
  (forall i, 0 <= i < sg_node_bound g ->
     exists n, sg_from_index g i = Ok n /\ on_board h v n /\ sg_to_index m g n = Ok i).
Proof. exact (@c42). Qed.
Print Assumptions C42_bijection.

Example C42_case :
  sq_index_fits IxU8 3 2 /\ sg_to_index Debug hl (2, 1) = Ok 5 /\
  sg_from_index hl 5 = Ok (2, 1).
Proof. split; [exact hl_fits|]. vm_compute. auto. Qed.

(** ** C43 *)

Theorem C43_identifiers_partial :
  forall (N E : Type) (ix : IxType) (S : LoopShape) (m : mode) (h v : Z),
  sq_size S h v -> sq_index_fits ix h v ->
  forall (g : SquareGraph N E ix S) nf ef, SqBuilt m h v g nf ef -> 1 <= v ->
  Drains (sg_node_indices_next (ix := ix) m) (sg_node_identifiers g) (sq_nodes h v) /\
  (forall l it, Consumed (sg_node_indices_next (ix := ix) m) (sg_node_identifiers g) l it ->
     exists rest, sq_nodes h v = l ++ rest /\
       sg_node_indices_size_hint m it
         = Ok (Z.of_nat (length rest), Some (Z.of_nat (length rest)))).
Proof. exact (@c43_identifiers). Qed.
Print Assumptions C43_identifiers_partial.

Theorem C43_order :
  forall (N E : Type) (ix : IxType) (S : LoopShape) (m : mode) (h v : Z), sq_size S h v ->
  forall (g : SquareGraph N E ix S) nf ef, SqBuilt m h v g nf ef ->
  NoDup (sq_nodes h v) /\ (forall n, In n (sq_nodes h v) <-> on_board h v n) /\
  (forall i n, nth_error (sq_nodes h v) i = Some n -> sg_to_index m g n = Ok (Z.of_nat i)).
Proof. exact (@c43_order). Qed.
Print Assumptions C43_order.

Theorem C43_references :
  forall (N E : Type) (ix : IxType) (S : LoopShape) (m : mode) (h v : Z),
  sq_size S h v -> sq_index_fits ix h v ->
  forall (g : SquareGraph N E ix S) nf ef, SqBuilt m h v g nf ef ->
  Drains (sg_node_references_next (ix := ix) m) (sg_node_references g)
    (map (fun n => (n, nf n)) (sq_nodes h v)) /\
  (forall l it, Consumed (sg_node_references_next (ix := ix) m) (sg_node_references g) l it ->
     exists rest, map (fun n => (n, nf n)) (sq_nodes h v) = l ++ rest /\
       sg_node_references_size_hint it
         = (Z.of_nat (length rest), Some (Z.of_nat (length rest)))).
Proof. exact (@c43_references). Qed.
Print Assumptions C43_references.

(** On a board without rows (possible when it is looped vertically) there are no nodes, but
    [node_identifiers] yields one for every column but the first. *)
Theorem C43_no_rows_refuted :
  forall (N E : Type) (ix : IxType) (S : LoopShape) (m : mode) (h v : Z),
  sq_size S h v -> sq_index_fits ix h v ->
  forall (g : SquareGraph N E ix S) nf ef, SqBuilt m h v g nf ef -> v = 0 ->
  Drains (sg_node_indices_next (ix := ix) m) (sg_node_identifiers g)
    (map (fun x => (1 + x, 0)) (zrange (h - 1))).
Proof. exact (@c43_no_rows). Qed.
Print Assumptions C43_no_rows_refuted.

Theorem C43_refuted :
  exists (g : SquareGraph Z Z IxU32 VerticalLoop) nf ef it,
  SqBuilt Debug 3 0 g nf ef /\ sg_node_count g = 0 /\
  sg_node_indices_next (ix := IxU32) Debug (sg_node_identifiers g) = Ok (Some (1, 0), it) /\
  sg_node_indices_size_hint Debug (sg_node_identifiers g) = Ok (0, Some 0) /\
  sg_node_indices_size_hint Debug it = Fail FPanic.
Proof. exact c43_refuted. Qed.
Print Assumptions C43_refuted.

Example C43_case :
  SqBuilt Debug 3 2 hl sq_node sq_edge /\
  collect (sg_node_indices_next (ix := IxU8) Debug) 10 (sg_node_identifiers hl)
    = Ok [(0, 0); (0, 1); (1, 0); (1, 1); (2, 0); (2, 1)] /\
  collect (sg_node_references_next (ix := IxU8) Debug) 10 (sg_node_references hl)
    = Ok [((0, 0), 0); ((0, 1), 1); ((1, 0), 10); ((1, 1), 11); ((2, 0), 20); ((2, 1), 21)].
Proof. split; [exact hl_built|]. vm_compute. auto. Qed.

(** ** C44 *)

Theorem C44_neighbors :
  forall (N E : Type) (ix : IxType) (S : LoopShape) (m : mode) (h v : Z),
  sq_size S h v -> sq_index_fits ix h v ->
  forall (g : SquareGraph N E ix S) nf ef, SqBuilt m h v g nf ef ->
  forall n, on_board h v n ->
  Drains (sg_neighbors_next (ix := ix) (S := S) m) (sg_neighbors g n) (sq_neighbours S h v n) /\
  (forall l it, Consumed (sg_neighbors_next (ix := ix) (S := S) m) (sg_neighbors g n) l it ->
     exists rest u, sq_neighbours S h v n = l ++ rest /\
       sg_neighbors_size_hint m it = Ok (0, Some u) /\ Z.of_nat (length rest) <= u).
Proof. exact (@c44). Qed.
Print Assumptions C44_neighbors.

Example C44_case :
  on_board 3 2 (0, 1) /\
  collect (sg_neighbors_next (ix := IxU8) (S := HorizontalLoop) Debug) 10
    (sg_neighbors hl (0, 1)) = Ok [(2, 1); (1, 1); (0, 0)] /\
  sq_neighbours HorizontalLoop 3 2 (0, 1) = [(2, 1); (1, 1); (0, 0)].
Proof. split; [unfold on_board; cbn; lia|]. vm_compute. auto. Qed.

(** ** C45 *)

Theorem C45_edges :
  forall (N E : Type) (ix : IxType) (S : LoopShape) (m : mode) (h v : Z),
  sq_size S h v -> sq_index_fits ix h v ->
  forall (g : SquareGraph N E ix S) nf ef, SqBuilt m h v g nf ef ->
  forall n, on_board h v n ->
  exists l, Drains (sg_edges_next m g) (sg_edges g n) l /\
    map (sq_view ix S m) l = map Ok (sq_edges_of S h v ef n) /\
    (forall l1 it, Consumed (sg_edges_next m g) (sg_edges g n) l1 it ->
       exists rest u, l = l1 ++ rest /\
         sg_edges_size_hint m it = Ok (0, Some u) /\ Z.of_nat (length rest) <= u).
Proof. exact (@c45). Qed.
Print Assumptions C45_edges.

Theorem C45_targets :
  forall (E : Type) (S : LoopShape) (h v : Z) (ef : EdgeIndex -> E) (n : NodeIndex),
  map snd (sq_edges_of S h v ef n) = sq_neighbours S h v n.
Proof. exact (@c45_targets). Qed.
Print Assumptions C45_targets.

Theorem C45_weights :
  forall (N E : Type) (ix : IxType) (S : LoopShape) (m : mode) (h v : Z), sq_size S h v ->
  forall (g : SquareGraph N E ix S) nf ef, SqBuilt m h v g nf ef ->
  forall n id w s t, on_board h v n -> In (id, w, s, t) (sq_edges_of S h v ef n) ->
  s = n /\ sg_edge_weight g id = Some w.
Proof. exact (@c45_weights). Qed.
Print Assumptions C45_weights.

Theorem C45_back :
  forall (E : Type) (S : LoopShape) (h v : Z) (ef : EdgeIndex -> E) n id w t,
  on_board h v n -> In (id, w, n, t) (sq_edges_of S h v ef n) ->
  on_board h v t /\ In (id, w, t, n) (sq_edges_of S h v ef t).
Proof. exact (@c45_back). Qed.
Print Assumptions C45_back.

Example C45_case :
  (exists l, collect (sg_edges_next Debug hl) 10 (sg_edges hl (2, 1)) = Ok l /\
     map (sq_view IxU8 HorizontalLoop Debug) l = map Ok
       [(((1, 1), Horizontal), 111, (2, 1), (1, 1));
        (((2, 1), Horizontal), 121, (2, 1), (0, 1));
        (((2, 0), Vertical), 220, (2, 1), (2, 0))]) /\
  In (((2, 1), Horizontal), 121, (0, 1), (2, 1)) (sq_edges_of HorizontalLoop 3 2 sq_edge (0, 1)).
Proof.
  split; [eexists; split; [vm_compute; reflexivity|vm_compute; reflexivity]|].
  vm_compute. auto.
Qed.

(** ** C46 *)

Theorem C46_edge_references :
  forall (N E : Type) (ix : IxType) (S : LoopShape) (m : mode) (h v : Z),
  sq_size S h v -> sq_index_fits ix h v ->
  forall (g : SquareGraph N E ix S) nf ef, SqBuilt m h v g nf ef ->
  exists l, Drains (sg_edge_references_next m g) (sg_edge_references g) l /\
    map (sq_view ix S m) l = map Ok (sq_all_edges S h v ef).
Proof. exact (@c46). Qed.
Print Assumptions C46_edge_references.

Theorem C46_each :
  forall (N E : Type) (ix : IxType) (S : LoopShape) (m : mode) (h v : Z), sq_size S h v ->
  forall (g : SquareGraph N E ix S) nf ef, SqBuilt m h v g nf ef ->
  forall e w s t, In (e, w, s, t) (sq_all_edges S h v ef) <->
    sq_edge_exists S h v e /\ sg_edge_weight g e = Some w /\
    s = fst e /\ sq_neighbour S h v (fst e) (Foward (snd e)) = Some t.
Proof. exact (@c46_each). Qed.
Print Assumptions C46_each.

Theorem C46_once :
  forall (E : Type) (S : LoopShape) (h v : Z) (ef : EdgeIndex -> E),
  NoDup (map view_id (sq_all_edges S h v ef)).
Proof. exact (@c46_once). Qed.
Print Assumptions C46_once.

Theorem C46_count :
  forall (E : Type) (S : LoopShape) (h v : Z), sq_size S h v ->
  forall ef : EdgeIndex -> E,
  Z.of_nat (length (sq_all_edges S h v ef)) = edge_columns S h * v + h * edge_rows S v.
Proof. exact (@c46_count). Qed.
Print Assumptions C46_count.

Example C46_case :
  exists l, collect (sg_edge_references_next Debug hl) 20 (sg_edge_references hl) = Ok l /\
    length l = 9%nat /\
    option_map (sq_view IxU8 HorizontalLoop Debug) (nth_error l 6)
      = Some (Ok (((2, 0), Horizontal), 120, (2, 0), (0, 0))).
Proof. eexists. split; [vm_compute; reflexivity|]. vm_compute. auto. Qed.

(** ** C47 *)

Theorem C47_partial :
  forall (N E : Type) (ix : IxType) (S : LoopShape) (m : mode) (h v : Z),
  sq_size S h v -> sq_index_fits ix h v ->
  forall (g : SquareGraph N E ix S) nf ef, SqBuilt m h v g nf ef ->
  forall n d, on_board h v n -> ~ forward_wrap S h v n d ->
  match sq_edge_view S h v ef n d with
  | Some x =>
      exists r, get_edge_reference m g n d = Ok (Some r) /\ sq_view ix S m r = Ok x /\
        get_edge_id m g n d
          = Ok (Some (view_id x, match d with Foward _ => true | Backward _ => false end))
  | None => get_edge_reference m g n d = Ok None /\ get_edge_id m g n d = Ok None
  end.
Proof. exact (@c47). Qed.
Print Assumptions C47_partial.

(** In every case left out by [C47_partial] the functions report the next edge instead, the
    one that leads from the neighbour onwards. *)
Theorem C47_wrap_refuted :
  forall (N E : Type) (ix : IxType) (S : LoopShape) (m : mode) (h v : Z),
  sq_size S h v -> sq_index_fits ix h v ->
  forall (g : SquareGraph N E ix S) nf ef, SqBuilt m h v g nf ef ->
  forall n d, on_board h v n -> forward_wrap S h v n d ->
  exists t x r, sq_neighbour S h v n d = Some t /\ t <> n /\
    sq_edge_view S h v ef t d = Some x /\
    get_edge_reference m g n d = Ok (Some r) /\ sq_view ix S m r = Ok x /\
    get_edge_id m g n d = Ok (Some (view_id x, true)).
Proof. exact (@c47_wrap). Qed.
Print Assumptions C47_wrap_refuted.

Theorem C47_refuted :
  exists (g : SquareGraph Z Z IxU8 HorizontalLoop) nf ef r x t,
  SqBuilt Debug 3 2 g nf ef /\
  sq_neighbour HorizontalLoop 3 2 (2, 1) (Foward Horizontal) = Some t /\
  get_edge_reference Debug g (2, 1) (Foward Horizontal) = Ok (Some r) /\
  sq_view IxU8 HorizontalLoop Debug r = Ok x /\
  x = (((0, 1), Horizontal), 101, (0, 1), (1, 1)) /\
  sq_edge_view HorizontalLoop 3 2 ef (2, 1) (Foward Horizontal)
    = Some (((2, 1), Horizontal), 121, (2, 1), (0, 1)).
Proof. exact c47_refuted. Qed.
Print Assumptions C47_refuted.

Example C47_case :
  ~ forward_wrap HorizontalLoop 3 2 (0, 1) (Backward Horizontal) /\
  get_edge_id Debug hl (0, 1) (Backward Horizontal) = Ok (Some (((2, 1), Horizontal), false)) /\
  sq_edge_view HorizontalLoop 3 2 sq_edge (0, 1) (Backward Horizontal)
    = Some (((2, 1), Horizontal), 121, (0, 1), (2, 1)) /\
  forward_wrap HorizontalLoop 3 2 (2, 1) (Foward Horizontal).
Proof. split; [intros []|]. vm_compute. repeat split; congruence. Qed.

(** ** C48 *)

Theorem C48_partial :
  forall (N E : Type) (ix : IxType) (S : LoopShape) (m : mode) (h v : Z),
  sq_size S h v -> sq_index_fits ix h v ->
  forall (g : SquareGraph N E ix S) nf ef, SqBuilt m h v g nf ef ->
  forall n d, on_board h v n -> exists o, get_edge_reference m g n d = Ok o.
Proof. exact (@c48). Qed.
Print Assumptions C48_partial.

(** A node index that is not on the board makes this safe function read out of bounds. *)
Theorem C48_refuted :
  exists (g : SquareGraph Z Z IxU32 DefaultShape) nf ef n,
  SqBuilt Release 3 2 g nf ef /\
  get_edge_reference Release g n (Backward Vertical) = Fail FUB.
Proof. exact c48_refuted. Qed.
Print Assumptions C48_refuted.

(** On every board, any index beyond the first one outside does that. *)
Theorem C48_off_board_refuted :
  forall (N E : Type) (ix : IxType) (S : LoopShape) (m : mode) (h v : Z), sq_size S h v ->
  forall (g : SquareGraph N E ix S) nf ef, SqBuilt m h v g nf ef ->
  forall n, is_index ix n ->
  (h < fst n ->
   get_edge_reference m g n (Backward Horizontal) = Fail (out_of_bounds m)) /\
  (v < snd n -> get_edge_reference m g n (Backward Vertical) = Fail (out_of_bounds m)).
Proof. exact (@c48_off). Qed.
Print Assumptions C48_off_board_refuted.

Example C48_case :
  is_index IxU32 (4, 1) /\ on_board 3 2 (2, 1) /\
  get_edge_reference Debug ds (2, 1) (Backward Vertical)
    = Ok (Some (mkSqRef ((2, 0), Vertical) 220 false (None, None))).
Proof.
  split; [unfold is_index; cbn; lia|]. split; [unfold on_board; cbn; lia|]. vm_compute. auto.
Qed.

(** ** C49 *)

Theorem C49_metric :
  forall (m : mode) a b c, small_index a -> small_index b -> small_index c ->
  exists ab ac cb, ni_distance m a b = Ok ab /\ ni_distance m b a = Ok ab /\
    (ab = 0 <-> a = b) /\
    ni_distance m a c = Ok ac /\ ni_distance m c b = Ok cb /\ ab <= ac + cb.
Proof. exact (@c49_metric). Qed.
Print Assumptions C49_metric.

Theorem C49_shortest_path :
  forall (N E : Type) (ix : IxType) (S : LoopShape) (m : mode) (h v : Z),
  sq_size S h v -> sq_index_fits ix h v ->
  forall (g : SquareGraph N E ix S) nf ef, SqBuilt m h v g nf ef ->
  forall a b, on_board h v a -> on_board h v b ->
  exists k, ni_distance m a b = Ok (Z.of_nat k) /\ SqPath m g k a b /\
    (S = DefaultShape -> forall k', SqPath m g k' a b -> (k <= k')%nat).
Proof. exact (@c49). Qed.
Print Assumptions C49_shortest_path.

Example C49_case :
  small_index (0, 1) /\ small_index (2, 0) /\ on_board 3 2 (0, 1) /\ on_board 3 2 (2, 0) /\
  ni_distance Debug (0, 1) (2, 0) = Ok 3.
Proof. unfold small_index, on_board. cbn. repeat split; lia. Qed.

(** ** C50 *)

Theorem C50_visit_map :
  forall (N E : Type) (ix : IxType) (S : LoopShape) (m : mode) (h v : Z), sq_size S h v ->
  forall (g : SquareGraph N E ix S) nf ef, SqBuilt m h v g nf ef ->
  forall ops, Forall (sq_visit_allowed h v) ops ->
  exists vm, sq_visit_run g (sg_visit_map g) ops
    = Ok (visit_spec_run (sq_nodes h v) [] ops, vm).
Proof. exact (@c50). Qed.
Print Assumptions C50_visit_map.

Theorem C50_off_board :
  forall (N E : Type) (ix : IxType) (S : LoopShape) (m : mode) (h v : Z), sq_size S h v ->
  forall (g : SquareGraph N E ix S) nf ef, SqBuilt m h v g nf ef ->
  forall ops, Forall (sq_visit_allowed h v) ops ->
  exists vm, sq_visit_run g (sg_visit_map g) ops
    = Ok (visit_spec_run (sq_nodes h v) [] ops, vm) /\
  forall n, ~ on_board h v n ->
    svm_visit vm n = Fail FPanic /\ svm_unvisit vm n = Fail FPanic /\
    svm_is_visited vm n = if (0 <=? fst n) && (fst n <? h) then Ok false else Fail FPanic.
Proof. exact (@c50_off). Qed.
Print Assumptions C50_off_board.

(** C24 for [SquareGraph]: [unvisit] returns true for every position, marked or not. *)
Theorem C24_square_unvisit_partial :
  forall (N E : Type) (ix : IxType) (S : LoopShape) (m : mode) (h v : Z), sq_size S h v ->
  forall (g : SquareGraph N E ix S) nf ef, SqBuilt m h v g nf ef ->
  forall ops, Forall (sq_visit_allowed h v) ops ->
  exists vm, sq_visit_run g (sg_visit_map g) ops
    = Ok (visit_spec_run (sq_nodes h v) [] ops, vm) /\
  forall n, on_board h v n ->
    (exists vm', svm_unvisit vm n = Ok (true, vm')) /\
    svm_is_visited vm n = Ok (mem n (marked_after (sq_nodes h v) [] ops)).
Proof. exact (@c24_square). Qed.
Print Assumptions C24_square_unvisit_partial.

Example C50_case :
  Forall (sq_visit_allowed 3 2) [Visit (2, 1); Visit (2, 1); IsVisited (2, 0); Unvisit (2, 1); IsVisited (2, 1)] /\
  visit_spec_run (sq_nodes 3 2) [] [Visit (2, 1); Visit (2, 1); IsVisited (2, 0); Unvisit (2, 1); IsVisited (2, 1)]
    = [Some true; Some false; Some false; None; Some false].
Proof.
  split; [|vm_compute; auto].
  repeat constructor; cbn; lia.
Qed.

(** ** C51 *)

(** With [C41] and the other theorems about [SqBuilt], every accessor shows the weights
    [nf'] and [ef'] afterwards. *)
Theorem C51_writes :
  forall (N E : Type) (ix : IxType) (S : LoopShape) (m : mode) (h v : Z), sq_size S h v ->
  forall (g : SquareGraph N E ix S) nf ef, SqBuilt m h v g nf ef ->
  forall ops, let '(answers, nf', ef') := sq_write_spec S h v nf ef ops in
  exists g', sq_write_run g ops = (answers, g') /\ SqBuilt m h v g' nf' ef'.
Proof. exact (@c51). Qed.
Print Assumptions C51_writes.

Example C51_case :
  let ops := [SqWriteNode (2, 1) (fun _ => 7); SqWriteEdge ((0, 0), Vertical) (fun w => w + 1);
              SqWriteEdge ((0, 1), Vertical) (fun w => w + 1)] in
  let '(answers, nf', ef') := sq_write_spec HorizontalLoop 3 2 sq_node sq_edge ops in
  answers = [true; true; false] /\ nf' (2, 1) = 7 /\ nf' (2, 0) = 20 /\
  ef' ((0, 0), Vertical) = 201 /\ ef' ((0, 0), Horizontal) = 100.
Proof. vm_compute. auto. Qed.

(** ** C52 *)

Theorem C52_weights :
  forall (N E : Type) (ix : IxType) (m : mode) (h v : Z), sq_size DefaultShape h v ->
  forall (g1 : SquareGraph N E ix DefaultShape)
    (g2 : LatticeGraph Cell SquareAxis DirectedSquareAxis N E) nf ef,
  SqBuilt m h v g1 nf ef ->
  Built m (square_shape h v) (square_geometry square_axes h v) g2 nf
    (fun c a => ef (c, new_axis a)) ->
  (forall n, 0 <= fst n < 2 ^ 64 -> 0 <= snd n < 2 ^ 64 ->
     node_weight m g2 n = Ok (sg_node_weight g1 n) /\
     (forall a, edge_weight m g2 (n, a) = Ok (sg_edge_weight g1 (n, new_axis a)))) /\
  node_count m g2 = Ok (sg_node_count g1) /\
  (forall n, on_board h v n -> to_index m g2 n = sg_to_index m g1 n).
Proof. exact (@c52_weights). Qed.
Print Assumptions C52_weights.

Theorem C52_neighbors :
  forall (N E : Type) (ix : IxType) (m : mode) (h v : Z),
  sq_size DefaultShape h v -> sq_index_fits ix h v ->
  forall (g1 : SquareGraph N E ix DefaultShape)
    (g2 : LatticeGraph Cell SquareAxis DirectedSquareAxis N E) nf ef,
  SqBuilt m h v g1 nf ef ->
  Built m (square_shape h v) (square_geometry square_axes h v) g2 nf
    (fun c a => ef (c, new_axis a)) ->
  forall n, on_board h v n ->
  exists l1 l2,
    Drains (sg_neighbors_next (ix := ix) (S := DefaultShape) m) (sg_neighbors g1 n) l1 /\
    Drains (neighbors_next m g2 n) (neighbors g2 n) l2 /\ Permutation l1 l2.
Proof. exact (@c52_neighbors). Qed.
Print Assumptions C52_neighbors.

Theorem C52_edges :
  forall (N E : Type) (ix : IxType) (m : mode) (h v : Z),
  sq_size DefaultShape h v -> sq_index_fits ix h v ->
  forall (g1 : SquareGraph N E ix DefaultShape)
    (g2 : LatticeGraph Cell SquareAxis DirectedSquareAxis N E) nf ef,
  SqBuilt m h v g1 nf ef ->
  Built m (square_shape h v) (square_geometry square_axes h v) g2 nf
    (fun c a => ef (c, new_axis a)) ->
  forall n, on_board h v n ->
  exists l1 x1 it2 l2,
    Drains (sg_edges_next m g1) (sg_edges g1 n) l1 /\
    map (sq_view ix DefaultShape m) l1 = map Ok x1 /\
    edges m g2 n = Ok it2 /\ Drains (edges_next m g2) it2 l2 /\
    Permutation (map plain_view x1)
      (map (fun r => (er_source r, er_target r, er_weight r)) l2).
Proof. exact (@c52_edges). Qed.
Print Assumptions C52_edges.

Example C52_case :
  sq_size DefaultShape 3 2 /\ SqBuilt Debug 3 2 ds sq_node sq_edge /\
  Built Debug (square_shape 3 2) (square_geometry square_axes 3 2) sq_successor sq_node
    (fun c a => sq_edge (c, new_axis a)) /\
  edge_weight Debug sq_successor ((1, 1), SX) = Ok (Some 111) /\
  sg_edge_weight ds ((1, 1), Horizontal) = Some 111.
Proof.
  split; [exact ds_size|]. split; [exact ds_built|]. split; [exact sq_successor_built|].
  vm_compute. auto.
Qed.

(** ** C53 for [SquareGraph] *)

Theorem C53_square_graph :
  forall (N E : Type) (ix : IxType) (S : LoopShape) (m : mode) (h v : Z),
  sq_size S h v -> sq_index_fits ix h v ->
  forall (g : SquareGraph N E ix S) nf ef, SqBuilt m h v g nf ef ->
  forall a b, on_board h v a -> on_board h v b -> exists k, SqPath m g k a b.
Proof. exact (@c53_square). Qed.
Print Assumptions C53_square_graph.

Example C53_square_case :
  sq_size HorizontalLoop 3 2 /\ sq_index_fits IxU8 3 2 /\
  SqBuilt Debug 3 2 hl sq_node sq_edge /\ on_board 3 2 (0, 0) /\ on_board 3 2 (2, 1).
Proof.
  split; [exact hl_size|]. split; [exact hl_fits|]. split; [exact hl_built|].
  unfold on_board; cbn; lia.
Qed.

(** ** C58 *)

(** Exchanging arrays for others of the same size, or writing into them, is safe. *)
Theorem C58_partial :
  forall (N E : Type) (ix : IxType) (S : LoopShape) (m : mode) (h v : Z),
  sq_size S h v -> sq_index_fits ix h v ->
  forall (g : SquareGraph N E ix S) nf ef, SqBuilt m h v g nf ef ->
  forall fn fh fv, same_size (fn (sg_nodes g)) (sg_nodes g) ->
  same_size (fh (sg_horizontal g)) (sg_horizontal g) ->
  same_size (fv (sg_vertical g)) (sg_vertical g) ->
  let g' := vertical_mut (horizontal_mut (nodes_mut g fn) fh) fv in
  (forall n, on_board h v n -> exists l, Drains (sg_edges_next m g') (sg_edges g' n) l) /\
  exists l, Drains (sg_edge_references_next m g') (sg_edge_references g') l.
Proof. exact (@c58_same_size). Qed.
Print Assumptions C58_partial.

(** [edge_references] is safe whatever the edge arrays are exchanged for. *)
Theorem C58_edge_references :
  forall (N E : Type) (ix : IxType) (S : LoopShape) (m : mode) (h v : Z),
  sq_size S h v -> sq_index_fits ix h v ->
  forall (g : SquareGraph N E ix S) nf ef, SqBuilt m h v g nf ef ->
  forall fh fv, let g' := vertical_mut (horizontal_mut g fh) fv in
  exists l, Drains (sg_edge_references_next m g') (sg_edge_references g') l.
Proof. exact (@c58_references). Qed.
Print Assumptions C58_edge_references.

(** Replacing the array of horizontal edges, which [horizontal_mut] allows in safe code. *)
Theorem C58_refuted :
  exists (g : SquareGraph Z Z IxU32 DefaultShape) nf ef,
  SqBuilt Release 3 2 g nf ef /\
  sg_edges_next Release (horizontal_mut g (fun _ => mkArray2 0 0 [])) (sg_edges g (0, 0))
    = Fail FUB.
Proof. exact c58_refuted. Qed.
Print Assumptions C58_refuted.

(** On every board, the exchange for an array that lacks an edge makes [edges] of the node
    before it read out of bounds. *)
Theorem C58_horizontal_refuted :
  forall (N E : Type) (ix : IxType) (S : LoopShape) (m : mode) (h v : Z),
  sq_size S h v -> sq_index_fits ix h v ->
  forall (g : SquareGraph N E ix S) nf ef, SqBuilt m h v g nf ef ->
  forall f x y, sq_edge_exists S h v ((x, y), Horizontal) ->
  array_get (f (sg_horizontal g)) x y = None ->
  Breaks (sg_edges_next m (horizontal_mut g f)) (sg_edges (horizontal_mut g f) (x, y))
    (out_of_bounds m).
Proof. exact (@c58_horizontal). Qed.
Print Assumptions C58_horizontal_refuted.

Theorem C58_vertical_refuted :
  forall (N E : Type) (ix : IxType) (S : LoopShape) (m : mode) (h v : Z),
  sq_size S h v -> sq_index_fits ix h v ->
  forall (g : SquareGraph N E ix S) nf ef, SqBuilt m h v g nf ef ->
  forall f x y, sq_edge_exists S h v ((x, y), Vertical) ->
  array_get (f (sg_vertical g)) x y = None ->
  Breaks (sg_edges_next m (vertical_mut g f)) (sg_edges (vertical_mut g f) (x, y))
    (out_of_bounds m).
Proof. exact (@c58_vertical). Qed.
Print Assumptions C58_vertical_refuted.

Example C58_case :
  same_size (mkArray2 3 2 [7; 7; 7; 7; 7; 7]) (sg_nodes ds) /\
  sq_edge_exists DefaultShape 3 2 ((1, 1), Horizontal) /\
  sq_edge_exists DefaultShape 3 2 ((2, 0), Vertical) /\
  array_get (mkArray2 1 2 [7; 7]) 1 1 = None /\ array_get (mkArray2 2 1 [7; 7]) 2 0 = None.
Proof.
  split; [repeat split|]. split; [split; [unfold on_board; cbn; lia|cbn; congruence]|].
  split; [split; [unfold on_board; cbn; lia|cbn; congruence]|]. auto.
Qed.

(** ** C59 *)

(** How [distance] compares with the length [k] of a shortest path: it is never less, and
    the same unless a looped axis is shorter the other way round. *)
Theorem C59_partial :
  forall (N E : Type) (ix : IxType) (S : LoopShape) (m : mode) (h v : Z),
  sq_size S h v -> sq_index_fits ix h v ->
  forall (g : SquareGraph N E ix S) nf ef, SqBuilt m h v g nf ef ->
  forall a b, on_board h v a -> on_board h v b ->
  exists d k, ni_distance m a b = Ok d /\ sq_shortest m g a b k /\ k <= d /\
    (k = d <-> ~ (loops_h S = true /\ h < 2 * Z.abs (fst a - fst b)) /\
               ~ (loops_v S = true /\ v < 2 * Z.abs (snd a - snd b))).
Proof. exact (@c59_all). Qed.
Print Assumptions C59_partial.

Theorem C59_refuted :
  exists (g : SquareGraph Z Z IxU8 HorizontalLoop) nf ef a b,
  SqBuilt Debug 3 2 g nf ef /\ SqPath Debug g 1 a b /\ ni_distance Debug a b = Ok 2.
Proof. exact c59_refuted. Qed.
Print Assumptions C59_refuted.

(** Every board with at least three positions around a loop has such a pair. *)
Theorem C59_looped_refuted :
  forall (N E : Type) (ix : IxType) (S : LoopShape) (m : mode) (h v : Z),
  sq_size S h v -> sq_index_fits ix h v ->
  forall (g : SquareGraph N E ix S) nf ef, SqBuilt m h v g nf ef ->
  loops_h S = true /\ 3 <= h /\ 1 <= v \/ loops_v S = true /\ 3 <= v ->
  exists a b d k, on_board h v a /\ on_board h v b /\ ni_distance m a b = Ok d /\
    SqPath m g k a b /\ Z.of_nat k < d.
Proof. exact (@c59_looped). Qed.
Print Assumptions C59_looped_refuted.

Example C59_case :
  sq_size HorizontalLoop 3 2 /\ sq_index_fits IxU8 3 2 /\
  SqBuilt Debug 3 2 hl sq_node sq_edge /\ on_board 3 2 (0, 0) /\ on_board 3 2 (1, 1) /\
  loops_h HorizontalLoop = true /\ ~ 3 < 2 * Z.abs (0 - 1).
Proof.
  split; [exact hl_size|]. split; [exact hl_fits|]. split; [exact hl_built|].
  unfold on_board; cbn; lia.
Qed.

(** ** C60 *)

(** 257 columns with 8-bit indices: the last column has the name of the first. *)
Theorem C60_refuted :
  exists (g : SquareGraph Z Z IxU8 DefaultShape) nf ef l,
  SqBuilt Debug 257 1 g nf ef /\
  collect (sg_node_indices_next (ix := IxU8) Debug) 300 (sg_node_identifiers g) = Ok l /\
  nth_error l 0 = Some (0, 0) /\ nth_error l 256 = Some (0, 0) /\
  sg_from_index g 256 = Ok (0, 0) /\ sg_to_index Debug g (0, 0) = Ok 0.
Proof. exact c60_refuted. Qed.
Print Assumptions C60_refuted.

(** Every board with rows: the identifiers are as many as the nodes, and differ from each
    other exactly when the board fits its index type.  (By [C40_new_with] the board is
    built in either case.) *)
Theorem C60_duplicates_refuted :
  forall (N E : Type) (ix : IxType) (S : LoopShape) (m : mode) (h v : Z), sq_size S h v ->
  forall (g : SquareGraph N E ix S) nf ef, SqBuilt m h v g nf ef -> 1 <= v ->
  exists l, Drains (sg_node_indices_next (ix := ix) m) (sg_node_identifiers g) l /\
    Z.of_nat (length l) = sg_node_count g /\ (NoDup l <-> sq_index_fits ix h v).
Proof. exact (@c60_all). Qed.
Print Assumptions C60_duplicates_refuted.

Example C60_case :
  sq_size DefaultShape 300 2 /\ ~ sq_index_fits IxU8 300 2 /\ sq_index_fits IxU16 300 2.
Proof. split; [sq_size|]. unfold sq_index_fits. cbn. lia. Qed.

(** ** C61 *)

Theorem C61_refuted :
  exists (g : SquareGraph Z Z IxU32 DefaultShape) nf ef n,
  SqBuilt Release 3 2 g nf ef /\ sg_edges_next Release g (sg_edges g n) = Fail FUB.
Proof. exact c61_refuted. Qed.
Print Assumptions C61_refuted.

(** It happens on every board and at every position outside. *)
Theorem C61_off_board_refuted :
  forall (N E : Type) (ix : IxType) (S : LoopShape) (m : mode) (h v : Z), sq_size S h v ->
  forall (g : SquareGraph N E ix S) nf ef, SqBuilt m h v g nf ef ->
  forall n, is_index ix n -> ~ on_board h v n ->
  Breaks (sg_edges_next m g) (sg_edges g n) (out_of_bounds m).
Proof. exact (@c61_all). Qed.
Print Assumptions C61_off_board_refuted.

Example C61_case :
  is_index IxU8 (3, 1) /\ ~ on_board 3 2 (3, 1) /\
  exists r it, sg_edges_next Release hl (sg_edges hl (3, 1)) = Ok (Some r, it) /\
    sg_edges_next Release hl it = Fail FUB.
Proof.
  split; [unfold is_index; cbn; lia|]. split; [unfold on_board; cbn; lia|].
  eexists _, _. split; [vm_compute; reflexivity|]. vm_compute. auto.
Qed.

(** ** C62 *)

Theorem C62_refuted :
  exists (g : SquareGraph Z Z IxU32 DefaultShape) nf ef it,
  SqBuilt Debug 3 2 g nf ef /\ ~ on_board 3 2 (3, 0) /\
  sg_neighbors_next (ix := IxU32) (S := DefaultShape) Debug (sg_neighbors g (3, 0))
    = Ok (Some (2, 0), it).
Proof. exact c62_refuted. Qed.
Print Assumptions C62_refuted.

(** No position but the origin is without neighbours. *)
Theorem C62_off_board_refuted :
  forall (N E : Type) (ix : IxType) (S : LoopShape) (m : mode) (h v : Z), sq_size S h v ->
  forall (g : SquareGraph N E ix S) nf ef, SqBuilt m h v g nf ef ->
  forall n, is_index ix n -> n <> (0, 0) ->
  exists t it,
    sg_neighbors_next (ix := ix) (S := S) m (sg_neighbors g n) = Ok (Some t, it).
Proof. exact (@c62_all). Qed.
Print Assumptions C62_off_board_refuted.

Example C62_case :
  is_index IxU32 (0, 7) /\ ~ on_board 3 2 (0, 7) /\ sq_size DefaultShape 3 2 /\
  SqBuilt Debug 3 2 ds sq_node sq_edge.
Proof.
  split; [unfold is_index; cbn; lia|]. split; [unfold on_board; cbn; lia|].
  split; [exact ds_size|exact ds_built].
Qed.

(** ** C70 *)

(** The edge of a node in a direction, computed from the node alone. *)
Theorem C70_edge_of_direction :
  forall (ix : IxType) (S : LoopShape) (m : mode) (h v : Z),
  sq_size S h v -> sq_index_fits ix h v ->
  forall n d t, on_board h v n -> sq_neighbour S h v n d = Some t ->
  (forall a, d = Backward a -> t = vadd n (sq_dir_vec d)) ->
  ni_get_edge_id_unchecked ix m n d = Ok (sq_edge_name n d t).
Proof. exact (@c70_edge). Qed.
Print Assumptions C70_edge_of_direction.

(** Backwards from the first column or row there is none: it panics, or without debug
    assertions wraps around the index type. *)
Theorem C70_rim :
  forall (ix : IxType) n, is_index ix n ->
  (fst n = 0 ->
   ni_get_edge_id_unchecked ix Debug n sd_left = Fail FPanic /\
   ni_get_edge_id_unchecked ix Release n sd_left
     = Ok ((ix_size ix - 1, snd n), Horizontal)) /\
  (snd n = 0 ->
   ni_get_edge_id_unchecked ix Debug n sd_down = Fail FPanic /\
   ni_get_edge_id_unchecked ix Release n sd_down
     = Ok ((fst n, ix_size ix - 1), Vertical)).
Proof. exact (@c70_rim). Qed.
Print Assumptions C70_rim.

(** The named directions and the steps of the same names agree. *)
Theorem C70_steps :
  forall (ix : IxType) (S : LoopShape) (m : mode) (h v : Z),
  sq_size S h v -> sq_index_fits ix h v ->
  forall d vec f n t,
  In (d, vec, f) [(sd_up, (0, 1), ni_up ix m); (sd_down, (0, -1), ni_down ix m);
                  (sd_left, (-1, 0), ni_left ix m); (sd_right, (1, 0), ni_right ix m)] ->
  on_board h v n -> t = vadd n vec -> on_board h v t ->
  sq_neighbour S h v n d = Some t /\ f n = Ok t.
Proof. exact (@c70_step). Qed.
Print Assumptions C70_steps.

Theorem C70_pairs :
  forall d p,
  sd_of_pair (sd_to_pair d) = d /\ sd_to_pair (sd_of_pair p) = p /\
  sq_dir_vec d = (let (a, forward) := sd_to_pair d in
                  if forward then sq_axis_vec a else vneg (sq_axis_vec a)) /\
  (sd_is_horizontal d = true <-> snd (sq_dir_vec d) = 0) /\
  (sd_is_vertical d = true <-> fst (sq_dir_vec d) = 0).
Proof. exact (@c70_pairs). Qed.
Print Assumptions C70_pairs.

Example C70_case :
  on_board 3 2 (2, 1) /\ on_board 3 2 (2, 0) /\
  sq_neighbour HVLoop 3 2 (2, 1) sd_down = Some (2, 0) /\
  (2, 0) = vadd (2, 1) (sq_dir_vec sd_down) /\
  ni_get_edge_id_unchecked IxU8 Debug (2, 1) sd_down = Ok ((2, 0), Vertical) /\
  sq_neighbour HVLoop 3 2 (2, 1) sd_right = Some (0, 1) /\
  ni_get_edge_id_unchecked IxU8 Debug (2, 1) sd_right = Ok ((2, 1), Horizontal).
Proof. split; [unfold on_board; cbn; lia|]. split; [unfold on_board; cbn; lia|]. vm_compute. auto. Qed.

(** ** C71 *)

(** Arrays of matching sizes are accepted; that the graph satisfies [SqBuilt] makes every
    theorem of this file apply to it. *)
Theorem C71_accepts :
  forall (N E : Type) (ix : IxType) (S : LoopShape) (m : mode) (h v : Z)
    (na : Array2 N) (ha va : Array2 E) nf ef, sq_size S h v ->
  is_array na h v -> is_array ha (edge_columns S h) v -> is_array va h (edge_rows S v) ->
  (forall x y w, array_get na x y = Some w -> nf (x, y) = w) ->
  (forall x y w, array_get ha x y = Some w -> ef ((x, y), Horizontal) = w) ->
  (forall x y w, array_get va x y = Some w -> ef ((x, y), Vertical) = w) ->
  exists g : SquareGraph N E ix S, new_raw m na ha va = Ok g /\ SqBuilt m h v g nf ef.
Proof. exact (@c71_accepts). Qed.
Print Assumptions C71_accepts.

(** With debug assertions all other arrays are refused; without, none. *)
Theorem C71_checks :
  forall (N E : Type) (ix : IxType) (S : LoopShape) (na : Array2 N) (ha va : Array2 E),
  0 <= nrows ha < 2 ^ 63 -> 0 <= ncols va < 2 ^ 63 ->
  new_raw (ix := ix) (S := S) Debug na ha va =
    (if (nrows ha =? edge_columns S (nrows na)) && (ncols ha =? ncols na) &&
        (nrows va =? nrows na) && (ncols va =? edge_rows S (ncols na))
     then Ok (mkSquare na ha va) else Fail FPanic) /\
  new_raw (ix := ix) (S := S) Release na ha va = Ok (mkSquare na ha va).
Proof. exact (@c71_checks). Qed.
Print Assumptions C71_checks.

Example C71_case :
  is_array (mkArray2 2 3 [1; 2; 3; 4; 5; 6]) 2 3 /\
  is_array (mkArray2 2 3 [1; 2; 3; 4; 5; 6]) (edge_columns HorizontalLoop 2) 3 /\
  is_array (mkArray2 2 2 [1; 2; 3; 4]) 2 (edge_rows HorizontalLoop 3) /\
  edge_columns DefaultShape 2 <> 2.
Proof. unfold is_array. cbn. repeat split; congruence. Qed.
