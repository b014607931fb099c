(** * Properties1: lattice graphs (C01-C26, C36, C39).

    [Stored s G] (Spec.v) lists all shapes of the crate, [Supported s G] those that
    implement a lattice, and [Traversable s G] those on which [edges] reads no missing
    slot.  For the other shapes an edge exists where the shape's own [move_coord] answers
    a coordinate.  [Built m s G g nf ef] says that [g] was
    built on shape [s] and then changed by any number of writes, with [nf] and [ef] the
    weights it should hold now.  [locatable m G c] excludes only coordinates so large
    that locating them overflows in a debug build (see C21). *)

From Verif Require Import Machine Store Axes Shapes Lattice Spec Main1 Main2 Demo.

(** ** C01 *)

Theorem C01_node_weights :
  forall (A D N E : Type) (m : mode) (s : Shape Cell A D) (G : Geometry A D), Stored s G ->
  forall (nf : Cell -> N) (ef : Cell -> A -> E), exists g,
    new_with s (fun st c => (nf c, st)) (fun st c a => (ef c a, st)) m tt = Ok (g, tt) /\
    (forall c, In c (geo_nodes G) -> node_weight m g c = Ok (Some (nf c))) /\
    (forall c, locatable m G c -> ~ In c (geo_nodes G) -> node_weight m g c = Ok None).
Proof. intros A D N E m s G STO. exact (c01 STO). Qed.
Print Assumptions C01_node_weights.

Example C01_case : Supported hd hdG /\
  geo_nodes hdG = [(0, 0); (-1, 1); (-1, 2); (1, 0); (0, 1); (0, 2); (2, 0); (1, 1); (1, 2)] /\
  node_weight Debug (demo hd Debug) (-1, 2) = Ok (Some (-8)) /\
  node_weight Debug (demo hd Debug) (-1, 0) = Ok None /\
  Stored db dbG /\ node_weight Debug (demo db Debug) (3, 1) = Ok (Some 31).
Proof.
  split; [exact hd_ok|]. split; [reflexivity|]. split; [reflexivity|]. split; [reflexivity|].
  split; [exact db_ok|reflexivity].
Qed.

(** ** C02 *)

Theorem C02_edge_weights :
  forall (A D N E : Type) (m : mode) (s : Shape Cell A D) (G : Geometry A D), Stored s G ->
  forall (nf : Cell -> N) (ef : Cell -> A -> E), exists g,
    new_with s (fun st c => (nf c, st)) (fun st c a => (ef c a, st)) m tt = Ok (g, tt) /\
    (forall c a, edge_exists G c a -> edge_weight m g (c, a) = Ok (Some (ef c a))) /\
    (forall c a, locatable m G c -> ~ edge_exists G c a -> edge_weight m g (c, a) = Ok None).
Proof. intros A D N E m s G STO. exact (c02 STO). Qed.
Print Assumptions C02_edge_weights.

Example C02_case : Supported hx hxG /\ edge_exists hxG (1, 1) ANE /\ ~ edge_exists hxG (2, 1) ANE /\
  edge_weight Debug (demo hx Debug) ((1, 1), ANE) = Ok (Some 1110) /\
  edge_weight Debug (demo hx Debug) ((2, 1), ANE) = Ok None.
Proof.
  split; [exact hx_ok|]. split; [split; [vm_compute; tauto|vm_compute; discriminate]|].
  split; [intros [_ H]; vm_compute in H; congruence|]. vm_compute. auto.
Qed.

(** ** C03 *)

Theorem C03_construction :
  forall (A D N E : Type) (m : mode) (s : Shape Cell A D) (G : Geometry A D), Stored s G ->
  forall St (n : St -> Cell -> N * St) (e : St -> Cell -> A -> E * St) st,
  exists g st', new_with s n e m st = Ok (g, st') /\
    node_count m g = Ok (sh_horizontal s * sh_vertical s) /\
    Z.of_nat (length (geo_nodes G)) = sh_horizontal s * sh_vertical s.
Proof. intros A D N E m s G STO. exact (c03_ok STO). Qed.
Print Assumptions C03_construction.

(** Every shape, also those that are not [Supported]. *)
Theorem C03_refusal :
  forall (C A D N E St : Type) (s : Shape C A D) (n : St -> C -> N * St)
    (e : St -> C -> A -> E * St) (m : mode) (st : St),
  0 <= sh_horizontal s -> 0 <= sh_vertical s -> ~ fits (sh_horizontal s) (sh_vertical s) ->
  new_with s n e m st = Fail FPanic.
Proof. exact c03_panic. Qed.
Print Assumptions C03_refusal.

Example C03_case : Supported sq sqG /\ node_count Debug (demo sq Debug) = Ok 6 /\
  ~ fits (sh_horizontal (square_shape (2 ^ 32) (2 ^ 31)))
         (sh_vertical (square_shape (2 ^ 32) (2 ^ 31))).
Proof.
  split; [exact sq_ok|]. split; [reflexivity|]. intros (_ & _ & H). vm_compute in H. discriminate.
Qed.

(** ** C04 *)

Theorem C04_protocol :
  forall (A D N E : Type) (m : mode) (s : Shape Cell A D) (G : Geometry A D), Stored s G ->
  forall St (n : St -> Cell -> N * St) (e : St -> Cell -> A -> E * St) st,
  exists g, new_with s n e m st = Ok (g, state_after n e (spec_calls G) st) /\
    (forall l1 c l2, spec_calls G = l1 ++ CallNode c :: l2 ->
       node_weight m g c = Ok (Some (fst (n (state_after n e l1 st) c)))) /\
    (forall l1 c a l2, spec_calls G = l1 ++ CallEdge c a :: l2 ->
       edge_weight m g (c, a) = Ok (Some (fst (e (state_after n e l1 st) c a)))).
Proof. intros A D N E m s G STO. exact (c04 STO). Qed.
Print Assumptions C04_protocol.

Theorem C04_each_once :
  forall (A D : Type) (s : Shape Cell A D) (G : Geometry A D), Stored s G ->
  NoDup (spec_calls G) /\
  (forall c, In (CallNode c) (spec_calls G) <-> In c (geo_nodes G)) /\
  (forall c a, In (CallEdge c a) (spec_calls G) <-> edge_exists G c a).
Proof. intros A D s G STO. exact (c04_calls STO). Qed.
Print Assumptions C04_each_once.

(** Stateful closures make no graph that pure ones could not make, so that all theorems
    about [Built] graphs apply to graphs made with stateful closures. *)
Theorem C04_stateful :
  forall (A D N E : Type) (m : mode) (s : Shape Cell A D) (G : Geometry A D), Stored s G ->
  forall St (n : St -> Cell -> N * St) (e : St -> Cell -> A -> E * St) st g st',
  new_with s n e m st = Ok (g, st') ->
  exists nf ef, new_with s (fun u c => (nf c, u)) (fun u c a => (ef c a, u)) m tt = Ok (g, tt).
Proof. intros A D N E m s G STO. exact (stateful_pure STO). Qed.
Print Assumptions C04_stateful.

(** A closure that records its calls. *)
Example C04_case : Supported hx hxG /\
  match new_with (N := Z) (E := Z) hx (fun st c => (st, st + 1)) (fun st c a => (st, st + 1)) Debug 0 with
  | Ok (g, n) => n = 25 /\ node_weight Debug g (0, 1) = Ok (Some 3) /\
      edge_weight Debug g ((0, 1), AE) = Ok (Some 5)
  | Fail _ => False
  end /\
  firstn 6 (spec_calls hxG) =
    [CallNode (0, 0); CallEdge (0, 0) ANE; CallEdge (0, 0) AE;
     CallNode (0, 1); CallEdge (0, 1) ANE; CallEdge (0, 1) AE].
Proof. split; [exact hx_ok|]. vm_compute. auto. Qed.

(** ** C05 *)

Theorem C05_index :
  forall (A D N E : Type) (m : mode) (s : Shape Cell A D) (G : Geometry A D), Stored s G ->
  forall (g : LatticeGraph Cell A D N E) nf ef, Built m s G g nf ef ->
  node_bound m g = Ok (Z.of_nat (length (geo_nodes G))) /\
  node_count m g = Ok (Z.of_nat (length (geo_nodes G))) /\
  NoDup (geo_nodes G) /\
  (forall i c, nth_error (geo_nodes G) i = Some c ->
     to_index m g c = Ok (Z.of_nat i) /\ from_index m g (Z.of_nat i) = Ok c).
Proof. intros A D N E m s G STO. exact (c05 STO). Qed.
Print Assumptions C05_index.

(** [to_index] of a coordinate that is not on the board panics. *)
Theorem C05_off_board :
  forall (A D N E : Type) (m : mode) (s : Shape Cell A D) (G : Geometry A D), Stored s G ->
  forall (g : LatticeGraph Cell A D N E) nf ef c, Built m s G g nf ef ->
  locatable m G c -> ~ In c (geo_nodes G) -> to_index m g c = Fail FPanic.
Proof. intros A D N E m s G STO. exact (c05_off_board STO). Qed.
Print Assumptions C05_off_board.

Example C05_case : Built Debug hd hdG (demo hd Debug) demo_node (demo_edge hd) /\
  nth_error (geo_nodes hdG) 5 = Some (0, 2) /\
  to_index Debug (demo hd Debug) (0, 2) = Ok 5 /\ from_index Debug (demo hd Debug) 5 = Ok (0, 2) /\
  locatable Debug hdG (9, 9) /\ ~ In (9, 9) (geo_nodes hdG).
Proof.
  split; [apply demo_built, hd_ok|]. split; [reflexivity|]. split; [reflexivity|].
  split; [reflexivity|]. split.
  - split; [cbn; lia|]. cbn. lia.
  - vm_compute. intuition discriminate.
Qed.

(** ** C06 *)

Theorem C06_node_identifiers :
  forall (A D N E : Type) (m : mode) (s : Shape Cell A D) (G : Geometry A D), Stored s G ->
  forall (g : LatticeGraph Cell A D N E) nf ef, Built m s G g nf ef ->
  Drains (node_indices_next m (g_s g)) (node_identifiers g) (geo_nodes G).
Proof. intros A D N E m s G STO. exact (c06 STO). Qed.
Print Assumptions C06_node_identifiers.

Example C06_case : Built Release lp lpG (demo lp Release) demo_node (demo_edge lp) /\
  collect (node_indices_next Release lp) 10 (node_identifiers (demo lp Release))
    = Ok [(0, 0); (0, 1); (1, 0); (1, 1); (2, 0); (2, 1)].
Proof. split; [apply demo_built, lp_ok|reflexivity]. Qed.

(** ** C07 *)

Theorem C07_node_references :
  forall (A D N E : Type) (m : mode) (s : Shape Cell A D) (G : Geometry A D), Stored s G ->
  forall (g : LatticeGraph Cell A D N E) nf ef, Built m s G g nf ef ->
  Drains (node_references_next m g) (node_references g) (map (fun c => (c, nf c)) (geo_nodes G)).
Proof. intros A D N E m s G STO. exact (c07 STO). Qed.
Print Assumptions C07_node_references.

Example C07_case : Built Debug sq sqG (demo sq Debug) demo_node (demo_edge sq) /\
  collect (node_references_next Debug (demo sq Debug)) 10 (node_references (demo sq Debug))
    = Ok [((0, 0), 0); ((0, 1), 1); ((1, 0), 10); ((1, 1), 11); ((2, 0), 20); ((2, 1), 21)].
Proof. split; [apply demo_built, sq_ok|reflexivity]. Qed.

(** ** C08

    Full statement: the same also for [node_references].  That half is false: the
    iterator claims [ExactSizeIterator] but has no [size_hint], so [len] panics. *)

Theorem C08_exact_size_partial :
  forall (A D N E : Type) (m : mode) (s : Shape Cell A D) (G : Geometry A D), Stored s G ->
  forall (g : LatticeGraph Cell A D N E) nf ef l it, Built m s G g nf ef ->
  Consumed (node_indices_next m (g_s g)) (node_identifiers g) l it ->
  exists rest, geo_nodes G = l ++ rest /\
    Drains (node_indices_next m (g_s g)) it rest /\
    node_indices_size_hint m (g_s g) it
      = Ok (Z.of_nat (length rest), Some (Z.of_nat (length rest))) /\
    exact_len (node_indices_size_hint m (g_s g) it) = Ok (Z.of_nat (length rest)).
Proof. intros A D N E m s G STO. exact (c08 STO). Qed.
Print Assumptions C08_exact_size_partial.

Theorem C08_node_references_refuted : exists (g : LatticeGraph Cell _ _ Z Z) nf ef,
  Built Debug sq sqG g nf ef /\
  Drains (node_references_next Debug g) (node_references g)
    (map (fun c => (c, nf c)) (geo_nodes sqG)) /\
  length (geo_nodes sqG) = 6%nat /\
  exact_len (node_references_size_hint (node_references g)) = Fail FPanic.
Proof.
  exact (ex_intro _ (demo sq Debug) (ex_intro _ demo_node (ex_intro _ (demo_edge sq)
    (conj (demo_built _ _ _ _ _ sq_ok)
    (conj (c07 (st_supported _ _ _ _ sq_ok) _ _ _ (demo_built _ _ _ _ _ sq_ok)) (conj eq_refl eq_refl)))))).
Qed.
Print Assumptions C08_node_references_refuted.

(** Of [node_references] the hint is at least never wrong, but [len] panics at every point. *)
Theorem C08_node_references_hint_partial :
  forall (A D N E : Type) (m : mode) (s : Shape Cell A D) (G : Geometry A D), Stored s G ->
  forall (g : LatticeGraph Cell A D N E) nf ef l it, Built m s G g nf ef ->
  Consumed (node_references_next m g) (node_references g) l it ->
  exists rest lower, map (fun c => (c, nf c)) (geo_nodes G) = l ++ rest /\
    Drains (node_references_next m g) it rest /\
    node_references_size_hint it = Ok (lower, None) /\ 0 <= lower <= Z.of_nat (length rest) /\
    exact_len (node_references_size_hint it) = Fail FPanic.
Proof. intros A D N E m s G STO. exact (c08_references STO). Qed.
Print Assumptions C08_node_references_hint_partial.

Example C08_references_case :
  Consumed (node_references_next Debug (demo sq Debug)) (node_references (demo sq Debug))
    [((0, 0), 0); ((0, 1), 1)] 2.
Proof. repeat (econstructor; [reflexivity|]). constructor. Qed.

Example C08_case :
  Consumed (node_indices_next Debug sq) (node_identifiers (demo sq Debug)) [(0, 0); (0, 1)] 2.
Proof. repeat (econstructor; [reflexivity|]). constructor. Qed.

(** ** C09 *)

Theorem C09_neighbors :
  forall (A D N E : Type) (m : mode) (s : Shape Cell A D) (G : Geometry A D), Supported s G ->
  forall (g : LatticeGraph Cell A D N E) nf ef c dir, Built m s G g nf ef -> In c (geo_nodes G) ->
  Drains (neighbors_next m g c) (neighbors g c) (spec_neighbors G c) /\
  Drains (neighbors_next m g c) (neighbors_directed g c dir) (spec_neighbors G c).
Proof. intros A D N E m s G SUP. exact (c09 (st_supported _ _ _ _ SUP)). Qed.
Print Assumptions C09_neighbors.

Example C09_case :
  Built Debug hx hxG (demo hx Debug) demo_node (demo_edge hx) /\ In (1, 1) (geo_nodes hxG) /\
  collect (neighbors_next Debug (demo hx Debug) (1, 1)) 10 (neighbors (demo hx Debug) (1, 1))
    = Ok [(2, 2); (2, 1); (2, 0); (1, 0); (0, 1); (1, 2)] /\
  Built Debug lp lpG (demo lp Debug) demo_node (demo_edge lp) /\ In (2, 1) (geo_nodes lpG) /\
  collect (neighbors_next Debug (demo lp Debug) (2, 1)) 10 (neighbors (demo lp Debug) (2, 1))
    = Ok [(0, 1); (0, 0); (2, 0); (1, 1)].
Proof.
  split; [apply demo_built, hx_ok|]. split; [vm_compute; tauto|]. split; [reflexivity|].
  split; [apply demo_built, lp_ok|]. split; [vm_compute; tauto|]. reflexivity.
Qed.

(** ** C10 *)

Theorem C10_symmetric :
  forall (A D N E : Type) (m : mode) (s : Shape Cell A D) (G : Geometry A D), Supported s G ->
  forall (g : LatticeGraph Cell A D N E) nf ef a b la lb, Built m s G g nf ef ->
  In a (geo_nodes G) -> In b (geo_nodes G) ->
  Drains (neighbors_next m g a) (neighbors g a) la ->
  Drains (neighbors_next m g b) (neighbors g b) lb ->
  (In b la <-> In a lb).
Proof. intros A D N E m s G SUP. exact (c10 SUP). Qed.
Print Assumptions C10_symmetric.

Example C10_case : Supported lp lpG /\ In (0, 0) (geo_nodes lpG) /\ In (2, 0) (geo_nodes lpG) /\
  In (2, 0) (spec_neighbors lpG (0, 0)) /\ In (0, 0) (spec_neighbors lpG (2, 0)) /\
  ~ In (2, 1) (spec_neighbors lpG (1, 0)).
Proof. split; [exact lp_ok|]. vm_compute. intuition discriminate. Qed.

(** ** C11 *)

Theorem C11_is_adjacent :
  forall (A D N E : Type) (m : mode) (s : Shape Cell A D) (G : Geometry A D), Supported s G ->
  forall (g : LatticeGraph Cell A D N E) nf ef a b, Built m s G g nf ef -> In a (geo_nodes G) ->
  exists l r o, Drains (neighbors_next m g a) (neighbors g a) l /\
    is_adjacent m g a b = Ok r /\ sh_is_neighbor s m a b = Ok r /\
    (r = true <-> In b l) /\
    sh_get_direction s m a b = Ok o /\
    match o with
    | Some d => sh_move_coord s m a d = Ok (Some b)
    | None => ~ In b l
    end.
Proof. intros A D N E m s G SUP. exact (c11 SUP). Qed.
Print Assumptions C11_is_adjacent.

Example C11_case : Built Debug lp lpG (demo lp Debug) demo_node (demo_edge lp) /\
  is_adjacent Debug (demo lp Debug) (0, 0) (2, 0) = Ok true /\
  sh_get_direction lp Debug (0, 0) (2, 0) = Ok (Some RW) /\
  is_adjacent Debug (demo lp Debug) (0, 0) (7, 3) = Ok false.
Proof. split; [apply demo_built, lp_ok|]. vm_compute. auto. Qed.

(** ** C12 *)

Theorem C12_edges :
  forall (A D N E : Type) (m : mode) (s : Shape Cell A D) (G : Geometry A D), Traversable s G ->
  forall (g : LatticeGraph Cell A D N E) nf ef c, Built m s G g nf ef -> In c (geo_nodes G) ->
  exists it, edges m g c = Ok it /\ Drains (edges_next m g) it (spec_edges G ef c).
Proof. intros A D N E m s G TR. exact (c12 TR). Qed.
Print Assumptions C12_edges.

(** The edges of [c] lead from [c] to the neighbours of [c], in the same order. *)
Theorem C12_targets :
  forall (A D N E : Type) (m : mode) (s : Shape Cell A D) (G : Geometry A D), Traversable s G ->
  forall (g : LatticeGraph Cell A D N E) nf ef c it l ln, Built m s G g nf ef ->
  In c (geo_nodes G) -> edges m g c = Ok it -> Drains (edges_next m g) it l ->
  Drains (neighbors_next m g c) (neighbors g c) ln ->
  map er_target l = ln /\ Forall (fun r => er_source r = c) l.
Proof. intros A D N E m s G TR. exact (c12_targets TR). Qed.
Print Assumptions C12_targets.

Example C12_case : Built Debug sq sqG (demo sq Debug) demo_node (demo_edge sq) /\
  In (1, 0) (geo_nodes sqG) /\
  (let! it := edges Debug (demo sq Debug) (1, 0) in
   collect (edges_next Debug (demo sq Debug)) 10 it)
  = Ok [mkEdgeRef (1, 0) (2, 0) 1100 DX; mkEdgeRef (1, 0) (1, 1) 1101 DY;
        mkEdgeRef (1, 0) (0, 0) 1000 DRX].
Proof. split; [apply demo_built, sq_ok|]. split; [vm_compute; tauto|reflexivity]. Qed.

(** ** C13 *)

Theorem C13_shared_weight :
  forall (A D N E : Type) (m : mode) (s : Shape Cell A D) (G : Geometry A D), Supported s G ->
  forall (g : LatticeGraph Cell A D N E) nf ef a r it l, Built m s G g nf ef ->
  In a (geo_nodes G) -> ag_directed (geo_ax G) = false ->
  edges m g a = Ok it -> Drains (edges_next m g) it l -> In r l ->
  exists it' l' r', edges m g (er_target r) = Ok it' /\ Drains (edges_next m g) it' l' /\
    In r' l' /\ er_source r' = er_target r /\ er_target r' = er_source r /\
    er_weight r' = er_weight r /\
    opposite (geo_ax G) (er_direction r) (er_direction r').
Proof. intros A D N E m s G SUP. exact (c13 SUP). Qed.
Print Assumptions C13_shared_weight.

Example C13_case : Built Debug lp lpG (demo lp Debug) demo_node (demo_edge lp) /\
  ag_directed (geo_ax lpG) = false /\
  In (mkEdgeRef (2, 1) (0, 1) 1211 RE) (spec_edges lpG (demo_edge lp) (2, 1)) /\
  In (mkEdgeRef (0, 1) (2, 1) 1211 RW) (spec_edges lpG (demo_edge lp) (0, 1)).
Proof. split; [apply demo_built, lp_ok|]. vm_compute. tauto. Qed.

(** ** C14

    Full statement: for every reference [r] from [edges], [edges_directed] and
    [edge_references], [edge_weight] of [r]'s id is the weight of [r].  True for
    [edge_references], for the forward directions in [edges] and (on undirected graphs) for
    the backward directions in [edges_directed(_, Incoming)]; false for the others, because
    [id] always combines the source with the axis of the direction. *)

Theorem C14_edge_references_partial :
  forall (A D N E : Type) (m : mode) (s : Shape Cell A D) (G : Geometry A D), Stored s G ->
  forall (g : LatticeGraph Cell A D N E) nf ef l r, Built m s G g nf ef ->
  Drains (edge_references_next m g) (edge_references g) l -> In r l ->
  exists id, er_id m s r = Ok id /\ edge_weight m g id = Ok (Some (er_weight r)).
Proof. intros A D N E m s G STO. exact (c14_references_code STO). Qed.
Print Assumptions C14_edge_references_partial.

Theorem C14_edges_partial :
  forall (A D N E : Type) (m : mode) (s : Shape Cell A D) (G : Geometry A D), Traversable s G ->
  forall (g : LatticeGraph Cell A D N E) nf ef c it l r a, Built m s G g nf ef ->
  In c (geo_nodes G) -> edges m g c = Ok it -> Drains (edges_next m g) it l -> In r l ->
  er_direction r = ag_fwd (geo_ax G) a ->
  exists id, er_id m s r = Ok id /\ edge_weight m g id = Ok (Some (er_weight r)).
Proof. intros A D N E m s G TR. exact (c14_edges_code TR). Qed.
Print Assumptions C14_edges_partial.

Theorem C14_incoming_partial :
  forall (A D N E : Type) (m : mode) (s : Shape Cell A D) (G : Geometry A D), Supported s G ->
  forall (g : LatticeGraph Cell A D N E) nf ef c it l r a, Built m s G g nf ef ->
  In c (geo_nodes G) -> ag_directed (geo_ax G) = false ->
  edges_directed m g c Incoming = Ok it -> Drains (edges_next m g) it l -> In r l ->
  opposite (geo_ax G) (er_direction r) (ag_fwd (geo_ax G) a) ->
  exists id, er_id m s r = Ok id /\ edge_weight m g id = Ok (Some (er_weight r)).
Proof. intros A D N E m s G SUP. exact (c14_incoming_code SUP). Qed.
Print Assumptions C14_incoming_partial.

(** [edges] on an undirected graph: every reference in a backward direction has a wrong id
    (it names the forward edge of [c] itself), whatever the shape and the cell, as soon as
    the two edges have different weights. *)
Theorem C14_edges_refuted :
  forall (A D N E : Type) (m : mode) (s : Shape Cell A D) (G : Geometry A D), Traversable s G ->
  forall (g : LatticeGraph Cell A D N E) nf ef c it l r a, Built m s G g nf ef ->
  In c (geo_nodes G) -> ag_directed (geo_ax G) = false ->
  edges m g c = Ok it -> Drains (edges_next m g) it l -> In r l ->
  opposite (geo_ax G) (er_direction r) (ag_fwd (geo_ax G) a) ->
  ef (er_target r) a <> ef c a ->
  exists id, er_id m s r = Ok id /\ edge_weight m g id <> Ok (Some (er_weight r)).
Proof. intros A D N E m s G TR. exact (c14_backward TR). Qed.
Print Assumptions C14_edges_refuted.

(** [edges_directed(_, Incoming)] on an undirected graph, forward directions. *)
Theorem C14_incoming_refuted :
  forall (A D N E : Type) (m : mode) (s : Shape Cell A D) (G : Geometry A D), Supported s G ->
  forall (g : LatticeGraph Cell A D N E) nf ef c it l r a, Built m s G g nf ef ->
  In c (geo_nodes G) -> ag_directed (geo_ax G) = false ->
  edges_directed m g c Incoming = Ok it -> Drains (edges_next m g) it l -> In r l ->
  er_direction r = ag_fwd (geo_ax G) a ->
  ef (er_source r) a <> ef c a ->
  exists id, er_id m s r = Ok id /\ edge_weight m g id <> Ok (Some (er_weight r)).
Proof. intros A D N E m s G SUP. exact (c14_incoming_forward SUP). Qed.
Print Assumptions C14_incoming_refuted.

(** [edges_directed(_, Incoming)] on a directed graph (release build), every reference. *)
Theorem C14_incoming_directed_refuted :
  forall (A D N E : Type) (m : mode) (s : Shape Cell A D) (G : Geometry A D), Supported s G ->
  forall (g : LatticeGraph Cell A D N E) nf ef c it l r a, Built m s G g nf ef ->
  In c (geo_nodes G) -> ag_directed (geo_ax G) = true -> m = Release ->
  edges_directed m g c Incoming = Ok it -> Drains (edges_next m g) it l -> In r l ->
  er_direction r = ag_fwd (geo_ax G) a ->
  (forall b, opposite (geo_ax G) (ag_fwd (geo_ax G) a) (ag_fwd (geo_ax G) b) ->
    ef (er_source r) b <> ef (er_source r) a) ->
  exists id, er_id m s r = Ok id /\ edge_weight m g id <> Ok (Some (er_weight r)).
Proof. intros A D N E m s G SUP. exact (c14_incoming_directed SUP). Qed.
Print Assumptions C14_incoming_directed_refuted.

Example C14_case : Built Debug sq sqG (demo sq Debug) demo_node (demo_edge sq) /\
  collect (edge_references_next Debug (demo sq Debug)) 10 (edge_references (demo sq Debug))
    = Ok (spec_edge_references sqG (demo_edge sq)) /\
  In (mkEdgeRef (1, 0) (2, 0) 1100 DX) (spec_edge_references sqG (demo_edge sq)) /\
  (let! it := edges Debug (demo sq Debug) (1, 0) in
   collect (edges_next Debug (demo sq Debug)) 10 it)
    = Ok [mkEdgeRef (1, 0) (2, 0) 1100 DX; mkEdgeRef (1, 0) (1, 1) 1101 DY;
          mkEdgeRef (1, 0) (0, 0) 1000 DRX] /\
  (let! it := edges_directed Debug (demo sq Debug) (1, 0) Incoming in
   collect (edges_next Debug (demo sq Debug)) 10 it)
    = Ok [mkEdgeRef (2, 0) (1, 0) 1100 DX; mkEdgeRef (1, 1) (1, 0) 1101 DY;
          mkEdgeRef (0, 0) (1, 0) 1000 DRX].
Proof. split; [apply demo_built, sq_ok|]. vm_compute. tauto. Qed.

(** The reference from (1, 0) back to (0, 0) has weight 1000; its id names the edge from
    (1, 0) to (2, 0), of weight 1100.  The id of the incoming reference from (2, 0) names no
    edge.  On the directed hexagon board the incoming reference from (1, 0) to (0, 0) has the
    weight 1104 of the edge going west; its id names the one going east, of weight 1101. *)
Example C14_refuted_case :
  demo_edge sq (0, 0) SX <> demo_edge sq (1, 0) SX /\
  er_id Debug sq (mkEdgeRef (1, 0) (0, 0) 1000 DRX) = Ok ((1, 0), SX) /\
  edge_weight Debug (demo sq Debug) ((1, 0), SX) = Ok (Some 1100) /\
  er_id Debug sq (mkEdgeRef (2, 0) (1, 0) 1100 DX) = Ok ((2, 0), SX) /\
  edge_weight Debug (demo sq Debug) ((2, 0), SX) = Ok None /\
  ag_directed (geo_ax hdG) = true /\ Built Release hd hdG (demo hd Release) demo_node (demo_edge hd) /\
  (let! it := edges_directed Release (demo hd Release) (0, 0) Incoming in
   collect (edges_next Release (demo hd Release)) 10 it)
  = Ok [mkEdgeRef (0, 1) (0, 0) 1013 RNE; mkEdgeRef (1, 0) (0, 0) 1104 RE;
        mkEdgeRef (-1, 1) (0, 0) 912 RNW] /\
  (forall b, opposite (geo_ax hdG) (ag_fwd (geo_ax hdG) RE) (ag_fwd (geo_ax hdG) b) ->
    demo_edge hd (1, 0) b <> demo_edge hd (1, 0) RE) /\
  er_id Release hd (mkEdgeRef (1, 0) (0, 0) 1104 RE) = Ok ((1, 0), RE) /\
  edge_weight Release (demo hd Release) ((1, 0), RE) = Ok (Some 1101).
Proof.
  split; [discriminate|]. split; [reflexivity|]. split; [reflexivity|]. split; [reflexivity|].
  split; [reflexivity|]. split; [reflexivity|]. split; [apply demo_built, hd_ok|].
  split; [reflexivity|]. split; [intros []; vm_compute; discriminate|].
  split; reflexivity.
Qed.

(** ** C15 *)

Theorem C15_edge_references :
  forall (A D N E : Type) (m : mode) (s : Shape Cell A D) (G : Geometry A D), Stored s G ->
  forall (g : LatticeGraph Cell A D N E) nf ef, Built m s G g nf ef ->
  Drains (edge_references_next m g) (edge_references g) (spec_edge_references G ef).
Proof. intros A D N E m s G STO. exact (c15_drains STO). Qed.
Print Assumptions C15_edge_references.

Theorem C15_ids :
  forall (A D N E : Type) (m : mode) (s : Shape Cell A D) (G : Geometry A D), Stored s G ->
  forall (g : LatticeGraph Cell A D N E) nf ef l, Built m s G g nf ef ->
  Drains (edge_references_next m g) (edge_references g) l ->
  map (er_id m s) l = map Ok (spec_edge_names G).
Proof. intros A D N E m s G STO. exact (c15_ids STO). Qed.
Print Assumptions C15_ids.

Theorem C15_names_once :
  forall (A D : Type) (s : Shape Cell A D) (G : Geometry A D), Stored s G ->
  NoDup (spec_edge_names G).
Proof. intros A D s G STO. exact (spec_edge_names_nodup STO). Qed.
Print Assumptions C15_names_once.

Theorem C15_names_weights :
  forall (A D N E : Type) (m : mode) (s : Shape Cell A D) (G : Geometry A D), Stored s G ->
  forall (g : LatticeGraph Cell A D N E) nf ef c a, Built m s G g nf ef -> locatable m G c ->
  (In (c, a) (spec_edge_names G) <-> exists x, edge_weight m g (c, a) = Ok (Some x)).
Proof. intros A D N E m s G STO. exact (edge_names_weights STO). Qed.
Print Assumptions C15_names_weights.

Example C15_case : Built Debug sq sqG (demo sq Debug) demo_node (demo_edge sq) /\
  collect (edge_references_next Debug (demo sq Debug)) 10 (edge_references (demo sq Debug))
    = Ok (spec_edge_references sqG (demo_edge sq)) /\
  spec_edge_names sqG =
    [((0, 0), SX); ((0, 0), SY); ((0, 1), SX); ((1, 0), SX); ((1, 0), SY); ((1, 1), SX);
     ((2, 0), SY)].
Proof. split; [apply demo_built, sq_ok|]. vm_compute. auto. Qed.

(** ** C16 *)

Theorem C16_outgoing :
  forall (A D N E : Type) (m : mode) (s : Shape Cell A D) (G : Geometry A D), Traversable s G ->
  forall (g : LatticeGraph Cell A D N E) nf ef c, Built m s G g nf ef -> In c (geo_nodes G) ->
  exists it it' l, edges m g c = Ok it /\ edges_directed m g c Outgoing = Ok it' /\
    Drains (edges_next m g) it l /\ Drains (edges_next m g) it' l.
Proof. intros A D N E m s G TR. exact (c16 TR). Qed.
Print Assumptions C16_outgoing.

Example C16_case : Built Debug hd hdG (demo hd Debug) demo_node (demo_edge hd) /\
  In (0, 1) (geo_nodes hdG) /\
  (let! it := edges_directed Debug (demo hd Debug) (0, 1) Outgoing in
   collect (edges_next Debug (demo hd Debug)) 10 it) = Ok (spec_edges hdG (demo_edge hd) (0, 1)) /\
  length (spec_edges hdG (demo_edge hd) (0, 1)) = 6%nat.
Proof. split; [apply demo_built, hd_ok|]. vm_compute. tauto. Qed.

(** ** C17 *)

Theorem C17_incoming_undirected :
  forall (A D N E : Type) (m : mode) (s : Shape Cell A D) (G : Geometry A D), Traversable s G ->
  forall (g : LatticeGraph Cell A D N E) nf ef c, Built m s G g nf ef -> In c (geo_nodes G) ->
  ag_directed (geo_ax G) = false ->
  exists it it' l, edges m g c = Ok it /\ edges_directed m g c Incoming = Ok it' /\
    Drains (edges_next m g) it l /\
    Drains (edges_next m g) it'
      (map (fun r => mkEdgeRef (er_target r) (er_source r) (er_weight r) (er_direction r)) l) /\
    map (fun r => mkEdgeRef (er_target r) (er_source r) (er_weight r) (er_direction r)) l
      = spec_incoming G ef c.
Proof. intros A D N E m s G TR. exact (c17 TR). Qed.
Print Assumptions C17_incoming_undirected.

Example C17_case : Built Debug sq sqG (demo sq Debug) demo_node (demo_edge sq) /\
  ag_directed (geo_ax sqG) = false /\
  (let! it := edges_directed Debug (demo sq Debug) (1, 0) Incoming in
   collect (edges_next Debug (demo sq Debug)) 10 it)
  = Ok [mkEdgeRef (2, 0) (1, 0) 1100 DX; mkEdgeRef (1, 1) (1, 0) 1101 DY;
        mkEdgeRef (0, 0) (1, 0) 1000 DRX].
Proof. split; [apply demo_built, sq_ok|]. vm_compute. auto. Qed.

(** ** C18

    Full statement: the same in both build modes.  False in debug builds: the assertion
    in [Edges::next] compares the axis of the direction with the axis of the opposite one
    and fails at every neighbour. *)

Theorem C18_incoming_directed_partial :
  forall (A D N E : Type) (m : mode) (s : Shape Cell A D) (G : Geometry A D), Supported s G ->
  forall (g : LatticeGraph Cell A D N E) nf ef c, Built m s G g nf ef -> In c (geo_nodes G) ->
  ag_directed (geo_ax G) = true -> m = Release ->
  exists it, edges_directed m g c Incoming = Ok it /\
    Drains (edges_next m g) it (spec_incoming G ef c).
Proof. intros A D N E m s G SUP. exact (c18_release SUP). Qed.
Print Assumptions C18_incoming_directed_partial.

(** One reference per neighbour, each leading to [c]. *)
Theorem C18_sources :
  forall (A D N E : Type) (m : mode) (s : Shape Cell A D) (G : Geometry A D), Supported s G ->
  forall (g : LatticeGraph Cell A D N E) nf ef c it l ln, Built m s G g nf ef ->
  In c (geo_nodes G) -> ag_directed (geo_ax G) = true -> m = Release ->
  edges_directed m g c Incoming = Ok it -> Drains (edges_next m g) it l ->
  Drains (neighbors_next m g c) (neighbors g c) ln ->
  map er_source l = ln /\ Forall (fun r => er_target r = c) l.
Proof. intros A D N E m s G SUP. exact (c18_sources SUP). Qed.
Print Assumptions C18_sources.

Theorem C18_debug_refuted :
  forall (A D N E : Type) (m : mode) (s : Shape Cell A D) (G : Geometry A D), Supported s G ->
  forall (g : LatticeGraph Cell A D N E) nf ef c, Built m s G g nf ef -> In c (geo_nodes G) ->
  ag_directed (geo_ax G) = true -> m = Debug -> spec_neighbors G c <> [] ->
  exists it, edges_directed m g c Incoming = Ok it /\ edges_next m g it = Fail FPanic.
Proof. intros A D N E m s G SUP. exact (c18_debug SUP). Qed.
Print Assumptions C18_debug_refuted.

Example C18_case : Built Release hd hdG (demo hd Release) demo_node (demo_edge hd) /\
  In (0, 0) (geo_nodes hdG) /\ ag_directed (geo_ax hdG) = true /\
  (let! it := edges_directed Release (demo hd Release) (0, 0) Incoming in
   collect (edges_next Release (demo hd Release)) 10 it)
  = Ok [mkEdgeRef (0, 1) (0, 0) 1013 RNE; mkEdgeRef (1, 0) (0, 0) 1104 RE;
        mkEdgeRef (-1, 1) (0, 0) 912 RNW] /\
  Built Debug hd hdG (demo hd Debug) demo_node (demo_edge hd) /\
  (let! it := edges_directed Debug (demo hd Debug) (0, 0) Incoming in
   collect (edges_next Debug (demo hd Debug)) 10 it) = Fail FPanic.
Proof.
  split; [apply demo_built, hd_ok|]. split; [vm_compute; tauto|]. split; [reflexivity|].
  split; [reflexivity|]. split; [apply demo_built, hd_ok|reflexivity].
Qed.

(** ** C19 *)

(** After any history of writes the graph is a [Built] one whose weights are those of the
    maps; all theorems about [Built] graphs say what its accessors and iterators return. *)
Theorem C19_writes :
  forall (A D N E : Type) (m : mode) (s : Shape Cell A D) (G : Geometry A D), Stored s G ->
  forall ops (g : LatticeGraph Cell A D N E) nf ef, Built m s G g nf ef ->
  Forall (fun op => locatable m G (write_coord op)) ops ->
  exists g', write_run m g ops = Ok (fst (fst (write_spec_run G nf ef ops)), g') /\
    Built m s G g' (snd (fst (write_spec_run G nf ef ops))) (snd (write_spec_run G nf ef ops)).
Proof. intros A D N E m s G STO. exact (write_run_ok STO). Qed.
Print Assumptions C19_writes.

Theorem C19_reads :
  forall (A D N E : Type) (m : mode) (s : Shape Cell A D) (G : Geometry A D), Stored s G ->
  forall (g : LatticeGraph Cell A D N E) nf ef, Built m s G g nf ef ->
  (forall c, In c (geo_nodes G) -> node_weight m g c = Ok (Some (nf c))) /\
  (forall c a, edge_exists G c a -> edge_weight m g (c, a) = Ok (Some (ef c a))) /\
  (forall c, locatable m G c -> ~ In c (geo_nodes G) -> node_weight m g c = Ok None) /\
  (forall c a, locatable m G c -> ~ edge_exists G c a -> edge_weight m g (c, a) = Ok None).
Proof. intros A D N E m s G STO. exact (built_weights STO). Qed.
Print Assumptions C19_reads.

Example C19_case :
  Built Debug sq sqG (demo sq Debug) demo_node (demo_edge sq) /\
  match write_run Debug (demo sq Debug)
          [WriteNode (1, 1) (fun x => x + 500); WriteEdge (0, 0) SX (fun _ => 7);
           WriteEdge (2, 0) SX (fun _ => 8); WriteNode (3, 0) (fun _ => 9)] with
  | Ok (answers, g) => answers = [true; true; false; false] /\
      node_weight Debug g (1, 1) = Ok (Some 511) /\ node_weight Debug g (1, 0) = Ok (Some 10) /\
      edge_weight Debug g ((0, 0), SX) = Ok (Some 7) /\
      edge_weight Debug g ((0, 0), SY) = Ok (Some 1001)
  | Fail _ => False
  end.
Proof. split; [apply demo_built, sq_ok|]. vm_compute. auto. Qed.

(** ** C20 *)

Theorem C20_independent :
  forall (A D N E : Type) (m : mode) (s : Shape Cell A D) (G : Geometry A D), Supported s G ->
  forall (g : LatticeGraph Cell A D N E) nf ef a b x y f, Built m s G g nf ef ->
  ag_directed (geo_ax G) = true -> In a (geo_nodes G) ->
  geo_step G a (ag_fwd (geo_ax G) x) = Some b ->
  opposite (geo_ax G) (ag_fwd (geo_ax G) x) (ag_fwd (geo_ax G) y) ->
  exists g', edge_weight_mut m g (a, x) (option_map f) = Ok (Some g') /\
    edge_weight m g' (a, x) = Ok (Some (f (ef a x))) /\
    edge_weight m g' (b, y) = Ok (Some (ef b y)) /\
    edge_weight m g (b, y) = Ok (Some (ef b y)).
Proof. intros A D N E m s G SUP. exact (c20 SUP). Qed.
Print Assumptions C20_independent.

Example C20_case : Built Debug hd hdG (demo hd Debug) demo_node (demo_edge hd) /\
  ag_directed (geo_ax hdG) = true /\ geo_step hdG (0, 0) RE = Some (1, 0) /\
  opposite (geo_ax hdG) RE RW.
Proof. split; [apply demo_built, hd_ok|]. vm_compute. auto. Qed.

(** ** C21

    Full statement: for every coordinate value, without exception.  True for square,
    diagonal and offset shapes; on axial shapes locating a coordinate adds
    (q + parity) / 2 to r, which overflows at the upper end of [isize]. *)

Theorem C21_total_partial :
  forall (A D N E : Type) (m : mode) (s : Shape Cell A D) (G : Geometry A D), Stored s G ->
  forall (g : LatticeGraph Cell A D N E) nf ef c a vm, Built m s G g nf ef -> locatable m G c ->
  ~ In c (geo_nodes G) ->
  sh_to_offset s m c = Ok None /\ node_weight m g c = Ok None /\
  edge_weight m g (c, a) = Ok None /\ vm_is_visited m s vm c = Ok false.
Proof. intros A D N E m s G STO. exact (c21_total STO). Qed.
Print Assumptions C21_total_partial.

(** On these shapes every value of the coordinate type is locatable. *)
Theorem C21_rectangular :
  forall (A D : Type) (m : mode) (ax : AxisGeo A D) w h pos period c,
  let G := rect_geometry ax w h pos period in
  0 <= fst c < 2 ^ 64 -> 0 <= snd c < 2 ^ 64 -> locatable m G c.
Proof. exact rect_locatable. Qed.
Print Assumptions C21_rectangular.

Theorem C21_extreme_refuted :
  forall (A D N E : Type) (m : mode) (s : Shape Cell A D) (G : Geometry A D), Stored s G ->
  forall (g : LatticeGraph Cell A D N E) nf ef c a vm, Built m s G g nf ef -> m = Debug ->
  geo_coord G c -> geo_extreme G c ->
  sh_to_offset s m c = Fail FPanic /\ node_weight m g c = Fail FPanic /\
  edge_weight m g (c, a) = Fail FPanic /\ vm_is_visited m s vm c = Fail FPanic.
Proof. intros A D N E m s G STO. exact (c21_extreme STO). Qed.
Print Assumptions C21_extreme_refuted.

Example C21_case : Built Debug hd hdG (demo hd Debug) demo_node (demo_edge hd) /\
  geo_coord hdG (2 ^ 63 - 1, 1) /\ geo_extreme hdG (2 ^ 63 - 1, 1) /\
  node_weight Debug (demo hd Debug) (2 ^ 63 - 1, 1) = Fail FPanic /\
  node_weight Release (demo hd Release) (2 ^ 63 - 1, 1) = Ok None /\
  locatable Debug hdG (2 ^ 63 - 1, 5) /\
  node_weight Debug (demo hd Debug) (2 ^ 63 - 1, 5) = Ok None.
Proof.
  split; [apply demo_built, hd_ok|]. split; [cbn; lia|]. split; [cbn; lia|].
  split; [reflexivity|]. split; [reflexivity|]. split; [|reflexivity].
  split; [cbn; lia|]. cbn. lia.
Qed.

(** ** C22

    Full statement: [edges c] of an off-board coordinate is empty.  False for every shape
    and every such coordinate: a panic in debug builds, undefined behaviour in release
    builds. *)

Theorem C22_edges_refuted :
  forall (A D N E : Type) (m : mode) (s : Shape Cell A D) (G : Geometry A D), Stored s G ->
  forall (g : LatticeGraph Cell A D N E) nf ef c dir, Built m s G g nf ef -> locatable m G c ->
  ~ In c (geo_nodes G) ->
  edges m g c = Fail (match m with Debug => FPanic | Release => FUB end) /\
  edges_directed m g c dir = Fail (match m with Debug => FPanic | Release => FUB end).
Proof. intros A D N E m s G STO. exact (c22_fault STO). Qed.
Print Assumptions C22_edges_refuted.

Example C22_case : Built Release sq sqG (demo sq Release) demo_node (demo_edge sq) /\
  locatable Release sqG (3, 0) /\ ~ In (3, 0) (geo_nodes sqG) /\
  edges Release (demo sq Release) (3, 0) = Fail FUB /\
  edges Debug (demo sq Debug) (3, 0) = Fail FPanic.
Proof.
  split; [apply demo_built, sq_ok|]. split; [split; [cbn; lia|discriminate]|].
  split; [vm_compute; intuition discriminate|]. vm_compute. auto.
Qed.

(** ** C23 *)

Theorem C23_visit_map :
  forall (A D N E : Type) (m : mode) (s : Shape Cell A D) (G : Geometry A D), Stored s G ->
  forall (g : LatticeGraph Cell A D N E) nf ef ops, Built m s G g nf ef ->
  Forall (visit_allowed m G) ops ->
  visit_run m g (visit_map g) ops = Ok (visit_spec_run (geo_nodes G) [] ops).
Proof. intros A D N E m s G STO. exact (c23 STO). Qed.
Print Assumptions C23_visit_map.

Example C23_case : Built Debug sq sqG (demo sq Debug) demo_node (demo_edge sq) /\
  visit_run Debug (demo sq Debug) (visit_map (demo sq Debug))
    [Visit (1, 1); Visit (1, 1); IsVisited (1, 1); IsVisited (1, 0); Visit (5, 5);
     Unvisit (1, 1); Visit (1, 1); ResetMap; IsVisited (1, 1)]
  = Ok [Some true; Some false; Some true; Some false; Some false; None; Some true; None;
        Some false].
Proof. split; [apply demo_built, sq_ok|reflexivity]. Qed.

(** ** C24

    Full statement: [unvisit c] returns true if and only if [c] was marked.  It returns
    true for every coordinate on the board. *)

Theorem C24_unvisit_partial :
  forall (A D N E : Type) (m : mode) (s : Shape Cell A D) (G : Geometry A D), Stored s G ->
  forall (g : LatticeGraph Cell A D N E) nf ef ops, Built m s G g nf ef ->
  Forall (visit_allowed m G) ops ->
  exists vm, visit_state m g (visit_map g) ops = Ok vm /\
    (forall c, locatable m G c -> exists vm',
       vm_unvisit m s vm c = Ok (mem c (geo_nodes G), vm')) /\
    (forall c, locatable m G c ->
       vm_is_visited m s vm c = Ok (mem c (marked_after (geo_nodes G) [] ops))).
Proof. intros A D N E m s G STO. exact (visit_state_ok STO). Qed.
Print Assumptions C24_unvisit_partial.

Theorem C24_unvisit_refuted : exists (g : LatticeGraph Cell _ _ Z Z) nf ef vm,
  Built Debug sq sqG g nf ef /\
  visit_state Debug g (visit_map g) [Visit (0, 0)] = Ok vm /\
  vm_is_visited Debug sq vm (1, 1) = Ok false /\
  exists vm', vm_unvisit Debug sq vm (1, 1) = Ok (true, vm').
Proof.
  exact (ex_intro _ (demo sq Debug) (ex_intro _ demo_node (ex_intro _ (demo_edge sq)
    (ex_intro _ [[true; false]; [false; false]; [false; false]]
    (conj (demo_built _ _ _ _ _ sq_ok) (conj eq_refl (conj eq_refl
      (ex_intro _ [[true; false]; [false; false]; [false; false]] eq_refl)))))))).
Qed.
Print Assumptions C24_unvisit_refuted.

Example C24_case : Forall (visit_allowed Debug sqG) [Visit (0, 0); Unvisit (7, 7)].
Proof. repeat constructor; cbn; try lia; auto. Qed.

(** ** C25 *)

Theorem C25_axis_index :
  forall (A D : Type) (ax : AxisOps A D) (geo : AxisGeo A D), KnownAxis ax geo ->
  (forall i a, ax_from_index ax i = Some a <-> ax_to_index ax a = i) /\
  (forall i, (exists a, ax_from_index ax i = Some a) <-> (i < ax_COUNT ax)%nat) /\
  (forall i d, dir_from_index (ax_dir ax) i = Some d <-> dir_to_index (ax_dir ax) d = i) /\
  (forall i, (exists d, dir_from_index (ax_dir ax) i = Some d) <->
             (i < ax_UNDIRECTED_COUNT ax)%nat).
Proof.
  intros A D ax geo K.
  exact (conj (axis_index K) (conj (axis_index_total K) (conj (dir_index K) (dir_index_total K)))).
Qed.
Print Assumptions C25_axis_index.

Theorem C25_unchecked_index :
  forall (A D : Type) (ax : AxisOps A D) (geo : AxisGeo A D) (m : mode), KnownAxis ax geo ->
  (forall i a, ax_from_index ax i = Some a -> ax_from_index_unchecked ax m i = Ok a) /\
  (forall i d, dir_from_index (ax_dir ax) i = Some d ->
               dir_from_index_unchecked (ax_dir ax) m i = Ok d).
Proof.
  intros A D ax geo m K. exact (conj (axis_index_unchecked m K) (dir_index_unchecked m K)).
Qed.
Print Assumptions C25_unchecked_index.

Theorem C25_axis_to_direction :
  forall (A D : Type) (ax : AxisOps A D) (geo : AxisGeo A D) (m : mode), KnownAxis ax geo ->
  forall a, exists f b, ax_foward ax m a = Ok f /\ ax_backward ax m a = Ok b /\
  opposite geo f b /\
  ax_from_direction ax m f = Ok a /\ ax_is_forward_direction ax m f = Ok true /\
  (ax_DIRECTED ax = false ->
     ax_from_direction ax m b = Ok a /\ ax_is_forward_direction ax m b = Ok false).
Proof. intros A D ax geo m K. exact (axis_orient m K). Qed.
Print Assumptions C25_axis_to_direction.

Theorem C25_direction_to_axis :
  forall (A D : Type) (ax : AxisOps A D) (geo : AxisGeo A D) (m : mode), KnownAxis ax geo ->
  forall d, exists a, ax_from_direction ax m d = Ok a /\
  ((ax_foward ax m a = Ok d /\ ax_is_forward_direction ax m d = Ok true) \/
   (ax_DIRECTED ax = false /\ ax_backward ax m a = Ok d /\
    ax_is_forward_direction ax m d = Ok false)).
Proof. intros A D ax geo m K. exact (dir_orient m K). Qed.
Print Assumptions C25_direction_to_axis.

Theorem C25_directed_backward :
  forall (A D : Type) (ax : AxisOps A D) (geo : AxisGeo A D) (m : mode), KnownAxis ax geo ->
  ax_DIRECTED ax = true -> forall a, exists b a', ax_backward ax m a = Ok b /\
  ax_from_direction ax m b = Ok a' /\ a' <> a /\
  exists b', ax_backward ax m a' = Ok b' /\ ax_from_direction ax m b' = Ok a.
Proof. intros A D ax geo m K. exact (directed_backward m K). Qed.
Print Assumptions C25_directed_backward.

Example C25_case : KnownAxis r_axis hexr_axes /\ ax_from_index r_axis 2 = Some ASE /\
  ax_from_index r_axis 3 = None /\ dir_from_index (ax_dir r_axis) 5 = Some RNW /\
  ax_backward r_axis Debug ASE = Ok RNW /\
  KnownAxis dr_axis (directed_axes hexr_axes) /\ ax_DIRECTED dr_axis = true.
Proof. split; [constructor|]. repeat split; constructor. Qed.

(** ** C26 *)

Theorem C26_back :
  forall (A D : Type) (m : mode) (s : Shape Cell A D) (G : Geometry A D), Supported s G ->
  forall c d d' c', In c (geo_nodes G) -> sh_move_coord s m c d = Ok (Some c') ->
  opposite (geo_ax G) d d' ->
  In c' (geo_nodes G) /\ sh_move_coord s m c' d' = Ok (Some c).
Proof. intros A D m s G SUP. exact (c26 SUP). Qed.
Print Assumptions C26_back.

Theorem C26_axis_back :
  forall (A D : Type) (m : mode) (s : Shape Cell A D) (G : Geometry A D), Stored s G ->
  forall a, exists d d', ax_foward (sh_axis s) m a = Ok d /\
  ax_backward (sh_axis s) m a = Ok d' /\ opposite (geo_ax G) d d'.
Proof. intros A D m s G STO. exact (c26_axis STO). Qed.
Print Assumptions C26_axis_back.

(** Every move from a board cell is the geometric step. *)
Theorem C26_moves :
  forall (A D : Type) (m : mode) (s : Shape Cell A D) (G : Geometry A D), Supported s G ->
  forall c d, In c (geo_nodes G) -> sh_move_coord s m c d = Ok (geo_step G c d).
Proof. intros A D m s G SUP. exact (move_geometric (st_supported _ _ _ _ SUP)). Qed.
Print Assumptions C26_moves.

Example C26_case : Supported lp lpG /\ In (2, 1) (geo_nodes lpG) /\
  sh_move_coord lp Debug (2, 1) RE = Ok (Some (0, 1)) /\ opposite (geo_ax lpG) RE RW /\
  sh_move_coord lp Debug (0, 1) RW = Ok (Some (2, 1)).
Proof. split; [exact lp_ok|]. vm_compute. tauto. Qed.

(** ** C36 *)

Theorem C36_unchecked_shape :
  forall (A D : Type) (m : mode) (s : Shape Cell A D) (G : Geometry A D), Stored s G ->
  forall c, In c (geo_nodes G) ->
  (exists o, sh_to_offset s m c = Ok (Some o) /\ sh_to_offset_unchecked s m c = Ok o) /\
  (forall d c', sh_move_coord s m c d = Ok (Some c') -> sh_move_coord_unchecked s m c d = Ok c').
Proof. intros A D m s G STO. exact (c36_shape STO). Qed.
Print Assumptions C36_unchecked_shape.

Theorem C36_unchecked_graph :
  forall (A D N E : Type) (m : mode) (s : Shape Cell A D) (G : Geometry A D), Stored s G ->
  forall (g : LatticeGraph Cell A D N E) nf ef, Built m s G g nf ef ->
  (forall c, In c (geo_nodes G) -> exists x, node_weight m g c = Ok (Some x) /\
     node_weight_unchecked m g c = Ok x) /\
  (forall c a, edge_exists G c a -> exists x, edge_weight m g (c, a) = Ok (Some x) /\
     edge_weight_unchecked m g (c, a) = Ok x) /\
  (forall c f, In c (geo_nodes G) -> exists g',
     node_weight_mut m g c (option_map f) = Ok (Some g') /\
     node_weight_mut_unchecked m g c (option_map f) = Ok g') /\
  (forall c a f, edge_exists G c a -> exists g',
     edge_weight_mut m g (c, a) (option_map f) = Ok (Some g') /\
     edge_weight_mut_unchecked m g (c, a) (option_map f) = Ok g').
Proof. intros A D N E m s G STO. exact (c36_graph STO). Qed.
Print Assumptions C36_unchecked_graph.

Example C36_case : Built Debug h16 h16G (demo h16 Debug) demo_node (demo_edge h16) /\
  In (-1, 2) (geo_nodes h16G) /\ edge_exists h16G (-1, 2) AE /\
  edge_weight_unchecked Debug (demo h16 Debug) ((-1, 2), AE) = Ok 921.
Proof.
  split; [apply demo_built, h16_ok|]. split; [vm_compute; tauto|].
  split; [split; [vm_compute; tauto|vm_compute; discriminate]|reflexivity].
Qed.

(** ** C39 *)

(** [Drains] (Machine.v) includes that the iterator keeps returning [None]. *)
Theorem C39_neighbors :
  forall (A D N E : Type) (m : mode) (s : Shape Cell A D) (G : Geometry A D), Stored s G ->
  forall (g : LatticeGraph Cell A D N E) nf ef c l it, Built m s G g nf ef ->
  In c (geo_nodes G) -> Consumed (neighbors_next m g c) (neighbors g c) l it ->
  exists rest u, spec_neighbors G c = l ++ rest /\ Drains (neighbors_next m g c) it rest /\
    neighbors_size_hint m g it = Ok (0, Some u) /\ Z.of_nat (length rest) <= u.
Proof. intros A D N E m s G STO. exact (c39_neighbors STO). Qed.
Print Assumptions C39_neighbors.

(** [edges] is [AxisDirMarker], [edges_directed] is [PetMarker]. *)
Theorem C39_edges :
  forall (A D N E : Type) (m : mode) (s : Shape Cell A D) (G : Geometry A D)
    (g : LatticeGraph Cell A D N E) nf ef c k it l it',
  Traversable s G -> Built m s G g nf ef -> In c (geo_nodes G) ->
  (k = AxisDirMarker \/ k = PetMarker Outgoing \/
   k = PetMarker Incoming /\ ag_directed (geo_ax G) = false) ->
  edges_new_d m g c k = Ok it -> Consumed (edges_next m g) it l it' ->
  exists rest u, Drains (edges_next m g) it (l ++ rest) /\ Drains (edges_next m g) it' rest /\
    edges_size_hint m g it' = Ok (0, Some u) /\ Z.of_nat (length rest) <= u.
Proof. exact c39_edges. Qed.
Print Assumptions C39_edges.

Theorem C39_incoming_directed :
  forall (A D N E : Type) (m : mode) (s : Shape Cell A D) (G : Geometry A D)
    (g : LatticeGraph Cell A D N E) nf ef c it l it',
  Supported s G -> Built m s G g nf ef -> In c (geo_nodes G) ->
  ag_directed (geo_ax G) = true -> m = Release ->
  edges_new_d m g c (PetMarker Incoming) = Ok it -> Consumed (edges_next m g) it l it' ->
  exists rest u, Drains (edges_next m g) it (l ++ rest) /\ Drains (edges_next m g) it' rest /\
    edges_size_hint m g it' = Ok (0, Some u) /\ Z.of_nat (length rest) <= u.
Proof. exact c39_edges_directed. Qed.
Print Assumptions C39_incoming_directed.

Theorem C39_edge_references :
  forall (A D N E : Type) (m : mode) (s : Shape Cell A D) (G : Geometry A D), Stored s G ->
  forall (g : LatticeGraph Cell A D N E) nf ef l it, Built m s G g nf ef ->
  Z.of_nat (length (geo_nodes G)) * Z.of_nat (ax_UNDIRECTED_COUNT (sh_axis s)) < 2 ^ 64 ->
  Consumed (edge_references_next m g) (edge_references g) l it ->
  exists rest u, spec_edge_references G ef = l ++ rest /\
    Drains (edge_references_next m g) it rest /\
    edge_references_size_hint m g it = Ok (0, Some u) /\ Z.of_nat (length rest) <= u.
Proof. intros A D N E m s G STO. exact (c39_references STO). Qed.
Print Assumptions C39_edge_references.

(** On all larger boards the hint itself overflows: with debug assertions it panics, without
    them it is taken modulo 2^64. *)
Theorem C39_overflow_refuted :
  forall (A D N E : Type) (m : mode) (s : Shape Cell A D) (G : Geometry A D), Stored s G ->
  forall (g : LatticeGraph Cell A D N E) nf ef, Built m s G g nf ef ->
  2 ^ 64 <= Z.of_nat (length (geo_nodes G)) * Z.of_nat (ax_UNDIRECTED_COUNT (sh_axis s)) ->
  edge_references_size_hint m g (edge_references g) =
  match m with
  | Debug => Fail FPanic
  | Release => Ok (0, Some ((Z.of_nat (length (geo_nodes G)) *
                 Z.of_nat (ax_UNDIRECTED_COUNT (sh_axis s))) mod 2 ^ 64))
  end.
Proof. intros A D N E m s G STO. exact (c39_overflow STO). Qed.
Print Assumptions C39_overflow_refuted.

Example C39_case : Built Debug sq sqG (demo sq Debug) demo_node (demo_edge sq) /\
  Z.of_nat (length (geo_nodes sqG)) * Z.of_nat (ax_UNDIRECTED_COUNT (sh_axis sq)) < 2 ^ 64 /\
  edge_references_size_hint Debug (demo sq Debug) (edge_references (demo sq Debug))
    = Ok (0, Some 24) /\
  Supported (square_shape (2 ^ 31) (2 ^ 31)) (square_geometry square_axes (2 ^ 31) (2 ^ 31)) /\
  2 ^ 64 <= 2 ^ 31 * 2 ^ 31 * Z.of_nat (ax_UNDIRECTED_COUNT sq_axis).
Proof.
  split; [apply demo_built, sq_ok|]. split; [vm_compute; reflexivity|]. split; [reflexivity|].
  split; [apply sup_square; repeat split; vm_compute; congruence|]. vm_compute. discriminate.
Qed.
