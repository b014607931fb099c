(** * Properties19: the order of axes, directions and edge ids of [LatticeGraph] (C102).

    Order.v has the derived orders, Spec12.v says which belongs to which type. *)

From Coq Require Import Sorted.
From Verif Require Import Machine Store Axes Shapes Lattice Order Spec Spec12 Demo GeoProofs
  AxisProofs OrderProofs.

(** ** C102 *)

(** Axes and directions sort like their indices; only equal ones compare equal. *)
Theorem C102_axes :
  forall (A D : Type) (ax : AxisOps A D) ra rd, Ranked ax ra rd ->
  (forall a b, rank_cmp ra a b = Nat.compare (ax_to_index ax a) (ax_to_index ax b)) /\
  (forall d e, rank_cmp rd d e =
     Nat.compare (dir_to_index (ax_dir ax) d) (dir_to_index (ax_dir ax) e)) /\
  (forall a b, rank_cmp ra a b = Eq <-> a = b) /\
  (forall d e, rank_cmp rd d e = Eq <-> d = e).
Proof. exact c102_axes. Qed.
Print Assumptions C102_axes.

Theorem C102_every :
  forall (A D : Type) (s : Shape Cell A D) (G : Geometry A D), Stored s G ->
  exists ra rd, Ranked (sh_axis s) ra rd.
Proof. exact c102_ranked. Qed.
Print Assumptions C102_every.

(** Where nodes sort like their indices (C86), the ids of [edge_references] come in order. *)
Theorem C102_edges :
  forall (A D N E : Type) (m : mode) (s : Shape Cell A D) (G : Geometry A D), Stored s G ->
  forall (g : LatticeGraph Cell A D N E) nf ef, Built m s G g nf ef ->
  forall ra rd, Ranked (sh_axis s) ra rd ->
  (forall a b i j, In a (geo_nodes G) -> In b (geo_nodes G) ->
    to_index m g a = Ok i -> to_index m g b = Ok j -> coord_cmp a b = (i ?= j)) ->
  exists l ids, Drains (edge_references_next m g) (edge_references g) l /\
    map (er_id m s) l = map Ok ids /\ in_order (edge_id_cmp ra) ids.
Proof. exact (@c102_edges). Qed.
Print Assumptions C102_edges.

(** On axial boards without loop, just these: *)
Theorem C102_axial :
  forall (A D N E : Type) (m : mode) (s : Shape Cell A D) (G : Geometry A D) co w h,
  AxialBoard s G co w h ->
  forall (g : LatticeGraph Cell A D N E) nf ef, Built m s G g nf ef ->
  forall ra rd, Ranked (sh_axis s) ra rd ->
  exists l ids, Drains (edge_references_next m g) (edge_references g) l /\
    map (er_id m s) l = map Ok ids /\
    (in_order (edge_id_cmp ra) ids <-> small_axial (ag_directed (geo_ax G)) co w h).
Proof. exact c102_axial. Qed.
Print Assumptions C102_axial.

Example C102_case :
  Stored hx hxG /\ Built Debug hx hxG (demo hx Debug) demo_node (demo_edge hx) /\
  Ranked (sh_axis hx) r_rank dr_rank /\ geo_nodes hxG = board 3 3 (fun x y => (x, y)) /\
  rank_cmp r_rank ANE ASE = Lt /\
  (let! l := collect (edge_references_next Debug (demo hx Debug)) 30 (edge_references (demo hx Debug)) in
   Ok (map (er_id Debug hx) (firstn 5 l))) =
  Ok [Ok ((0, 0), ANE); Ok ((0, 0), AE); Ok ((0, 1), ANE); Ok ((0, 1), AE); Ok ((0, 1), ASE)] /\
  AxialBoard hd hdG 1 3 3 /\ Built Debug hd hdG (demo hd Debug) demo_node (demo_edge hd) /\
  Ranked (sh_axis hd) dr_rank dr_rank /\
  (let! l := collect (edge_references_next Debug (demo hd Debug)) 60 (edge_references (demo hd Debug)) in
   Ok (map (er_id Debug hd) (firstn 4 l))) =
  Ok [Ok ((0, 0), RNE); Ok ((0, 0), RE); Ok ((0, 0), RNW); Ok ((-1, 1), RNE)] /\
  edge_id_cmp dr_rank ((0, 0), RNW) ((-1, 1), RNE) = Gt.
Proof.
  split; [apply st_supported, hx_ok|]. split; [apply demo_built, hx_ok|]. split; [constructor|].
  split; [reflexivity|]. split; [reflexivity|]. split; [vm_compute; reflexivity|].
  split; [apply (axial_board_r_dir HAxial EvenR 3 3); repeat split; vm_compute; congruence|].
  split; [apply demo_built, hd_ok|]. split; [constructor|]. split; [vm_compute; reflexivity|].
  reflexivity.
Qed.
