(** * Properties20: boards in one piece and boards in several, spanning trees and cycles on all
    shapes (C82, C84, C90 continued). *)

From Verif Require Import Machine Store Axes Shapes Lattice Spec Spec11 Spec13 Astar Kruskal Clients
  Spec5 Spec7 Spec8 AstarDemo KruskalDemo Demo MoreDemo PartsProofs TreeFault.

(** ** C82, continued *)

(** What [connected_components] answers on every shape of the crate. *)
Theorem C82_pieces :
  forall (A D : Type) (s : Shape Cell A D) (G : Geometry A D) (r : outcome Z), Parts s G r ->
  forall (N E : Type) (m : mode) (g : LatticeGraph Cell A D N E) nf ef, Built m s G g nf ef ->
  forall T (U : UFOps T), UFOK U ->
  connected_components U (node_bound m g) (to_index m g) (edge_references g)
    (edge_references_next m g) (fun e => Ok (er_source e)) (fun e => Ok (er_target e)) = r.
Proof. exact c82_parts. Qed.
Print Assumptions C82_pieces.

Theorem C82_every_shape :
  forall (A D : Type) (s : Shape Cell A D) (G : Geometry A D), Stored s G ->
  exists r, Parts s G r.
Proof. exact parts_every. Qed.
Print Assumptions C82_every_shape.

Example C82_pieces_case :
  let count {A D} (s : Shape Cell A D) :=
    connected_components label_uf (node_bound Debug (demo s Debug)) (to_index Debug (demo s Debug))
      (edge_references (demo s Debug)) (edge_references_next Debug (demo s Debug))
      (fun e => Ok (er_source e)) (fun e => Ok (er_target e)) in
  UFOK label_uf /\
  (let s := hex_offset_q_lew OddQ 3 4 in let G := rect_code_geometry hexq_axes s 3 4 in
   Parts s G (Ok 1) /\ Built Debug s G (demo s Debug) demo_node (demo_edge s) /\ count s = Ok 1) /\
  (let s := hex_offset_q EvenQ 3 3 in let G := rect_code_geometry hexq_axes s 3 3 in
   Parts s G (Ok 1) /\ Built Debug s G (demo s Debug) demo_node (demo_edge s) /\ count s = Ok 1) /\
  (let s := double_shape 4 3 in let G := double_code_geometry 4 3 in
   Parts s G (Ok 7) /\ Built Debug s G (demo s Debug) demo_node (demo_edge s) /\ count s = Ok 7).
Proof.
  cbv zeta. split; [exact label_uf_ok|].
  assert (F : forall w h, 0 <= w <= 9 -> 0 <= h <= 9 -> fits w h) by (intros; apply fits_small; lia).
  split; [|split].
  - split; [apply (pa_whole _ _ (hex_offset_q_lew OddQ 3 4)), wh_offset_q_loop, F; lia|].
    split; [apply demo_stored, st_offset_q_loop, F; lia|vm_compute; reflexivity].
  - split; [apply (pa_whole _ _ (hex_offset_q EvenQ 3 3)), wh_enclosed, en_offset_q; [apply F; lia|right; right; reflexivity]|].
    split; [apply demo_stored, st_offset_q, F; lia|vm_compute; reflexivity].
  - split; [apply (pa_double 4 3); [apply F; lia|lia|lia]|].
    split; [apply demo_stored, st_double, F; lia|vm_compute; reflexivity].
Qed.

(** ** C84, continued *)

(** On every board in one piece the edges yielded form one tree. *)
Theorem C84_whole :
  forall (A D N : Type) (m : mode) (s : Shape Cell A D) (G : Geometry A D), Whole s G ->
  (m = Release \/
   Z.of_nat (length (geo_nodes G)) * Z.of_nat (ax_UNDIRECTED_COUNT (sh_axis s)) < 2 ^ 64) ->
  forall (g : LatticeGraph Cell A D N Z) nf ef, Built m s G g nf ef ->
  forall T (U : UFOps T), UFOK U -> forall H : HeapOps (Cell * Cell), HeapOK H ->
  exists it K R,
    mst_new U H (node_bound m g) (edge_references g) (edge_references_next m g)
      (edge_references_size_hint m g (edge_references g)) (fun e => Ok (er_source e))
      (fun e => Ok (er_target e)) er_weight (node_references g) = Ok it /\
    Drains (mst_next U H (to_index m g) (node_references_next m g)) it
      (map (fun c => ENode (nf c)) (geo_nodes G) ++ R) /\
    Forall2 (Stands_for (geo_nodes G)) R K /\
    MinSpanningForest (geo_nodes G) (map seen (spec_edge_references G ef)) K /\
    Connects (geo_nodes G) K /\ length K = pred (length (geo_nodes G)).
Proof. exact (@c84_whole). Qed.
Print Assumptions C84_whole.

(** Where an edge leads off the board, the iterator yields all nodes, then perhaps some edges,
    then panics; it never comes to an end. *)
Theorem C84_off_board :
  forall (A D N : Type) (m : mode) (s : Shape Cell A D) (G : Geometry A D), Stored s G ->
  forall (g : LatticeGraph Cell A D N Z) nf ef, Built m s G g nf ef ->
  (m = Release \/
   Z.of_nat (length (geo_nodes G)) * Z.of_nat (ax_UNDIRECTED_COUNT (sh_axis s)) < 2 ^ 64) ->
  (exists r, In r (spec_edge_references G ef) /\ ~ In (er_target r) (geo_nodes G)) ->
  forall T (U : UFOps T), UFOK U -> forall H : HeapOps (Cell * Cell), HeapOK H ->
  exists it K R st,
    mst_new U H (node_bound m g) (edge_references g) (edge_references_next m g)
      (edge_references_size_hint m g (edge_references g)) (fun e => Ok (er_source e))
      (fun e => Ok (er_target e)) er_weight (node_references g) = Ok it /\
    Consumed (mst_next U H (to_index m g) (node_references_next m g)) it
      (map (fun c => ENode (nf c)) (geo_nodes G) ++ R) st /\
    mst_next U H (to_index m g) (node_references_next m g) st = Fail FPanic /\
    Forall2 (Stands_for (geo_nodes G)) R K /\
    (forall e, In e K -> In e (map seen (spec_edge_references G ef))).
Proof. exact c84_fault. Qed.
Print Assumptions C84_off_board.

Example C84_more_case :
  UFOK label_uf /\ HeapOK (list_heap (C := Cell * Cell)) /\
  (let s := hex_offset_q_lew OddQ 3 4 in let G := rect_code_geometry hexq_axes s 3 4 in
   Whole s G /\ Built Debug s G (demo s Debug) demo_node (demo_edge s)) /\
  Stored al alG /\ Built Debug al alG (demo al Debug) demo_node (demo_edge al) /\
  (exists r, In r (spec_edge_references alG (demo_edge al)) /\ ~ In (er_target r) (geo_nodes alG)) /\
  let tree k :=
    let! it := mst_new label_uf list_heap (node_bound Debug (demo al Debug))
      (edge_references (demo al Debug)) (edge_references_next Debug (demo al Debug))
      (edge_references_size_hint Debug (demo al Debug) (edge_references (demo al Debug)))
      (fun e => Ok (er_source e)) (fun e => Ok (er_target e)) er_weight
      (node_references (demo al Debug)) in
    let! l := collect (mst_next label_uf list_heap (to_index Debug (demo al Debug))
      (node_references_next Debug (demo al Debug))) k it in
    Ok (length l) in
  tree 60%nat = Fail FPanic.
Proof.
  split; [exact label_uf_ok|]. split; [apply list_heap_ok|]. split.
  { split; [apply wh_offset_q_loop, fits_small; lia|]. apply demo_stored, st_offset_q_loop, fits_small; lia. }
  split; [exact al_ok|]. split; [apply demo_stored, al_ok|]. split.
  - assert (P : existsb (fun r => negb (existsb (veqb (er_target r)) (geo_nodes alG)))
      (spec_edge_references alG (demo_edge al)) = true) by (vm_compute; reflexivity).
    apply existsb_exists in P. destruct P as (r & Hr & P). exists r. split; auto. intros Hi.
    apply negb_true_iff in P. enough (X : existsb (veqb (er_target r)) (geo_nodes alG) = true) by congruence.
    apply existsb_exists. exists (er_target r). split; auto. unfold veqb. rewrite !Z.eqb_refl. auto.
  - vm_compute. reflexivity.
Qed.

(** ** C90, continued *)

(** A board in one piece has a cycle when it has no fewer edges than nodes. *)
Theorem C90_whole :
  forall (A D N : Type) (m : mode) (s : Shape Cell A D) (G : Geometry A D), Whole s G ->
  forall (E : Type) (g : LatticeGraph Cell A D N E) nf ef, Built m s G g nf ef ->
  forall T (U : UFOps T), UFOK U -> geo_nodes G <> [] ->
  is_cyclic_undirected U (node_bound m g) (to_index m g) (edge_references g)
    (edge_references_next m g) (fun e => Ok (er_source e)) (fun e => Ok (er_target e)) =
  Ok (Nat.leb (length (geo_nodes G)) (length (spec_edge_references G ef))).
Proof. exact (@c90_whole). Qed.
Print Assumptions C90_whole.

Theorem C90_rings :
  forall (A D : Type) (s : Shape Cell A D) (G : Geometry A D) (x : bool), Ringed s G x ->
  forall (N E : Type) (m : mode) (g : LatticeGraph Cell A D N E) nf ef, Built m s G g nf ef ->
  geo_nodes G <> [] -> forall T (U : UFOps T), UFOK U ->
  is_cyclic_undirected U (node_bound m g) (to_index m g) (edge_references g)
    (edge_references_next m g) (fun e => Ok (er_source e)) (fun e => Ok (er_target e)) = Ok x.
Proof. exact c90_ringed. Qed.
Print Assumptions C90_rings.

(** With [Cyclic] (C90_boards) that covers every shape no edge of which leads off the board. *)
Theorem C90_rings_every :
  forall (A D : Type) (s : Shape Cell A D) (G : Geometry A D), Enclosed s G ->
  geo_nodes G = [] \/ (exists b, Cyclic s G b) \/ (exists b, Ringed s G b).
Proof. exact ringed_every. Qed.
Print Assumptions C90_rings_every.

Example C90_rings_case :
  let cyclic {A D} (s : Shape Cell A D) :=
    is_cyclic_undirected label_uf (node_bound Debug (demo s Debug)) (to_index Debug (demo s Debug))
      (edge_references (demo s Debug)) (edge_references_next Debug (demo s Debug))
      (fun e => Ok (er_source e)) (fun e => Ok (er_target e)) in
  UFOK label_uf /\
  (let s := double_shape 3 2 in let G := double_code_geometry 3 2 in
   Ringed s G true /\ Built Debug s G (demo s Debug) demo_node (demo_edge s) /\ cyclic s = Ok true) /\
  (let s := double_shape 2 5 in let G := double_code_geometry 2 5 in
   Ringed s G false /\ Built Debug s G (demo s Debug) demo_node (demo_edge s) /\ cyclic s = Ok false) /\
  (let s := hex_offset_q EvenQ 2 1 in let G := rect_code_geometry hexq_axes s 2 1 in
   Ringed s G true /\ Whole s G /\ cyclic s = Ok true).
Proof.
  cbv zeta. split; [exact label_uf_ok|].
  assert (F : forall w h, 0 <= w <= 9 -> 0 <= h <= 9 -> fits w h) by (intros; apply fits_small; lia).
  split; [|split].
  - split; [apply (ri_double 3 2), F; lia|]. split; [apply demo_stored, st_double, F; lia|vm_compute; reflexivity].
  - split; [apply (ri_double 2 5), F; lia|]. split; [apply demo_stored, st_double, F; lia|vm_compute; reflexivity].
  - split; [apply (ri_offset_q EvenQ 2 1); [apply F; lia|right; right; reflexivity]|].
    split; [apply wh_enclosed, en_offset_q; [apply F; lia|right; right; reflexivity]|vm_compute; reflexivity].
Qed.
