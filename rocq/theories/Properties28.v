(** * Properties28: shapes whose moves are not undone by the opposite move (C116).

    [OneWayContract] (Spec20.v) asks of a shape what [ShapeContract] (Spec19.v) asks of it,
    except that the opposite move leads back. *)

From Verif Require Import Machine Store Axes Shapes Lattice Spec Spec19 Spec20 Demo CustomDemo
  OneWayProofs OneWayMain.

Theorem C116_difference :
  forall (A D : Type) (m : mode) (s : Shape Cell A D) axes fwd opp cell step coord,
  ShapeContract m s axes fwd opp cell step coord <->
  OneWayContract m s axes fwd opp cell step coord /\
  (forall c d c', In c (board (sh_horizontal s) (sh_vertical s) cell) ->
     step c d = Some c' -> step c' (opp d) = Some c).
Proof. exact contract_one_way. Qed.
Print Assumptions C116_difference.

(** Construction, weights, nodes, neighbours and the list of all edges do not depend on the
    way back. *)
Theorem C116_rest_partial :
  forall (A D N E : Type) (m : mode) (s : Shape Cell A D) axes fwd opp cell step coord,
  OneWayContract m s axes fwd opp cell step coord ->
  let G := contract_geometry s axes fwd opp cell step coord in
  let nodes := board (sh_horizontal s) (sh_vertical s) cell in
  let dirs := all_dirs (ax_DIRECTED (sh_axis s)) axes fwd opp in
  (forall (nf : Cell -> N) (ef : Cell -> A -> E), exists g,
     new_with s (fun st c => (nf c, st)) (fun st c a => (ef c a, st)) m tt = Ok (g, tt) /\
     Built m s G g nf ef) /\
  (forall (g : LatticeGraph Cell A D N E) nf ef, Built m s G g nf ef ->
     (forall c, In c nodes -> node_weight m g c = Ok (Some (nf c))) /\
     (forall c a, In c nodes -> step c (fwd a) <> None ->
        edge_weight m g (c, a) = Ok (Some (ef c a))) /\
     Drains (node_indices_next m (g_s g)) (node_identifiers g) nodes /\
     Drains (node_references_next m g) (node_references g) (map (fun c => (c, nf c)) nodes) /\
     (forall c, In c nodes ->
        Drains (neighbors_next m g c) (neighbors g c) (step_neighbors dirs step c)) /\
     Drains (edge_references_next m g) (edge_references g)
       (step_edge_references nodes axes fwd step ef)).
Proof. intros A D N E m s axes fwd opp cell step coord SC. exact (conj (ow_new SC) (ow_rest SC)). Qed.
Print Assumptions C116_rest_partial.

(** [edges] is safe at a node exactly if each step against an axis leads to a node that has an
    edge along this axis.  The weight it shows is the weight of that edge, also if that edge
    leads elsewhere. *)
Theorem C116_edges_partial :
  forall (A D N E : Type) (m : mode) (s : Shape Cell A D) axes fwd opp cell step coord,
  OneWayContract m s axes fwd opp cell step coord ->
  let G := contract_geometry s axes fwd opp cell step coord in
  let nodes := board (sh_horizontal s) (sh_vertical s) cell in
  forall (g : LatticeGraph Cell A D N E) nf ef, Built m s G g nf ef ->
  forall c, In c nodes ->
  (ax_DIRECTED (sh_axis s) = false -> forall a, has_weight fwd opp step c a) ->
  exists it, edges m g c = Ok it /\
    Drains (edges_next m g) it (step_edges (ax_DIRECTED (sh_axis s)) axes fwd opp step ef c).
Proof.
  intros A D N E m s axes fwd opp cell step coord SC G nodes g nf ef HB c Hc.
  exact (ow_edges_safe SC g nf ef HB c Hc AxisDirMarker eq_refl eq_refl).
Qed.
Print Assumptions C116_edges_partial.

(** Otherwise it gives the references up to the first such step, and then reads a slot that was
    never written, in both build modes. *)
Theorem C116_edges_fault :
  forall (A D N E : Type) (m : mode) (s : Shape Cell A D) axes fwd opp cell step coord,
  OneWayContract m s axes fwd opp cell step coord ->
  let G := contract_geometry s axes fwd opp cell step coord in
  let nodes := board (sh_horizontal s) (sh_vertical s) cell in
  forall (g : LatticeGraph Cell A D N E) nf ef, Built m s G g nf ef ->
  forall c, In c nodes -> forall l1 a l2 c',
  axes = l1 ++ a :: l2 -> ax_DIRECTED (sh_axis s) = false ->
  (forall b, In b l1 -> has_weight fwd opp step c b) ->
  step c (opp (fwd a)) = Some c' -> step c' (fwd a) = None ->
  exists it it', edges m g c = Ok it /\
    Consumed (edges_next m g) it
      (along fwd step ef c axes ++ against fwd opp step ef c l1) it' /\
    edges_next m g it' = Fail FUB.
Proof.
  intros A D N E m s axes fwd opp cell step coord SC G nodes g nf ef HB c Hc l1 a l2 c' H1 H2 H3 H4 H5.
  exact (ow_edges_ub SC g nf ef HB c Hc l1 a l2 c' H1 H2 H3 H4 H5 AxisDirMarker eq_refl eq_refl).
Qed.
Print Assumptions C116_edges_fault.

(** The same of the incoming edges of undirected graphs. *)
Theorem C116_incoming :
  forall (A D N E : Type) (m : mode) (s : Shape Cell A D) axes fwd opp cell step coord,
  OneWayContract m s axes fwd opp cell step coord ->
  let G := contract_geometry s axes fwd opp cell step coord in
  let nodes := board (sh_horizontal s) (sh_vertical s) cell in
  ax_DIRECTED (sh_axis s) = false ->
  forall (g : LatticeGraph Cell A D N E) nf ef, Built m s G g nf ef ->
  forall c, In c nodes ->
  ((forall a, has_weight fwd opp step c a) ->
     exists it, edges_directed m g c Incoming = Ok it /\
       Drains (edges_next m g) it (map turned (step_edges false axes fwd opp step ef c))) /\
  (forall l1 a l2 c', axes = l1 ++ a :: l2 ->
     (forall b, In b l1 -> has_weight fwd opp step c b) ->
     step c (opp (fwd a)) = Some c' -> step c' (fwd a) = None ->
     exists it it', edges_directed m g c Incoming = Ok it /\
       Consumed (edges_next m g) it
         (map turned (along fwd step ef c axes ++ against fwd opp step ef c l1)) it' /\
       edges_next m g it' = Fail FUB).
Proof.
  intros A D N E m s axes fwd opp cell step coord SC G nodes Hd g nf ef HB c Hc.
  exact (conj (ow_incoming_safe SC g nf ef HB c Hc Hd)
    (fun l1 a l2 c' H1 H3 => ow_incoming_ub SC g nf ef HB c Hc l1 a l2 c' H1 Hd H3)).
Qed.
Print Assumptions C116_incoming.

(** And of those of directed graphs, in release builds (in debug builds every incoming edge of
    a directed graph is a panic, C18).  The nodes listed are those to which there is a step
    from [c], not those from which there is a step to [c]. *)
Theorem C116_directed :
  forall (A D N E : Type) (s : Shape Cell A D) axes fwd opp cell step coord,
  OneWayContract Release s axes fwd opp cell step coord ->
  let G := contract_geometry s axes fwd opp cell step coord in
  let nodes := board (sh_horizontal s) (sh_vertical s) cell in
  forall back, (forall a, fwd (back a) = opp (fwd a)) -> ax_DIRECTED (sh_axis s) = true ->
  forall (g : LatticeGraph Cell A D N E) nf ef, Built Release s G g nf ef ->
  forall c, In c nodes ->
  ((forall a c', step c (fwd a) = Some c' -> step c' (opp (fwd a)) <> None) ->
     exists it, edges_directed Release g c Incoming = Ok it /\
       Drains (edges_next Release g) it (sources fwd back step ef c axes)) /\
  (forall l1 a l2 c', axes = l1 ++ a :: l2 ->
     (forall b t, In b l1 -> step c (fwd b) = Some t -> step t (opp (fwd b)) <> None) ->
     step c (fwd a) = Some c' -> step c' (opp (fwd a)) = None ->
     exists it it', edges_directed Release g c Incoming = Ok it /\
       Consumed (edges_next Release g) it (sources fwd back step ef c l1) it' /\
       edges_next Release g it' = Fail FUB).
Proof.
  intros A D N E s axes fwd opp cell step coord SC G nodes back Hb Hd g nf ef HB c Hc.
  exact (conj (ow_sources_safe SC back Hb Hd eq_refl g nf ef HB c Hc)
    (ow_sources_ub SC back Hb Hd eq_refl g nf ef HB c Hc)).
Qed.
Print Assumptions C116_directed.

(** Undefined behaviour without unsafe code of the user, on every board: a row that is joined
    to a loop to the left, but not to the right. *)
Theorem C116_refuted :
  forall (N E : Type) (m : mode) (w h : Z), fits w h -> 1 <= w ->
  let s := roller Wall Around w h in
  OneWayContract m s [SX; SY] sq_fwd dsq_backward (fun x y => (x, y))
    (roller_step Wall Around w h) usize_pair /\
  forall (g : LatticeGraph Cell SquareAxis DirectedSquareAxis N E) nf ef,
  Built m s (contract_geometry s [SX; SY] sq_fwd dsq_backward (fun x y => (x, y))
    (roller_step Wall Around w h) usize_pair) g nf ef ->
  forall y, 0 <= y < h ->
  exists it it', edges m g (0, y) = Ok it /\
    Consumed (edges_next m g) it
      (along sq_fwd (roller_step Wall Around w h) ef (0, y) [SX; SY]) it' /\
    edges_next m g it' = Fail FUB.
Proof.
  intros N E m w h F Hw s.
  exact (conj (roller_one_way m Wall Around w h F)
    (fun g nf ef HB y Hy => roller_half N E m w h g nf ef y F Hy Hw HB)).
Qed.
Print Assumptions C116_refuted.

Theorem C116_directed_refuted :
  forall (N E : Type) (w h : Z), fits w h -> 1 <= w ->
  let s := roller_dir Around Wall w h in
  OneWayContract Release s [DX; DY; DRX; DRY] (fun d => d) dsq_backward (fun x y => (x, y))
    (roller_step Around Wall w h) usize_pair /\
  forall (g : LatticeGraph Cell DirectedSquareAxis DirectedSquareAxis N E) nf ef,
  Built Release s (contract_geometry s [DX; DY; DRX; DRY] (fun d => d) dsq_backward
    (fun x y => (x, y)) (roller_step Around Wall w h) usize_pair) g nf ef ->
  forall y, 0 <= y < h ->
  exists it, edges_directed Release g (w - 1, y) Incoming = Ok it /\
    edges_next Release g it = Fail FUB.
Proof.
  intros N E w h F Hw s.
  exact (conj (roller_dir_one_way Release Around Wall w h F)
    (fun g nf ef HB y Hy => roller_half_dir N E w h g nf ef y F Hy Hw HB)).
Qed.
Print Assumptions C116_directed_refuted.

(** A row that goes on in the next row to the right, but is joined to a loop to the left: no
    undefined behaviour, but (0, 0) has an edge to (2, 0), which has no edge to (0, 0).  The
    weight shown is the one of the edge from (2, 0) to (0, 1). *)
Theorem C116_shared_refuted :
  exists s step, OneWayContract Debug s [SX; SY] sq_fwd dsq_backward (fun x y => (x, y)) step
    usize_pair /\
  (forall c a, has_weight sq_fwd dsq_backward step c a) /\
  let g := demo s Debug in
  let run c := let! it := edges Debug g c in Demo.collect (edges_next Debug g) 5 it in
  exists l l' x, run (0, 0) = Ok l /\ run (2, 0) = Ok l' /\
    In (mkEdgeRef (0, 0) (2, 0) x DRX) l /\ In (mkEdgeRef (2, 0) (0, 1) x DX) l' /\
    forall r, In r l' -> er_target r <> (0, 0).
Proof.
  exists (roller Askew Around 3 2), (roller_step Askew Around 3 2).
  split; [apply roller_one_way; repeat split; vm_compute; congruence|].
  split; [exact askew_has_weight|].
  vm_compute. do 3 eexists. split; [reflexivity|]. split; [reflexivity|].
  split; [right; right; left; reflexivity|]. split; [left; reflexivity|].
  intros r Hr. repeat (destruct Hr as [<-|Hr]; [discriminate|]). destruct Hr.
Qed.
Print Assumptions C116_shared_refuted.

(** The same shapes with the same behind both rims keep the whole contract. *)
Example C116_sound : forall m e w h, fits w h ->
  ShapeContract m (roller e e w h) [SX; SY] sq_fwd dsq_backward (fun x y => (x, y))
    (roller_step e e w h) usize_pair.
Proof. exact roller_contract. Qed.

(** What a user sees. *)
Example C116_case :
  let run e1 e2 c := let g := demo (roller e1 e2 3 2) Debug in
    let! it := edges Debug g c in
    let! l := Demo.collect (edges_next Debug g) 5 it in Ok (map er_target l) in
  run Wall Around (1, 1) = Ok [(2, 1); (0, 1); (1, 0)] /\
  run Wall Around (0, 1) = Fail FUB /\
  run Around Wall (0, 1) = Ok [(1, 1); (0, 0)] /\
  run Around Around (0, 1) = Ok [(1, 1); (2, 1); (0, 0)] /\
  (let g := demo (roller_dir Around Wall 3 2) Release in
   let! it := edges_directed Release g (2, 1) Incoming in
   Demo.collect (edges_next Release g) 5 it) = Fail FUB /\
  (let g := demo (roller_dir Around Wall 3 2) Release in
   let! it := edges_directed Release g (1, 1) Incoming in
   let! l := Demo.collect (edges_next Release g) 5 it in Ok (map er_source l))
  = Ok [(2, 1); (0, 1); (1, 0)].
Proof. vm_compute. auto 10. Qed.
