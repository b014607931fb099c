(** * Properties2: shapes compared with each other, loops, layouts, counts
    (C27-C33, C53-C57).

    For [Stored], [Supported], [Traversable] and [Built] see Properties1.v.  A property that
    does not hold has a theorem named [_refuted], usually for every board that is affected,
    and what remains true of it is named [_partial]. *)

From Verif Require Import Machine Store Axes Shapes Lattice Spec Spec2 Main1 IsoProofs
  LoopProofs QuirkProofs OffboardProofs UnsafeProofs ConnProofs CountProofs Demo.

(** ** C27 *)

Theorem C27_moves :
  forall (A : Type) (s s' : Shape Cell A AxisDR) (G G' : Geometry A AxisDR),
  SameHexBoard s G s' G' ->
  forall (m : mode) (x y : Z), 0 <= x < sh_horizontal s -> 0 <= y < sh_vertical s ->
  exists c', sh_offset_to_coordinate s' m (x, y) = Ok c' /\ stored_at m s' (x, y) c' /\
  forall d, exists t t', sh_move_coord s m (x, y) d = Ok t /\
    sh_move_coord s' m c' d = Ok t' /\
    match t, t' with
    | Some n, Some n' => stored_at m s' n n'
    | None, None => True
    | _, _ => False
    end.
Proof. exact c27_moves. Qed.
Print Assumptions C27_moves.

Theorem C27_graphs :
  forall (A N E : Type) (s s' : Shape Cell A AxisDR) (G G' : Geometry A AxisDR),
  SameHexBoard s G s' G' ->
  forall m (g g' : LatticeGraph Cell A AxisDR N E) nf ef nf' ef',
  Built m s G g nf ef -> Built m s' G' g' nf' ef' ->
  (forall c c' a, In c' (geo_nodes G') -> stored_at m s' c c' -> ef' c' a = ef c a) ->
  forall c c', In c' (geo_nodes G') -> stored_at m s' c c' ->
  (exists l l', Drains (neighbors_next m g c) (neighbors g c) l /\
    Drains (neighbors_next m g' c') (neighbors g' c') l' /\
    Forall2 (stored_at m s') l l') /\
  (exists it l it' l', edges m g c = Ok it /\ Drains (edges_next m g) it l /\
    edges m g' c' = Ok it' /\ Drains (edges_next m g') it' l' /\
    Forall2 (same_reference m s') l l').
Proof. exact c27_graph. Qed.
Print Assumptions C27_graphs.

Example C27_case :
  SameHexBoard (hex_offset_r OddR 3 3) (offset_r_geometry hexr_axes OddR 3 3)
    (hex_axial_r HAxial OddR 3 3) (axial_r_geometry hexr_axes HAxial OddR 3 3) /\
  stored_at Debug (hex_axial_r HAxial OddR 3 3) (1, 2) (0, 2) /\
  sh_move_coord (hex_offset_r OddR 3 3) Debug (1, 2) RSE = Ok (Some (1, 1)) /\
  sh_move_coord (hex_axial_r HAxial OddR 3 3) Debug (0, 2) RSE = Ok (Some (1, 1)) /\
  stored_at Debug (hex_axial_r HAxial OddR 3 3) (1, 1) (1, 1).
Proof.
  split; [apply same_hex; [apply fits_small; lia|exact I]|]. vm_compute. auto.
Qed.

(** ** C28 *)

Theorem C28_loop :
  forall (m : mode) (b : HexR) (w h x y : Z), fits w h -> 0 <= x < w -> 0 <= y < h ->
  let s := hex_offset_r_lew b w h in
  sh_move_coord s m (x, y) RE = Ok (Some ((x + 1) mod w, y)) /\
  sh_move_coord s m (x, y) RW = Ok (Some ((x - 1) mod w, y)) /\
  walk s m (x, y) [RE; RW] = Ok (Some (x, y)) /\
  walk s m (x, y) [RW; RE] = Ok (Some (x, y)) /\
  walk s m (x, y) (repeat RE (Z.to_nat w)) = Ok (Some (x, y)) /\
  (forall d, d = RNE \/ d = RNW ->
    if y =? h - 1 then sh_move_coord s m (x, y) d = Ok None
    else exists x', 0 <= x' < w /\ sh_move_coord s m (x, y) d = Ok (Some (x', y + 1))) /\
  (forall d, d = RSE \/ d = RSW ->
    if y =? 0 then sh_move_coord s m (x, y) d = Ok None
    else exists x', 0 <= x' < w /\ sh_move_coord s m (x, y) d = Ok (Some (x', y - 1))).
Proof. exact c28. Qed.
Print Assumptions C28_loop.

Example C28_case : fits 3 2 /\
  sh_move_coord lp Debug (2, 1) RE = Ok (Some (0, 1)) /\
  sh_move_coord lp Debug (2, 1) RSE = Ok (Some (0, 0)) /\
  sh_move_coord lp Debug (0, 0) RW = Ok (Some (2, 0)) /\
  sh_move_coord lp Debug (0, 0) RNW = Ok (Some (2, 1)) /\
  sh_move_coord lp Debug (2, 1) RNE = Ok None.
Proof. split; [apply fits_small; lia|]. vm_compute. auto. Qed.

(** ** C29 *)

(** From the last cell of any row [y] with [2 <= y + co] the move to the east leaves the
    board. *)
Theorem C29_east_refuted :
  forall (k : AxialKind) (b : HexR) (w h : Z) (m : mode) (y : Z),
  fits w h -> axial_fits k (co_r b) w h -> 0 < w -> 0 <= y < h -> 2 <= y + co_r b ->
  let s := hex_axial_r_lew k b w h in
  exists c c', sh_offset_to_coordinate s m (w - 1, y) = Ok c /\
    sh_to_offset s m c = Ok (Some (w - 1, y)) /\
    sh_move_coord s m c RE = Ok (Some c') /\ sh_to_offset s m c' = Ok None.
Proof. exact axial_e_last. Qed.
Print Assumptions C29_east_refuted.

Theorem C29_northeast_refuted :
  forall (k : AxialKind) (b : HexQ) (w h : Z) (m : mode) (y : Z),
  fits w h -> axial_fits k (co_q b) w h -> 0 < w -> 0 <= y < h -> 2 <= y + co_q b ->
  let s := hex_axial_q_lew k b w h in
  exists c c', sh_offset_to_coordinate s m (w - 1, y) = Ok c /\
    sh_to_offset s m c = Ok (Some (w - 1, y)) /\
    sh_move_coord s m c QNE = Ok (Some c') /\ sh_to_offset s m c' = Ok None.
Proof. exact axial_e_last_q. Qed.
Print Assumptions C29_northeast_refuted.

(** The result of every move: [axial_loop_step] (Spec2.v) wraps at both ends, but at the
    eastern one only in the rows [y] with [y + co < 2]. *)
Theorem C29_moves_partial :
  forall (k : AxialKind) (b : HexR) (w h : Z) (m : mode) (c : Cell) (d : AxisDR) (t : Cell),
  fits w h -> axial_fits k (co_r b) w h -> In c (board w h (axial_cell (co_r b))) ->
  axial_r_pos t = vadd (axial_r_pos c) (hexr_vec d) ->
  sh_move_coord (hex_axial_r_lew k b w h) m c d = Ok (axial_loop_step (co_r b) w h t).
Proof. exact axial_loop_r_exact. Qed.
Print Assumptions C29_moves_partial.

Theorem C29_moves_q_partial :
  forall (k : AxialKind) (b : HexQ) (w h : Z) (m : mode) (c : Cell) (d : AxisDQ) (t : Cell),
  fits w h -> axial_fits k (co_q b) w h -> In c (board w h (axial_cell (co_q b))) ->
  axial_q_pos t = vadd (axial_q_pos c) (hexq_vec d) ->
  sh_move_coord (hex_axial_q_lew k b w h) m c d = Ok (axial_loop_step (co_q b) w h t).
Proof. exact axial_loop_q_exact. Qed.
Print Assumptions C29_moves_q_partial.

(** [w] moves to the west return to the start in every row, [w] moves to the east in the
    first two rows ([OddR]) or the first one ([EvenR]). *)
Theorem C29_around_partial :
  forall (k : AxialKind) (b : HexR) (w h : Z) (m : mode) (x y : Z),
  fits w h -> axial_fits k (co_r b) w h -> 0 <= x < w -> 0 <= y < h ->
  let s := hex_axial_r_lew k b w h in let c := axial_cell (co_r b) x y in
  walk s m c (repeat RW (Z.to_nat w)) = Ok (Some c) /\
  (y + co_r b < 2 -> walk s m c (repeat RE (Z.to_nat w)) = Ok (Some c)).
Proof. exact c29_around. Qed.
Print Assumptions C29_around_partial.

Example C29_case : fits 3 3 /\ axial_fits HAxial (co_r OddR) 3 3 /\
  In (1, 2) (board 3 3 (axial_cell (co_r OddR))) /\
  axial_r_pos (2, 2) = vadd (axial_r_pos (1, 2)) (hexr_vec RE) /\
  sh_move_coord al Debug (1, 2) RE = Ok (Some (2, 2)) /\
  sh_to_offset al Debug (2, 2) = Ok None /\
  sh_move_coord al Debug (-1, 2) RW = Ok (Some (1, 2)) /\
  sh_move_coord al Debug (2, 1) RE = Ok (Some (0, 1)).
Proof. split; [apply fits_small; lia|]. split; [exact I|]. vm_compute. tauto. Qed.

(** ** C30 *)

(** The documented layout is the one in use only on boards with at most two columns and rows
    ([OddQ]) or one ([EvenQ]). *)
Theorem C30_layout_refuted :
  forall (k : AxialKind) (b : HexQ) (w h : Z) (m : mode),
  fits w h -> axial_fits k (co_q b) w h -> 1 <= w -> 1 <= h ->
  3 <= w + co_q b \/ 3 <= h + co_q b ->
  exists x y, 0 <= x < w /\ 0 <= y < h /\
    sh_offset_to_coordinate (hex_axial_q k b w h) m (x, y) <> Ok (documented_cell (co_q b) x y).
Proof. exact c30_wrong. Qed.
Print Assumptions C30_layout_refuted.

(** A cell that the documentation draws is not on the board at all. *)
Theorem C30_cell_refuted :
  forall (k : AxialKind) (b : HexQ) (w h : Z) (m : mode),
  fits w h -> axial_fits k (co_q b) w h -> 1 <= h -> 3 <= w + co_q b ->
  exists x, 0 <= x < w /\
    sh_to_offset (hex_axial_q k b w h) m (documented_cell (co_q b) x 0) = Ok None.
Proof. exact c30_off. Qed.
Print Assumptions C30_cell_refuted.

Theorem C30_small_partial :
  forall (k : AxialKind) (b : HexQ) (w h : Z) (m : mode) (x y : Z),
  fits w h -> axial_fits k (co_q b) w h -> w + co_q b <= 2 -> h + co_q b <= 2 ->
  0 <= x < w -> 0 <= y < h ->
  sh_offset_to_coordinate (hex_axial_q k b w h) m (x, y) = Ok (documented_cell (co_q b) x y).
Proof. exact c30_right. Qed.
Print Assumptions C30_small_partial.

(** The layout in use: rows are shifted, as on boards with an R base. *)
Theorem C30_actual_partial :
  forall (k : AxialKind) (b : HexQ) (w h : Z) (m : mode) (x y : Z),
  fits w h -> axial_fits k (co_q b) w h -> 0 <= x < w -> 0 <= y < h ->
  sh_offset_to_coordinate (hex_axial_q k b w h) m (x, y) = Ok (x - (y + co_q b) / 2, y) /\
  sh_to_offset (hex_axial_q k b w h) m (x - (y + co_q b) / 2, y) = Ok (Some (x, y)).
Proof. exact axial_q_offset. Qed.
Print Assumptions C30_actual_partial.

(** The drawing of the documentation, and the board of that size. *)
Example C30_case : fits 3 2 /\
  map (fun o => documented_cell 0 (fst o) (snd o)) [(0, 0); (0, 1); (1, 0); (1, 1); (2, 0); (2, 1)]
    = [(0, 0); (0, 1); (1, 0); (1, 1); (2, -1); (2, 0)] /\
  geo_nodes (axial_q_geometry hexq_axes HAxial OddQ 3 2)
    = [(0, 0); (0, 1); (1, 0); (1, 1); (2, 0); (2, 1)] /\
  sh_to_offset (hex_axial_q HAxial OddQ 3 2) Debug (2, -1) = Ok None.
Proof. split; [apply fits_small; lia|]. vm_compute. auto. Qed.

(** ** C31 *)

(** On every board of two or more columns some move leads to a cell that is not on the board,
    or from which the opposite direction does not lead back. *)
Theorem C31_reversible_refuted :
  forall (b : HexQ) (w h : Z) (m : mode), fits w h -> 2 <= w -> 1 <= h ->
  exists c d c', In c (board w h (fun x y => (x, y))) /\
    sh_move_coord (hex_offset_q b w h) m c d = Ok (Some c') /\
    forall d', hexq_vec d' = vneg (hexq_vec d) ->
      In c' (board w h (fun x y => (x, y))) ->
      sh_move_coord (hex_offset_q b w h) m c' d' <> Ok (Some c).
Proof. exact c31_wrong. Qed.
Print Assumptions C31_reversible_refuted.

Theorem C31_board_refuted :
  forall (b : HexQ) (w h : Z) (m : mode), fits w h -> 2 <= w -> 1 <= h -> h mod 2 <> co_q b ->
  sh_move_coord (hex_offset_q b w h) m (0, h - 1) QNE = Ok (Some (1, h)) /\
  sh_to_offset (hex_offset_q b w h) m (1, h) = Ok None.
Proof. exact c31_off. Qed.
Print Assumptions C31_board_refuted.

(** Undefined behaviour: [edges] reads a slot that was never written, on every graph over a
    shape of the list [Untraversable] (Spec.v). *)
Theorem C31_edges_refuted :
  forall (A D N E : Type) (m : mode) (s : Shape Cell A D) (G : Geometry A D),
  Untraversable s G ->
  forall (g : LatticeGraph Cell A D N E) nf ef, Built m s G g nf ef ->
  exists c it l it', In c (geo_nodes G) /\ edges m g c = Ok it /\
    Consumed (edges_next m g) it l it' /\ edges_next m g it' = Fail FUB.
Proof. exact untraversable_ub. Qed.
Print Assumptions C31_edges_refuted.

(** These are all: on every other shape and size [edges] is safe (C12_edges). *)
Theorem C31_complete_partial :
  forall (A D : Type) (s : Shape Cell A D) (G : Geometry A D), Stored s G ->
  Traversable s G \/ Untraversable s G.
Proof. exact StoreProofs.traversable_or_not. Qed.
Print Assumptions C31_complete_partial.

(** The vertical moves are right, and adjacency is symmetric between cells of the board. *)
Theorem C31_vertical_partial :
  forall (b : HexQ) (w h : Z) (m : mode) (x y : Z), fits w h -> 0 <= x < w -> 0 <= y < h ->
  sh_move_coord (hex_offset_q b w h) m (x, y) QN
    = Ok (if y =? h - 1 then None else Some (x, y + 1)) /\
  sh_move_coord (hex_offset_q b w h) m (x, y) QS
    = Ok (if y =? 0 then None else Some (x, y - 1)).
Proof. exact c31_vertical. Qed.
Print Assumptions C31_vertical_partial.

Theorem C31_symmetric_partial :
  forall (b : HexQ) (w h : Z) (m : mode) (c : Cell) (d : AxisDQ) (c' : Cell), fits w h ->
  In c (board w h (fun x y => (x, y))) -> In c' (board w h (fun x y => (x, y))) ->
  sh_move_coord (hex_offset_q b w h) m c d = Ok (Some c') ->
  exists d', sh_move_coord (hex_offset_q b w h) m c' d' = Ok (Some c).
Proof. exact c31_symmetric. Qed.
Print Assumptions C31_symmetric_partial.

Theorem C31_column_partial :
  forall (b : HexQ) (w h : Z) (m : mode) (y : Z) (d : AxisDQ), fits w h -> w = 1 -> 0 <= y < h ->
  sh_move_coord (hex_offset_q b w h) m (0, y) d
    = Ok (match d with
          | QN => if y =? h - 1 then None else Some (0, y + 1)
          | QS => if y =? 0 then None else Some (0, y - 1)
          | _ => None end).
Proof. exact c31_column. Qed.
Print Assumptions C31_column_partial.

Example C31_case : Untraversable oq oqG /\ Built Debug oq oqG (demo oq Debug) demo_node (demo_edge oq) /\
  sh_move_coord oq Debug (0, 2) QNE = Ok (Some (1, 3)) /\
  sh_move_coord oq Debug (0, 2) QNW = Ok (Some (1, 2)) /\
  sh_move_coord oq Debug (0, 1) QNE = Ok (Some (1, 1)) /\
  sh_move_coord oq Debug (1, 1) QSW = Ok (Some (0, 0)) /\
  match edges Debug (demo oq Debug) (0, 2) with
  | Ok it => Demo.collect (edges_next Debug (demo oq Debug)) 7 it = Fail FUB
  | Fail _ => False
  end.
Proof.
  split; [apply un_offset_q; [apply fits_small; lia|lia|lia|vm_compute; discriminate]|].
  split; [apply demo_stored; exact oq_ok|]. vm_compute. auto.
Qed.

(** ** C32 *)

(** The directions N and S move along the row. *)
Theorem C32_vertical_refuted :
  forall (b : HexQ) (w h : Z) (m : mode) (x y : Z), fits w h -> 0 <= x < w -> 0 <= y < h ->
  sh_move_coord (hex_offset_q_lew b w h) m (x, y) QN = Ok (Some ((x + 1) mod w, y)) /\
  sh_move_coord (hex_offset_q_lew b w h) m (x, y) QS = Ok (Some ((x - 1) mod w, y)).
Proof. exact c32_wrong. Qed.
Print Assumptions C32_vertical_refuted.

Theorem C32_reversible_refuted :
  forall (b : HexQ) (w h : Z) (m : mode), fits w h -> 2 <= w -> 2 <= h ->
  exists c d c', In c (board w h (fun x y => (x, y))) /\ In c' (board w h (fun x y => (x, y))) /\
    sh_move_coord (hex_offset_q_lew b w h) m c d = Ok (Some c') /\
    forall d', hexq_vec d' = vneg (hexq_vec d) ->
      sh_move_coord (hex_offset_q_lew b w h) m c' d' <> Ok (Some c).
Proof. exact c32_reversible. Qed.
Print Assumptions C32_reversible_refuted.

(** Adjacency is symmetric, and moves stay on the board. *)
Theorem C32_symmetric_partial :
  forall (b : HexQ) (w h : Z) (m : mode) (c : Cell) (d : AxisDQ) (c' : Cell), fits w h ->
  In c (board w h (fun x y => (x, y))) ->
  sh_move_coord (hex_offset_q_lew b w h) m c d = Ok (Some c') ->
  In c' (board w h (fun x y => (x, y))) /\
  exists d', sh_move_coord (hex_offset_q_lew b w h) m c' d' = Ok (Some c).
Proof. exact c32_symmetric. Qed.
Print Assumptions C32_symmetric_partial.

Example C32_case : fits 3 3 /\
  sh_move_coord (hex_offset_q_lew OddQ 3 3) Debug (2, 1) QN = Ok (Some (0, 1)) /\
  sh_move_coord (hex_offset_q_lew OddQ 3 3) Debug (0, 1) QNE = Ok (Some (1, 1)) /\
  sh_move_coord (hex_offset_q_lew OddQ 3 3) Debug (1, 1) QSW = Ok (Some (0, 0)) /\
  Untraversable (hex_offset_q_lew OddQ 3 3)
    (rect_code_geometry hexq_axes (hex_offset_q_lew OddQ 3 3) 3 3).
Proof.
  split; [apply fits_small; lia|]. split; [reflexivity|]. split; [reflexivity|].
  split; [reflexivity|]. apply un_offset_q_loop; [apply fits_small; lia|lia|lia|left; reflexivity].
Qed.

(** ** C33 *)

(** Two coordinates denote the same node. *)
Theorem C33_alias_refuted :
  forall (w h : Z) (m : mode), 1 <= w -> 1 <= h ->
  sh_to_offset (double_shape w h) m (0, 0) = Ok (Some (0, 0)) /\
  sh_to_offset (double_shape w h) m (1, 0) = Ok (Some (0, 0)).
Proof. exact c33_alias. Qed.
Print Assumptions C33_alias_refuted.

(** Cells of the right half of the board: the move to the east is refused, the one back is
    not, and [is_adjacent] says yes although [neighbors] does not have the cell. *)
Theorem C33_adjacency_refuted :
  forall (w h : Z) (m : mode) (y x : Z), fits w h -> 0 <= y < h -> 0 <= x -> x mod 2 = y mod 2 ->
  w <= x + 2 -> (x + 2) / 2 < w ->
  sh_move_coord (double_shape w h) m (x, y) RE = Ok None /\
  sh_move_coord (double_shape w h) m (x + 2, y) RW = Ok (Some (x, y)) /\
  sh_is_neighbor (double_shape w h) m (x, y) (x + 2, y) = Ok true /\
  (forall d, sh_move_coord (double_shape w h) m (x, y) d <> Ok (Some (x + 2, y))).
Proof. exact c33_oneway. Qed.
Print Assumptions C33_adjacency_refuted.

(** [edges] is undefined behaviour at some node, see also C31_edges_refuted. *)
Theorem C33_edges_refuted :
  forall (N E : Type) (m : mode) (w h : Z), fits w h -> 2 <= w * h ->
  forall (g : LatticeGraph Cell AxisR AxisDR N E) nf ef,
  Built m (double_shape w h) (double_code_geometry w h) g nf ef ->
  exists c it l it', In c (geo_nodes (double_code_geometry w h)) /\ edges m g c = Ok it /\
    Consumed (edges_next m g) it l it' /\ edges_next m g it' = Fail FUB.
Proof. intros N E m w h F H. exact (untraversable_ub _ _ N E m _ _ (un_double w h F H)). Qed.
Print Assumptions C33_edges_refuted.

(** Coordinates with components of the same parity denote different nodes. *)
Theorem C33_nodes_partial :
  forall (w h : Z) (m : mode) (c c' : Cell) (o : Offset),
  fst c mod 2 = snd c mod 2 -> fst c' mod 2 = snd c' mod 2 ->
  sh_to_offset (double_shape w h) m c = Ok (Some o) ->
  sh_to_offset (double_shape w h) m c' = Ok (Some o) -> c = c'.
Proof. exact c33_injective. Qed.
Print Assumptions C33_nodes_partial.

(** Moves to the west, and those that end in the first [w] coordinates, are right. *)
Theorem C33_moves_partial :
  forall (w h : Z) (m : mode) (x y : Z) (d : AxisDR), fits w h -> In (x, y) (board w h double_cell) ->
  d = RW \/ d = RNW \/ d = RSW \/ x + fst (hexr_vec d) < w ->
  let t := vadd (x, y) (hexr_vec d) in
  sh_move_coord (double_shape w h) m (x, y) d
    = Ok (if (0 <=? fst t) && (0 <=? snd t) && (snd t <? h) then Some t else None).
Proof. exact c33_moves. Qed.
Print Assumptions C33_moves_partial.

Example C33_case : Stored db dbG /\ Untraversable db dbG /\
  sh_move_coord db Debug (2, 0) RE = Ok None /\
  sh_move_coord db Debug (4, 0) RW = Ok (Some (2, 0)) /\
  sh_is_neighbor db Debug (2, 0) (4, 0) = Ok true /\
  sh_move_coord db Debug (1, 1) RNE = Ok (Some (2, 2)) /\
  match edges Debug (demo db Debug) (4, 0) with
  | Ok it => Demo.collect (edges_next Debug (demo db Debug)) 7 it = Fail FUB
  | Fail _ => False
  end.
Proof.
  split; [exact db_ok|]. split; [apply un_double; [apply fits_small; lia|lia]|].
  vm_compute. auto.
Qed.

(** ** C53 *)

Theorem C53_connected :
  forall (A D N E : Type) (m : mode) (s : Shape Cell A D) (G : Geometry A D), Supported s G ->
  forall (g : LatticeGraph Cell A D N E) nf ef, Built m s G g nf ef ->
  forall a b, In a (geo_nodes G) -> In b (geo_nodes G) -> Reachable m g a b.
Proof. intros A D N E m s G SUP g nf ef HB. exact (c53 SUP g nf ef HB). Qed.
Print Assumptions C53_connected.

Example C53_case : Supported hx hxG /\ Built Debug hx hxG (demo hx Debug) demo_node (demo_edge hx) /\
  In (0, 0) (geo_nodes hxG) /\ In (2, 2) (geo_nodes hxG).
Proof.
  split; [exact hx_ok|]. split; [apply demo_built; exact hx_ok|]. vm_compute. tauto.
Qed.

(** ** C54 *)

Theorem C54_total :
  forall (A D N E : Type) (m : mode) (s : Shape Cell A D) (G : Geometry A D) (n : Z)
    (g : LatticeGraph Cell A D N E) nf ef,
  Supported s G -> EdgeTotal s G n -> 1 <= sh_horizontal s -> 1 <= sh_vertical s ->
  Built m s G g nf ef ->
  exists l, Drains (edge_references_next m g) (edge_references g) l /\ Z.of_nat (length l) = n.
Proof. exact c54. Qed.
Print Assumptions C54_total.

Theorem C54_empty :
  forall (A D N E : Type) (m : mode) (s : Shape Cell A D) (G : Geometry A D)
    (g : LatticeGraph Cell A D N E) nf ef,
  Stored s G -> sh_horizontal s = 0 \/ sh_vertical s = 0 -> Built m s G g nf ef ->
  Drains (edge_references_next m g) (edge_references g) [].
Proof. exact c54_empty. Qed.
Print Assumptions C54_empty.

Theorem C54_per_axis :
  forall (N E : Type) (m : mode) (w h : Z) (g : LatticeGraph Cell SquareAxis DirectedSquareAxis N E)
    nf ef (a : SquareAxis), fits w h -> 1 <= w -> 1 <= h ->
  let s := square_shape w h in
  Built m s (square_geometry square_axes w h) g nf ef ->
  exists l d x y, Drains (edge_references_next m g) (edge_references g) l /\
    ax_foward (sh_axis s) m a = Ok d /\
    sh_horizontal_edge_size s m a = Ok x /\ sh_vertical_edge_size s m a = Ok y /\
    Z.of_nat (length (filter (fun r => square_dir_eqb (er_direction r) d) l)) = x * y.
Proof. exact c54_square_axis. Qed.
Print Assumptions C54_per_axis.

Example C54_case : Supported lp lpG /\ EdgeTotal lp lpG (hex_loop_total 3 2) /\
  hex_loop_total 3 2 = 12 /\ square_total 3 2 = 7 /\
  match Demo.collect (edge_references_next Debug (demo lp Debug)) 20 (edge_references (demo lp Debug)) with
  | Ok l => length l = 12%nat
  | Fail _ => False
  end.
Proof. split; [exact lp_ok|]. split; [apply total_offset_r_loop|]. vm_compute. auto. Qed.

(** ** C55 *)

Theorem C55_shapes :
  forall (A D : Type) (s : Shape Cell A D) (s' : Shape Cell D D), Variants s s' ->
  forall m,
  sh_horizontal s' = sh_horizontal s /\ sh_vertical s' = sh_vertical s /\
  (forall c, sh_to_offset s' m c = sh_to_offset s m c) /\
  (forall o, sh_offset_to_coordinate s' m o = sh_offset_to_coordinate s m o) /\
  (forall c, sh_to_index s' m c = sh_to_index s m c) /\
  (forall i, sh_index_to_coordinate s' m i = sh_index_to_coordinate s m i) /\
  (forall c d, sh_move_coord s' m c d = sh_move_coord s m c d) /\
  (forall a b, sh_get_direction s' m a b = sh_get_direction s m a b) /\
  (forall a b, sh_is_neighbor s' m a b = sh_is_neighbor s m a b).
Proof. exact c55_shape. Qed.
Print Assumptions C55_shapes.

Theorem C55_graphs :
  forall (A D N N' E E' : Type) (s : Shape Cell A D) (s' : Shape Cell D D) G G', Variants s s' ->
  Stored s G -> Stored s' G' ->
  forall m (g : LatticeGraph Cell A D N E) (g' : LatticeGraph Cell D D N' E') nf ef nf' ef',
  Built m s G g nf ef -> Built m s' G' g' nf' ef' ->
  geo_nodes G' = geo_nodes G /\
  node_bound m g' = node_bound m g /\
  (forall c, to_index m g' c = to_index m g c) /\
  (forall c l, Drains (neighbors_next m g c) (neighbors g c) l <->
               Drains (neighbors_next m g' c) (neighbors g' c) l) /\
  (forall a b, is_adjacent m g' a b = is_adjacent m g a b).
Proof. exact c55_graph. Qed.
Print Assumptions C55_graphs.

(** With the same weight on both edges between two nodes, [edges] yields the same items. *)
Theorem C55_edges :
  forall (A D N N' E : Type) (s : Shape Cell A D) (s' : Shape Cell D D) G G', Variants s s' ->
  Supported s G -> Supported s' G' -> ag_directed (geo_ax G') = true ->
  forall m (g : LatticeGraph Cell A D N E) (g' : LatticeGraph Cell D D N' E) nf ef nf' ef',
  Built m s G g nf ef -> Built m s' G' g' nf' ef' ->
  (forall c d c' x a, geo_step G c d = Some c' -> edge_name G c d c' = Some (x, a) ->
     ef' c d = ef x a) ->
  forall c, In c (geo_nodes G) ->
  exists it it' l, edges m g c = Ok it /\ edges m g' c = Ok it' /\
    Drains (edges_next m g) it l /\ Drains (edges_next m g') it' l.
Proof. exact c55_edges. Qed.
Print Assumptions C55_edges.

Example C55_case : Variants sq (square_dir_shape 3 2) /\ Supported sq sqG /\
  Supported (square_dir_shape 3 2) (square_geometry (directed_axes square_axes) 3 2) /\
  sh_move_coord (square_dir_shape 3 2) Debug (1, 1) DX = Ok (Some (2, 1)).
Proof.
  split; [apply var_square|]. split; [exact sq_ok|].
  split; [apply sup_square_dir; apply fits_small; lia|reflexivity].
Qed.

(** ** C56 *)

(** On every board with at least one cell, of whatever shape: there is a coordinate outside of
    the board whose [neighbors] yields a node, and which [is_adjacent] says is adjacent to it. *)
Theorem C56_neighbors_refuted :
  forall (A D N E : Type) (s : Shape Cell A D) (G : Geometry A D) (m : mode)
    (g : LatticeGraph Cell A D N E) nf ef,
  Stored s G -> geo_nodes G <> [] -> Built m s G g nf ef ->
  exists c t, geo_coord G c /\ ~ In c (geo_nodes G) /\ In t (geo_nodes G) /\
    (exists l it, Consumed (neighbors_next m g c) (neighbors g c) l it /\ In t l) /\
    is_adjacent m g c t = Ok true.
Proof. exact (@c56_all). Qed.
Print Assumptions C56_neighbors_refuted.

(** What is answered instead on square and diagonal boards: the rim is only checked in the
    direction in which a component grows, so most neighbours of an off-board coordinate are off
    the board too. *)
Theorem C56_square_partial :
  forall (A D N E : Type) (s : Shape Cell A D) (G : Geometry A D) (w h : Z) (m : mode)
    (g : LatticeGraph Cell A D N E) nf ef (c : Cell),
  SquareKind s G w h -> Built m s G g nf ef ->
  0 <= fst c < 2 ^ 64 - 1 -> 0 <= snd c < 2 ^ 64 - 1 ->
  Drains (neighbors_next m g c) (neighbors g c)
    (flat_map (fun d => one_sided_step w h c (ag_vec (geo_ax G) d)) (ag_dirs (geo_ax G))).
Proof. exact (@c56_square). Qed.
Print Assumptions C56_square_partial.

(** With axial coordinates and no loop, the answer is the list of the nodes next to the
    coordinate: always on the board, and nothing for a coordinate that is not next to it. *)
Theorem C56_axial_partial :
  forall (A D N E : Type) (k : AxialKind) (s : Shape Cell A D) (G : Geometry A D) (m : mode)
    (g : LatticeGraph Cell A D N E) nf ef (c : Cell),
  AxialPlain k s G -> Built m s G g nf ef -> near_ok k c ->
  Drains (neighbors_next m g c) (neighbors g c) (spec_neighbors G c) /\
  (forall t, In t (spec_neighbors G c) -> In t (geo_nodes G)) /\
  (forall t, exists r, is_adjacent m g c t = Ok r /\ (r = true <-> In t (spec_neighbors G c))).
Proof. exact (@c56_axial). Qed.
Print Assumptions C56_axial_partial.

Example C56_case :
  sh_to_offset sq Debug (3, 1) = Ok None /\
  neighbors_next Debug (demo sq Debug) (3, 1) 0 = Ok (Some (2, 1), 3%nat) /\
  is_adjacent Debug (demo sq Debug) (3, 1) (2, 1) = Ok true /\
  (** far away: neighbours that are not nodes *)
  flat_map (fun d => one_sided_step 3 2 (10, 20) (square_vec d)) [DX; DY; DRX; DRY] =
    [(9, 20); (10, 19)] /\
  SquareKind sq sqG 3 2 /\
  near_ok HAxial (-1, 0) /\
  spec_neighbors (axial_r_geometry hexr_axes HAxial OddR 3 3) (-1, 0) = [(0, 0)] /\
  spec_neighbors (axial_r_geometry hexr_axes HAxial OddR 3 3) (-5, 7) = [].
Proof.
  split; [reflexivity|]. split; [vm_compute; reflexivity|]. split; [vm_compute; reflexivity|].
  split; [reflexivity|]. split; [apply sk_square; apply fits_small; lia|].
  split; [unfold near_ok, axial_coord; cbn [fst snd]; lia|]. split; vm_compute; reflexivity.
Qed.

(** ** C57 *)

(** A board with rows but no columns: the loop that wraps the coordinate makes no progress, so
    it does not end within 2^72 rounds, nor within any other number [p] of rounds. *)
Theorem C57_loop_refuted :
  forall (b : HexR) (h : Z) (m : mode), 1 <= h ->
  sh_move_coord (hex_axial_r_lew HAxial b 0 h) m (0, 0) RW = Fail FDiverge.
Proof. exact c57_diverges_w. Qed.
Print Assumptions C57_loop_refuted.

Theorem C57_stuck_refuted :
  forall (m : mode) (min r : Z), r < min -> is_isize r ->
  forall p, iter_loop (fun r => let! r' := isize_add m r 0 in
                       Ok (if r' <? min then inl r' else inr r')) p r = Ok (inl r).
Proof. exact c57_stuck. Qed.
Print Assumptions C57_stuck_refuted.

(** With at least one column every move ends, from any coordinate, however far away. *)
Theorem C57_terminates_partial :
  forall (k : AxialKind) (b : HexR) (w h : Z) (m : mode) (c : Cell) (d : AxisDR),
  fits w h -> 1 <= w -> is_isize (fst c) -> is_isize (snd c) ->
  sh_move_coord (hex_axial_r_lew k b w h) m c d <> Fail FDiverge.
Proof. exact c57_terminates_r. Qed.
Print Assumptions C57_terminates_partial.

Theorem C57_terminates_q_partial :
  forall (k : AxialKind) (b : HexQ) (w h : Z) (m : mode) (c : Cell) (d : AxisDQ),
  fits w h -> 1 <= w -> is_isize (fst c) -> is_isize (snd c) ->
  sh_move_coord (hex_axial_q_lew k b w h) m c d <> Fail FDiverge.
Proof. exact c57_terminates_q. Qed.
Print Assumptions C57_terminates_q_partial.

Example C57_case : fits 3 3 /\ is_isize (-1000) /\
  sh_move_coord al Debug (-1000, 1) RW = Ok (Some (1, 1)).
Proof.
  split; [apply fits_small; lia|]. split; [split; vm_compute; congruence|]. vm_compute. auto.
Qed.
