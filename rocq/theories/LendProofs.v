(** * LendProofs: a graph over [&S] is a graph over [S]. *)

From Verif Require Import Machine Store Axes Shapes Lattice Spec SquareGraph SpecSquare Spec5.

Lemma loop_ext : forall St R (b b' : St -> outcome (St + R)), (forall x, b x = b' x) ->
  forall x, loop b x = loop b' x.
Proof.
  intros St R b b' H x. unfold loop.
  assert (Hp : forall p x, iter_loop b p x = iter_loop b' p x).
  { induction p as [p IH|p IH|]; intros y; cbn [iter_loop].
    - rewrite H. destruct (b' y) as [[s'|r]|]; auto. rewrite IH.
      destruct (iter_loop b' p s') as [[s''|r]|]; auto.
    - rewrite IH. destruct (iter_loop b' p y) as [[s''|r]|]; auto.
    - apply H. }
  rewrite Hp. reflexivity.
Qed.

Section Lend.
  Context {A D N E : Type}.
  Notation graph := (LatticeGraph Cell A D N E).

  Lemma uninit_edges_ref : forall (s : Shape Cell A D) k,
    uninit_edges (E := E) (shape_ref s) k = uninit_edges s k.
  Proof. intros s k. induction k as [|k IH]; cbn [uninit_edges]; auto. rewrite IH. reflexivity. Qed.

  Lemma neighbors_loop_ref : forall m (s : Shape Cell A D) c k i,
    neighbors_loop m (shape_ref s) c k i = neighbors_loop m s c k i.
  Proof.
    intros m s c k. induction k as [|k IH]; intros i; cbn [neighbors_loop]; auto.
    change (sh_axis (shape_ref s)) with (sh_axis s).
    destruct (dir_from_index_unchecked _ _ _); [|reflexivity]. cbn [bind].
    change (sh_move_coord (shape_ref s)) with (sh_move_coord s).
    destruct (sh_move_coord s m c _) as [[t|]|]; try reflexivity. apply IH.
  Qed.

  Lemma edges_loop_ref : forall m (g : graph) k it,
    edges_loop m (lend g) it k = edges_loop m g it k.
  Proof.
    intros m g k. induction k as [|k IH]; intros it; cbn [edges_loop]; auto.
    change (sh_axis (g_s (lend g))) with (sh_axis (g_s g)).
    destruct (dir_from_index_unchecked _ _ _); [|reflexivity]. cbn [bind].
    change (sh_move_coord (g_s (lend g))) with (sh_move_coord (g_s g)).
    destruct (sh_move_coord _ _ _ _) as [[t|]|]; try reflexivity. apply IH.
  Qed.

  Lemma drop_zip_ref : forall m (s : Shape Cell A D) d j l i k,
    drop_zip (E := E) m (shape_ref s) d j i k l = drop_zip m s d j i k l.
  Proof.
    intros m s d j l. induction l as [|x l IH]; intros i k; cbn [drop_zip];
      change (node_indices_next m (shape_ref s) i) with (node_indices_next m s i);
      destruct (node_indices_next m s i) as [[[c|] i']|]; try reflexivity. cbn [bind].
    change (sh_move_coord (shape_ref s)) with (sh_move_coord s).
    destruct (sh_move_coord s m c d); [|reflexivity]. cbn [bind]. rewrite IH. reflexivity.
  Qed.

  Lemma drop_axes_ref : forall m (s : Shape Cell A D) l j,
    drop_axes (E := E) m (shape_ref s) j l = drop_axes m s j l.
  Proof.
    intros m s l. induction l as [|a l IH]; intros j; cbn [drop_axes]; auto.
    change (sh_axis (shape_ref s)) with (sh_axis s).
    destruct (ax_from_index_unchecked _ _ _); [|reflexivity]. cbn [bind].
    destruct (ax_foward _ _ _); [|reflexivity]. cbn [bind]. rewrite drop_zip_ref.
    destruct (drop_zip _ _ _ _ _ _ _); [|reflexivity]. cbn [bind]. rewrite IH. reflexivity.
  Qed.

  Lemma edge_references_ref : forall m (g : graph) it,
    edge_references_next m (lend g) it = edge_references_next m g it.
  Proof.
    intros m g it. unfold edge_references_next. apply loop_ext. clear it. intros it.
    assert (H : forall e, edges_next m (lend g) e = edges_next m g e) by (intros e; apply edges_loop_ref).
    destruct (ers_e it) as [e|]; [|reflexivity]. rewrite H.
    destruct (edges_next m g e) as [[[r|] e']|]; reflexivity.
  Qed.

  Lemma c77_shape : forall (s : Shape Cell A D) (m : mode),
    let r := shape_ref s in
    sh_horizontal r = sh_horizontal s /\ sh_vertical r = sh_vertical s /\
    sh_node_count r m = sh_node_count s m /\
    (forall c, sh_to_offset r m c = sh_to_offset s m c) /\
    (forall c, sh_to_offset_unchecked r m c = sh_to_offset_unchecked s m c) /\
    (forall o, sh_offset_to_coordinate r m o = sh_offset_to_coordinate s m o) /\
    (forall c, sh_to_index r m c = sh_to_index s m c) /\
    (forall i, sh_index_to_coordinate r m i = sh_index_to_coordinate s m i) /\
    (forall c d, sh_move_coord r m c d = sh_move_coord s m c d) /\
    (forall c d, sh_move_coord_unchecked r m c d = sh_move_coord_unchecked s m c d) /\
    (forall a b, sh_is_neighbor r m a b = sh_is_neighbor s m a b) /\
    (forall a b, sh_get_direction r m a b = sh_get_direction s m a b).
  Proof. intros s m. repeat split. Qed.

  Lemma c77_new : forall (m : mode) (s : Shape Cell A D) (St : Type)
    (n : St -> Cell -> N * St) (e : St -> Cell -> A -> E * St) st,
    new_with (shape_ref s) n e m st = on_ok (fun p => (lend (fst p), snd p)) (new_with s n e m st).
  Proof.
    intros m s St n e st. unfold new_with.
    unfold new_uninit. rewrite uninit_edges_ref. change (sh_axis (shape_ref s)) with (sh_axis s).
    change (sh_horizontal (shape_ref s)) with (sh_horizontal s).
    change (sh_vertical (shape_ref s)) with (sh_vertical s).
    destruct (array_uninit (sh_horizontal s) (sh_vertical s)) as [nodes|]; [|reflexivity].
    cbn [bind]. destruct (uninit_edges s _) as [edges|]; [|reflexivity].
    cbn [bind]. destruct (debug_assert _ _); [|reflexivity].
    cbn [bind g_nodes g_edges].
    change (sh_node_count (shape_ref s) m) with (sh_node_count s m).
    destruct (sh_node_count s m) as [k|]; [|reflexivity]. cbn [bind].
    change (new_with_step (shape_ref s) n e m) with (new_with_step s n e m).
    destruct (fold_outcome _ _ _) as [[[nodes' edges'] st']|]; reflexivity.
  Qed.

  Lemma c77_reads : forall (m : mode) (g : graph),
    (forall c, node_weight m (lend g) c = node_weight m g c) /\
    (forall e, edge_weight m (lend g) e = edge_weight m g e) /\
    (forall c, node_weight_unchecked m (lend g) c = node_weight_unchecked m g c) /\
    (forall e, edge_weight_unchecked m (lend g) e = edge_weight_unchecked m g e) /\
    node_count m (lend g) = node_count m g /\ node_bound m (lend g) = node_bound m g /\
    (forall c, to_index m (lend g) c = to_index m g c) /\
    (forall i, from_index m (lend g) i = from_index m g i) /\
    (forall a b, is_adjacent m (lend g) a b = is_adjacent m g a b) /\
    is_directed (lend g) = is_directed g /\
    (forall nn ne, drop_graph m nn ne (lend g) = drop_graph m nn ne g).
  Proof.
    intros m g. do 10 (split; [reflexivity|]). intros nn ne. unfold drop_graph.
    change (g_s (lend g)) with (shape_ref (g_s g)). rewrite drop_axes_ref. reflexivity.
  Qed.

  Lemma c77_writes : forall (m : mode) (g : graph),
    (forall c f, node_weight_mut m (lend g) c f = on_ok (option_map lend) (node_weight_mut m g c f)) /\
    (forall e f, edge_weight_mut m (lend g) e f = on_ok (option_map lend) (edge_weight_mut m g e f)) /\
    (forall c f, node_weight_mut_unchecked m (lend g) c f
       = on_ok lend (node_weight_mut_unchecked m g c f)) /\
    (forall e f, edge_weight_mut_unchecked m (lend g) e f
       = on_ok lend (edge_weight_mut_unchecked m g e f)) /\
    (forall cn ce, clone_graph cn ce (lend g) = on_ok lend (clone_graph cn ce g)).
  Proof.
    intros m g. split; [|split; [|split; [|split]]].
    - intros c f. unfold node_weight_mut. change (sh_to_offset (g_s (lend g)) m c) with (sh_to_offset (g_s g) m c).
      destruct (sh_to_offset (g_s g) m c) as [[o|]|]; [|reflexivity..]. cbn [bind].
      change (g_nodes (lend g)) with (g_nodes g). destruct (update_slot m (g_nodes g) o f); reflexivity.
    - intros e f. unfold edge_weight_mut.
      change (sh_to_offset (g_s (lend g)) m (fst e)) with (sh_to_offset (g_s g) m (fst e)).
      destruct (sh_to_offset (g_s g) m (fst e)) as [[o|]|]; [|reflexivity..]. cbn [bind].
      change (sh_axis (g_s (lend g))) with (sh_axis (g_s g)).
      destruct (ax_foward _ m (snd e)) as [d|]; [|reflexivity]. cbn [bind].
      change (sh_move_coord (g_s (lend g)) m (fst e) d) with (sh_move_coord (g_s g) m (fst e) d).
      destruct (sh_move_coord _ _ _ _) as [[t|]|]; [|reflexivity..]. cbn [bind].
      change (edges_get_unchecked (lend g)) with (edges_get_unchecked g).
      destruct (edges_get_unchecked g _) as [a|]; [|reflexivity]. cbn [bind].
      destruct (update_slot m a o f); reflexivity.
    - intros c f. unfold node_weight_mut_unchecked.
      change (sh_to_offset_unchecked (g_s (lend g)) m c) with (sh_to_offset_unchecked (g_s g) m c).
      destruct (sh_to_offset_unchecked (g_s g) m c) as [o|]; [|reflexivity]. cbn [bind].
      change (g_nodes (lend g)) with (g_nodes g). destruct (update_slot_unchecked (g_nodes g) o f); reflexivity.
    - intros e f. unfold edge_weight_mut_unchecked.
      change (sh_to_offset_unchecked (g_s (lend g)) m (fst e)) with (sh_to_offset_unchecked (g_s g) m (fst e)).
      destruct (sh_to_offset_unchecked (g_s g) m (fst e)) as [o|]; [|reflexivity]. cbn [bind].
      change (sh_axis (g_s (lend g))) with (sh_axis (g_s g)).
      change (edges_get_unchecked (lend g)) with (edges_get_unchecked g).
      destruct (edges_get_unchecked g _) as [a|]; [|reflexivity]. cbn [bind].
      destruct (update_slot_unchecked a o f); reflexivity.
    - intros cn ce. unfold clone_graph. change (g_nodes (lend g)) with (g_nodes g).
      destruct (clone_array cn (g_nodes g)); [|reflexivity]. cbn [bind].
      change (g_edges (lend g)) with (g_edges g).
      destruct (fold_outcome _ (g_edges g) []); reflexivity.
  Qed.

  Lemma c77_iterators : forall (m : mode) (g : graph),
    (forall it, node_indices_next m (g_s (lend g)) it = node_indices_next m (g_s g) it) /\
    (forall it, node_references_next m (lend g) it = node_references_next m g it) /\
    (forall c it, neighbors_next m (lend g) c it = neighbors_next m g c it) /\
    (forall c, edges m (lend g) c = edges m g c) /\
    (forall c d, edges_directed m (lend g) c d = edges_directed m g c d) /\
    (forall it, edges_next m (lend g) it = edges_next m g it) /\
    (forall it, edge_references_next m (lend g) it = edge_references_next m g it) /\
    (forall r : EdgeReference Cell E D, er_id m (g_s (lend g)) r = er_id m (g_s g) r) /\
    visit_map (lend g) = visit_map g /\
    (forall vm c, vm_visit m (g_s (lend g)) vm c = vm_visit m (g_s g) vm c) /\
    (forall vm c, vm_is_visited m (g_s (lend g)) vm c = vm_is_visited m (g_s g) vm c) /\
    (forall vm c, vm_unvisit m (g_s (lend g)) vm c = vm_unvisit m (g_s g) vm c) /\
    (forall it, node_indices_size_hint m (g_s (lend g)) it = node_indices_size_hint m (g_s g) it) /\
    (forall it, neighbors_size_hint m (lend g) it = neighbors_size_hint m g it) /\
    (forall it, edges_size_hint m (lend g) it = edges_size_hint m g it) /\
    (forall it, edge_references_size_hint m (lend g) it = edge_references_size_hint m g it).
  Proof.
    intros m g. do 2 (split; [reflexivity|]).
    split; [intros c it; apply neighbors_loop_ref|]. do 2 (split; [reflexivity|]).
    split; [intros it; apply edges_loop_ref|]. split; [apply edge_references_ref|].
    repeat (split; [reflexivity|]). reflexivity.
  Qed.
End Lend.

Lemma c77_edge_sizes : forall m, exists s : Shape Cell SquareAxis DirectedSquareAxis,
  sh_horizontal_edge_size s m SX = Ok 2 /\ sh_horizontal_edge_size (shape_ref s) m SX = Ok 3 /\
  sh_vertical_edge_size s m SY = Ok 1 /\ sh_vertical_edge_size (shape_ref s) m SY = Ok 2.
Proof. intros m. exists (square_shape 3 2). destruct m; repeat split. Qed.
