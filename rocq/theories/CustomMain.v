(** * CustomMain: the lemmas of Main1.v for any shape that implements its geometry, and the
    theorems about shapes that keep the contract of Spec19.v (C114). *)

From Verif Require Import Machine Store Axes Shapes Lattice Spec Spec19 Basics AxisProofs
  GeoProofs ShapeProofs StoreProofs GraphProofs RepProofs IterProofs EdgeProofs VisitProofs Main1
  Traverse Clients Astar Dijkstra Spec4 Spec6 Spec11 Follow TraverseProofs AnySearch SearchProofs ClientsProofs AnySearchMain
  AstarProofs DijkstraProofs DijkstraMain DijkstraFault CustomProofs.
From Coq Require Import ZifyBool ZifyNat.
Ltac Zify.zify_post_hook ::= Z.div_mod_to_equations.

Section Any.
  Context {A D N E : Type} {m : mode} {s : Shape Cell A D} {G : Geometry A D}
    {cell : Z -> Z -> Cell} (RF : Refines m s G cell) (RG : Regular s G).
  Notation graph := (LatticeGraph Cell A D N E).

  Lemma x_built_weights : forall (g : graph) nf ef, Built m s G g nf ef ->
    (forall c, In c (geo_nodes G) -> node_weight m g c = Ok (Some (nf c))) /\
    (forall c a, edge_exists G c a -> edge_weight m g (c, a) = Ok (Some (ef c a))) /\
    (forall c, locatable m G c -> ~ In c (geo_nodes G) -> node_weight m g c = Ok None) /\
    (forall c a, locatable m G c -> ~ edge_exists G c a -> edge_weight m g (c, a) = Ok None).
  Proof using RF RG.
    intros g nf ef HB.
    pose proof (built_rep RF _ _ _ HB) as HR. pose proof HR as [Hs _].
    split; [|split; [|split]].
    - intros c Hc. eapply (rep_node_weight RF); eauto.
    - intros c a Hc. eapply (rep_edge_weight RF); eauto.
    - intros c [Hc Hx] Hn. apply (off_board_node_weight RF); auto.
    - intros c a [Hc Hx] Hn. apply (off_board_edge_weight RF); auto.
  Qed.

  Lemma x_c04 : forall St (n : St -> Cell -> N * St) (e : St -> Cell -> A -> E * St) st,
    exists g, new_with s n e m st = Ok (g, state_after n e (spec_calls G) st) /\
      (forall l1 c l2, spec_calls G = l1 ++ CallNode c :: l2 ->
         node_weight m g c = Ok (Some (fst (n (state_after n e l1 st) c)))) /\
      (forall l1 c a l2, spec_calls G = l1 ++ CallEdge c a :: l2 ->
         edge_weight m g (c, a) = Ok (Some (fst (e (state_after n e l1 st) c a)))).
  Proof using RF RG.
    intros St n e st.
    destruct (new_with_calls RF St n e st) as (g & nf & ef & H1 & H2 & H3 & H4 & H5 & _).
    exists g. split; auto. split.
    - intros l1 c l2 Heq. eapply (content_node_weight RF); eauto.
      apply (in_spec_calls_node c). rewrite Heq. apply in_or_app. right. left. auto.
    - intros l1 c a l2 Heq. eapply (content_edge_weight RF); eauto.
      apply (in_spec_calls_edge RF c a). rewrite Heq. apply in_or_app. right. left. auto.
  Qed.

  Lemma x_c05 : forall (g : graph) nf ef, Built m s G g nf ef ->
    node_bound m g = Ok (Z.of_nat (length (geo_nodes G))) /\
    node_count m g = Ok (Z.of_nat (length (geo_nodes G))) /\
    NoDup (geo_nodes G) /\
    (forall i c, nth_error (geo_nodes G) i = Some c ->
       to_index m g c = Ok (Z.of_nat i) /\ from_index m g (Z.of_nat i) = Ok c).
  Proof using RF RG.
    intros g nf ef HB.
    pose proof (built_rep RF _ _ _ HB) as [Hs _].
    pose proof (wh_range RF) as W.
    assert (Hl : Z.of_nat (length (geo_nodes G)) = sh_horizontal s * sh_vertical s)
      by (rewrite (nodes_length RF); lia).
    unfold node_bound, node_count. rewrite Hs, Hl, (node_count_ok RF).
    split; auto. split; auto. split; [apply (nodes_nodup RF)|].
    intros i c Hi.
    assert (Hr : 0 <= Z.of_nat i < sh_horizontal s * sh_vertical s).
    { rewrite <- Hl. split; [lia|]. apply inj_lt. apply nth_error_Some. congruence. }
    pose proof (nodes_nth RF _ Hr) as Hn. rewrite Nat2Z.id in Hn. rewrite Hi in Hn.
    injection Hn as ->. destruct (index_split RF _ Hr) as (Hx & Hy & Hxy).
    unfold to_index, from_index. rewrite Hs. split.
    - rewrite (to_index_ok RF) by auto. cbn [bind unwrap]. f_equal. lia.
    - apply (index_to_coordinate_ok RF). auto.
  Qed.

  Lemma x_c05_off_board : forall (g : graph) nf ef c, Built m s G g nf ef ->
    locatable m G c -> ~ In c (geo_nodes G) -> to_index m g c = Fail FPanic.
  Proof using RF RG.
    intros g nf ef c HB [Hc Hx] Hn.
    pose proof (built_rep RF _ _ _ HB) as [Hs _].
    unfold to_index, sh_to_index. rewrite Hs, (rf_off_board _ _ _ _ RF) by auto. reflexivity.
  Qed.

  Lemma x_c06 : forall (g : graph) nf ef, Built m s G g nf ef ->
    Drains (node_indices_next m (g_s g)) (node_identifiers g) (geo_nodes G).
  Proof using RF RG.
    intros g nf ef HB. pose proof (built_rep RF _ _ _ HB) as [Hs _].
    rewrite Hs. eapply IterInv_drains; [apply (node_indices_inv RF)|].
    rewrite <- (map_id (geo_nodes G)). apply (node_pos_start RF).
  Qed.

  Lemma x_c07 : forall (g : graph) nf ef, Built m s G g nf ef ->
    Drains (node_references_next m g) (node_references g)
      (map (fun c => (c, nf c)) (geo_nodes G)).
  Proof using RF RG.
    intros g nf ef HB. pose proof (built_rep RF _ _ _ HB) as HR.
    eapply IterInv_drains; [eapply (node_references_inv RF); eauto|].
    apply (node_pos_start RF).
  Qed.

  Lemma x_c09 : forall (g : graph) nf ef c dir, Built m s G g nf ef -> In c (geo_nodes G) ->
    Drains (neighbors_next m g c) (neighbors g c) (spec_neighbors G c) /\
    Drains (neighbors_next m g c) (neighbors_directed g c dir) (spec_neighbors G c).
  Proof using RF RG.
    intros g nf ef c dir HB Hc. pose proof (built_rep RF _ _ _ HB) as [Hs _].
    assert (H : Drains (neighbors_next m g c) 0%nat (spec_neighbors G c)).
    { eapply IterInv_drains; [apply (neighbors_inv RF); auto|]. apply nb_pos_start. }
    split; exact H.
  Qed.

  Lemma x_in_spec_neighbors : forall a b,
    In b (spec_neighbors G a) <-> exists d, geo_step G a d = Some b.
  Proof using RF RG.
    intros a b. unfold spec_neighbors. rewrite in_flat_map. split.
    - intros (d & Hd & H). exists d. destruct (geo_step G a d); [|destruct H].
      destruct H as [->|[]]. auto.
    - intros (d & Hd). exists d. split; [apply (all_dirs_in (rf_axis _ _ _ _ RF))|].
      rewrite Hd. left; auto.
  Qed.

  Lemma x_in_spec_edge_names : forall c a,
    In (c, a) (spec_edge_names G) <-> edge_exists G c a.
  Proof using RF RG.
    intros c a. unfold spec_edge_names, edge_exists.
    rewrite in_flat_map. split.
    - intros (c0 & Hc & H). rewrite in_flat_map in H. destruct H as (a0 & Ha & H).
      destruct (geo_step G c0 (ag_fwd (geo_ax G) a0)) eqn:Es; [|destruct H].
      destruct H as [H|[]]. injection H as -> ->. split; auto. congruence.
    - intros [Hc Hs]. exists c. split; auto. rewrite in_flat_map. exists a.
      split; [apply (all_axes_in (rf_axis _ _ _ _ RF))|].
      destruct (geo_step G c (ag_fwd (geo_ax G) a)); [left; auto|congruence].
  Qed.

  Lemma x_spec_edge_names_nodup : NoDup (spec_edge_names G).
  Proof using RF RG.
 unfold spec_edge_names. apply NoDup_flat_map.
    - apply (nodes_nodup RF).
    - intros c _. apply NoDup_flat_map.
      + apply (axes_nodup (rf_axis _ _ _ _ RF)).
      + intros a _. destruct (geo_step G c (ag_fwd (geo_ax G) a)); [|constructor].
        constructor; [intros []|constructor].
      + intros a a' y _ _ H H'.
        destruct (geo_step G c (ag_fwd (geo_ax G) a)); [|destruct H].
        destruct (geo_step G c (ag_fwd (geo_ax G) a')); [|destruct H'].
        destruct H as [<-|[]]. destruct H' as [H'|[]]. congruence.
    - intros c c' y _ _ H H'. rewrite in_flat_map in H, H'.
      destruct H as (a & _ & H). destruct H' as (a' & _ & H').
      destruct (geo_step G c (ag_fwd (geo_ax G) a)); [|destruct H].
      destruct (geo_step G c' (ag_fwd (geo_ax G) a')); [|destruct H'].
      destruct H as [<-|[]]. destruct H' as [H'|[]]. congruence.
  Qed.

  Lemma x_c22 : forall (g : graph) nf ef c dir, Built m s G g nf ef -> locatable m G c ->
    ~ In c (geo_nodes G) ->
    edges m g c = unreachable_debug_checked m /\
    edges_directed m g c dir = unreachable_debug_checked m.
  Proof using RF RG.
    intros g nf ef c dir HB [Hc Hx] Hn.
    pose proof (built_rep RF _ _ _ HB) as [Hs _].
    unfold edges, edges_directed, edges_new_d. rewrite Hs, (rf_off_board _ _ _ _ RF) by auto. auto.
  Qed.

  Lemma x_c22_fault : forall (g : graph) nf ef c dir, Built m s G g nf ef -> locatable m G c ->
    ~ In c (geo_nodes G) ->
    edges m g c = Fail (match m with Debug => FPanic | Release => FUB end) /\
    edges_directed m g c dir = Fail (match m with Debug => FPanic | Release => FUB end).
  Proof using RF RG.
    intros g nf ef c dir HB Hl Hn. destruct (x_c22 g nf ef c dir HB Hl Hn) as [-> ->].
    clear. destruct m; auto.
  Qed.

  Lemma x_c23 : forall (g : graph) nf ef ops, Built m s G g nf ef ->
    Forall (visit_allowed m G) ops ->
    visit_run m g (visit_map g) ops = Ok (visit_spec_run (geo_nodes G) [] ops).
  Proof using RF RG.
    intros g nf ef ops HB HF. pose proof (built_rep RF _ _ _ HB) as [Hs _].
    apply (visit_run_ok RF); auto. apply (visit_map_rep RF). auto.
  Qed.

  Lemma x_c36_graph : forall (g : graph) nf ef, Built m s G g nf ef ->
    (forall c, In c (geo_nodes G) -> exists x, node_weight m g c = Ok (Some x) /\
       node_weight_unchecked m g c = Ok x) /\
    (forall c a, edge_exists G c a -> exists x, edge_weight m g (c, a) = Ok (Some x) /\
       edge_weight_unchecked m g (c, a) = Ok x) /\
    (forall c f, In c (geo_nodes G) -> exists g',
       node_weight_mut m g c (option_map f) = Ok (Some g') /\
       node_weight_mut_unchecked m g c (option_map f) = Ok g') /\
    (forall c a f, edge_exists G c a -> exists g',
       edge_weight_mut m g (c, a) (option_map f) = Ok (Some g') /\
       edge_weight_mut_unchecked m g (c, a) (option_map f) = Ok g').
  Proof using RF RG.
    intros g nf ef HB. pose proof (built_rep RF _ _ _ HB) as HR.
    split; [|split; [|split]].
    - intros c Hc. exists (nf c). split; [eapply (rep_node_weight RF) | eapply (rep_node_unchecked RF)]; eauto.
    - intros c a Hc. exists (ef c a).
      split; [eapply (rep_edge_weight RF) | eapply (rep_edge_unchecked RF)]; eauto.
    - intros c f Hc. destruct (rep_node_write RF g nf ef c f HR Hc) as (g' & W1 & W2 & _). eauto.
    - intros c a f Hc. destruct (rep_edge_write RF g nf ef c a f HR Hc) as (g' & W1 & W2 & _). eauto.
  Qed.

  Lemma x_in_spec_edges : forall ef c r, In r (spec_edges (E := E) G ef c) <->
    exists d c' x a, geo_step G c d = Some c' /\ edge_name G c d c' = Some (x, a) /\
      r = mkEdgeRef c c' (ef x a) d.
  Proof using RF RG.
    intros ef c r. unfold spec_edges. rewrite in_flat_map. split.
    - intros (d & _ & H). destruct (geo_step G c d) as [c'|] eqn:Es; [|destruct H].
      destruct (edge_name G c d c') as [[x a]|] eqn:En; [|destruct H].
      destruct H as [<-|[]]. exists d, c', x, a. auto.
    - intros (d & c' & x & a & H1 & H2 & ->). exists d.
      split; [apply (all_dirs_in (rf_axis _ _ _ _ RF))|]. rewrite H1, H2. left; auto.
  Qed.

  Lemma x_c15_drains : forall (g : graph) nf ef, Built m s G g nf ef ->
    Drains (edge_references_next m g) (edge_references g) (spec_edge_references G ef).
  Proof using RF RG.
    intros g nf ef HB. pose proof (built_rep RF _ _ _ HB) as HR.
    eapply IterInv_drains; [eapply (edge_references_inv RF); eauto|].
    apply (ers_pos_start RF).
  Qed.

  Lemma x_er_id_ok : forall (r : EdgeReference Cell E D) a,
    er_direction r = ag_fwd (geo_ax G) a -> er_id m s r = Ok (er_source r, a).
  Proof using RF RG.
    intros r a Hr. unfold er_id. rewrite Hr.
    destruct (ao_class _ _ _ (rf_axis _ _ _ _ RF) (ag_fwd (geo_ax G) a)) as
      [(a' & Hf & _ & Hfrom & _) | (Hdir & a' & Ho & _)].
    - rewrite Hfrom. cbn [bind]. apply (ao_fwd_inj _ _ _ (rf_axis _ _ _ _ RF)) in Hf. congruence.
    - exfalso. eapply (ao_undirected_opp _ _ _ (rf_axis _ _ _ _ RF)); eauto.
  Qed.

  Lemma x_edge_references_ids : forall ef,
    map (er_id m s) (spec_edge_references (E := E) G ef) = map Ok (spec_edge_names G).
  Proof using RF RG.
    intros ef. unfold spec_edge_references, spec_edge_names.
    induction (geo_nodes G) as [|c l IH]; cbn [flat_map map]; auto.
    rewrite !map_app, IH. f_equal. clear IH.
    induction (ag_axes (geo_ax G)) as [|a axs IH]; cbn [flat_map map]; auto.
    rewrite !map_app, IH. f_equal.
    destruct (geo_step G c (ag_fwd (geo_ax G) a)); auto.
    cbn [map]. rewrite (x_er_id_ok (mkEdgeRef c c0 (ef c a) (ag_fwd (geo_ax G) a)) a) by reflexivity.
    reflexivity.
  Qed.

  Lemma x_spec_edges_targets : forall ef c, In c (geo_nodes G) ->
    map er_target (spec_edges (E := E) G ef c) = spec_neighbors G c.
  Proof using RF RG.
    intros ef c Hc. unfold spec_edges, spec_neighbors.
    induction (ag_dirs (geo_ax G)) as [|d l IH]; cbn [flat_map map]; auto.
    rewrite map_app, IH. f_equal. destruct (geo_step G c d) as [c'|] eqn:Es; auto.
    destruct (edge_name_exists RF (regular_readable _ _ _ _ RG) c d c' Hc Es) as (x & a & En & _). rewrite En. reflexivity.
  Qed.

  Lemma x_c12 : forall (g : graph) nf ef c, Built m s G g nf ef -> In c (geo_nodes G) ->
    exists it, edges m g c = Ok it /\ Drains (edges_next m g) it (spec_edges G ef c).
  Proof using RF RG.
    intros g nf ef c HB Hc. pose proof (built_rep RF _ _ _ HB) as HR.
    destruct (edges_outgoing_pos RF (regular_readable _ _ _ _ RG) g nf ef c AxisDirMarker HR Hc eq_refl eq_refl)
      as (o & it & H1 & H2 & H3).
    exists it. split; auto. eapply IterInv_drains; eauto.
  Qed.

  Lemma x_c17 : forall (g : graph) nf ef c, Built m s G g nf ef -> In c (geo_nodes G) ->
    ag_directed (geo_ax G) = false ->
    exists it it' l, edges m g c = Ok it /\ edges_directed m g c Incoming = Ok it' /\
      Drains (edges_next m g) it l /\
      Drains (edges_next m g) it'
        (map (fun r => mkEdgeRef (er_target r) (er_source r) (er_weight r) (er_direction r)) l) /\
      map (fun r => mkEdgeRef (er_target r) (er_source r) (er_weight r) (er_direction r)) l
        = spec_incoming G ef c.
  Proof using RF RG.
    intros g nf ef c HB Hc Hdir. pose proof (built_rep RF _ _ _ HB) as HR.
    destruct (edges_incoming_pos RF (regular_readable _ _ _ _ RG) g nf ef c HR Hc Hdir) as (o & it' & H1 & H2 & H3).
    destruct (x_c12 g nf ef c HB Hc) as (it & E1 & E2).
    exists it, it', (spec_edges G ef c).
    assert (Hm : map (fun r => mkEdgeRef (er_target r) (er_source r) (er_weight r) (er_direction r))
              (spec_edges G ef c) = spec_incoming G ef c).
    { rewrite <- (rev_list RF ef c Hdir). unfold spec_edges.
      induction (ag_dirs (geo_ax G)) as [|d l IH]; cbn [flat_map map]; auto.
      rewrite map_app, IH. f_equal. unfold ref_list, rev_ref.
      destruct (geo_step G c d) as [c'|]; auto.
      destruct (edge_name G c d c') as [[x a]|]; auto. }
    rewrite Hm. repeat split; auto. eapply IterInv_drains; eauto.
  Qed.

  Lemma x_c12_code : forall (g : graph) nf ef c it l, Built m s G g nf ef -> In c (geo_nodes G) ->
    edges m g c = Ok it -> Drains (edges_next m g) it l -> l = spec_edges G ef c.
  Proof using RF RG.
    intros g nf ef c it l HB Hc He Hl. destruct (x_c12 g nf ef c HB Hc) as (it' & E1 & E2).
    rewrite He in E1. injection E1 as <-. exact (Drains_det _ _ _ _ Hl E2).
  Qed.

  Lemma x_c12_targets : forall (g : graph) nf ef c it l ln, Built m s G g nf ef -> In c (geo_nodes G) ->
    edges m g c = Ok it -> Drains (edges_next m g) it l ->
    Drains (neighbors_next m g c) (neighbors g c) ln ->
    map er_target l = ln /\ Forall (fun r => er_source r = c) l.
  Proof using RF RG.
    intros g nf ef c it l ln HB Hc He Hl Hn. rewrite (x_c12_code _ _ _ _ _ _ HB Hc He Hl).
    rewrite (Drains_det _ _ _ _ Hn (proj1 (x_c09 g nf ef c Outgoing HB Hc))).
    split; [apply x_spec_edges_targets; auto|]. apply Forall_forall. intros r Hr.
    apply x_in_spec_edges in Hr. destruct Hr as (d & c' & x & a & _ & _ & ->). reflexivity.
  Qed.

  Lemma x_step_back : forall a b d, In a (geo_nodes G) -> geo_step G a d = Some b ->
    exists d', opposite (geo_ax G) d d' /\ geo_step G b d' = Some a.
  Proof using RF RG.
    intros a b d Ha H.
    destruct (ao_opp _ _ _ (rf_axis _ _ _ _ RF) d) as (d' & Ho). exists d'. split; auto.
    eapply (rg_sym RG); eauto.
  Qed.

  Lemma x_c11 : forall (g : graph) nf ef a b, Built m s G g nf ef -> In a (geo_nodes G) ->
    exists l r o, Drains (neighbors_next m g a) (neighbors g a) l /\
      is_adjacent m g a b = Ok r /\ sh_is_neighbor s m a b = Ok r /\
      (r = true <-> In b l) /\
      sh_get_direction s m a b = Ok o /\
      match o with
      | Some d => sh_move_coord s m a d = Ok (Some b)
      | None => ~ In b l
      end.
  Proof using RF RG.
    intros g nf ef a b HB Ha. pose proof (built_rep RF _ _ _ HB) as [Hs _].
    destruct (is_adjacent_ok RF RG g a b Hs Ha) as (r & R1 & R2).
    exists (spec_neighbors G a), r. eexists. split; [apply (x_c09 g nf ef a Outgoing); auto|].
    split; auto. split; [unfold is_adjacent in R1; rewrite Hs in R1; auto|].
    split; [rewrite x_in_spec_neighbors; auto|].
    split; [apply (get_direction_ok RF); intros; apply (rf_move _ _ _ _ RF); auto|].
    destruct (find _ (ag_dirs (geo_ax G))) as [d|] eqn:Ef.
    - apply find_some in Ef. destruct Ef as [_ Ef]. rewrite (rf_move _ _ _ _ RF) by auto.
      destruct (geo_step G a d); [|discriminate]. apply pair_eqb_eq in Ef. congruence.
    - rewrite x_in_spec_neighbors. intros (d & Hd).
      eapply find_none in Ef; [|apply (all_dirs_in (rf_axis _ _ _ _ RF))]. cbv beta in Ef.
      rewrite Hd, (proj2 (pair_eqb_eq b b) eq_refl) in Ef. discriminate.
  Qed.

  Lemma x_c13 : forall (g : graph) nf ef a r it l, Built m s G g nf ef ->
    In a (geo_nodes G) -> ag_directed (geo_ax G) = false ->
    edges m g a = Ok it -> Drains (edges_next m g) it l -> In r l ->
    exists it' l' r', edges m g (er_target r) = Ok it' /\ Drains (edges_next m g) it' l' /\
      In r' l' /\ er_source r' = er_target r /\ er_target r' = er_source r /\
      er_weight r' = er_weight r /\
      opposite (geo_ax G) (er_direction r) (er_direction r').
  Proof using RF RG.
    intros g nf ef a r it l HB Ha Hdir He Hl Hin.
    destruct (x_c12 g nf ef a HB Ha) as (it0 & E1 & E2). rewrite He in E1. injection E1 as <-.
    rewrite (Drains_det _ _ _ _ Hl E2) in Hin. apply x_in_spec_edges in Hin.
    destruct Hin as (d & b & x & ax & Hs & Hn & ->). cbn [er_target er_source er_weight er_direction].
    pose proof (rg_in RG _ _ _ Hs) as Hb.
    destruct (x_c12 g nf ef b HB Hb) as (it1 & F1 & F2).
    destruct (x_step_back a b d Ha Hs) as (d' & Ho & Hs').
    exists it1, (spec_edges G ef b), (mkEdgeRef b a (ef x ax) d').
    cbn [er_target er_source er_weight er_direction]. repeat split; auto.
    apply x_in_spec_edges. exists d', a, x, ax. repeat split; auto.
    rewrite <- Hn. symmetry. apply (edge_name_shared RF); auto.
  Qed.

End Any.

Section Contract.
  Context {A D N E : Type} {m : mode} {s : Shape Cell A D} {axes : list A} {fwd : A -> D}
    {opp : D -> D} {cell : Z -> Z -> Cell} {step : Cell -> D -> option Cell}
    {coord : Cell -> Prop} (SC : ShapeContract m s axes fwd opp cell step coord).
  Notation G := (contract_geometry s axes fwd opp cell step coord).
  Notation nodes := (board (sh_horizontal s) (sh_vertical s) cell).
  Notation dirs := (all_dirs (ax_DIRECTED (sh_axis s)) axes fwd opp).
  Notation graph := (LatticeGraph Cell A D N E).
  Let RF := contract_refines SC.
  Let RG := contract_regular SC.
  Let AC := shc_axis _ _ _ _ _ _ _ _ SC.

  Lemma step_edges_eq : forall (ef : Cell -> A -> E) c,
    spec_edges G ef c = step_edges (ax_DIRECTED (sh_axis s)) axes fwd opp step ef c.
  Proof using RF AC.
    intros ef c. unfold spec_edges, step_edges.
    cbn [geo_ax geo_step contract_geometry ag_dirs].
    unfold all_dirs. rewrite flat_map_app.
    assert (P : forall (l : list A) (f : A -> D) (k : D -> list (EdgeReference Cell E D)),
      flat_map k (map f l) = flat_map (fun a => k (f a)) l).
    { intros l f k. induction l as [|x l IH]; cbn [map flat_map]; auto. rewrite IH. auto. }
    f_equal.
    - rewrite P. apply flat_map_ext. intros a. destruct (step c (fwd a)) as [c'|]; auto.
      pose proof (edge_name_fwd RF c a c') as H. cbn [geo_ax contract_geometry ag_fwd] in H.
      rewrite H. reflexivity.
    - destruct (ax_DIRECTED (sh_axis s)) eqn:Hd; auto.
      rewrite P. apply flat_map_ext. intros a. destruct (step c (opp (fwd a))) as [c'|]; auto.
      rewrite (edge_name_bwd RF c (opp (fwd a)) a c' Hd); auto.
      apply (opposite_iff AC). symmetry. apply (axc_opp _ _ _ _ _ AC).
  Qed.

  Lemma y_locatable : forall c, coord c -> locatable m G c.
  Proof using Type. intros c Hc. split; [exact Hc|]. intros _ []. Qed.

  Lemma y_edge_exists : forall c a, edge_exists G c a <-> In c nodes /\ step c (fwd a) <> None.
  Proof using Type. reflexivity. Qed.

  Lemma y_new : forall (nf : Cell -> N) (ef : Cell -> A -> E), exists g : graph,
    new_with s (fun st c => (nf c, st)) (fun st c a => (ef c a, st)) m tt = Ok (g, tt) /\
    Built m s G g nf ef.
  Proof using RF RG.
    intros nf ef. destruct (new_with_rep RF nf ef) as (g & H & _). exists g. split; auto.
    apply built_new. auto.
  Qed.

  Lemma y_weights : forall (g : graph) nf ef, Built m s G g nf ef ->
    (forall c, In c nodes -> node_weight m g c = Ok (Some (nf c))) /\
    (forall c, coord c -> ~ In c nodes -> node_weight m g c = Ok None) /\
    (forall c a, In c nodes -> step c (fwd a) <> None ->
       edge_weight m g (c, a) = Ok (Some (ef c a))) /\
    (forall c a, coord c -> ~ (In c nodes /\ step c (fwd a) <> None) ->
       edge_weight m g (c, a) = Ok None).
  Proof using RF RG.
    intros g nf ef HB. destruct (x_built_weights RF RG g nf ef HB) as (H1 & H2 & H3 & H4).
    split; [exact H1|]. split; [intros c Hc; apply H3, y_locatable, Hc|].
    split; [intros c a Hc Hs; apply H2; split; auto|].
    intros c a Hc Hn. apply H4; [apply y_locatable, Hc|exact Hn].
  Qed.

  Lemma y_nodes : forall (g : graph) nf ef, Built m s G g nf ef ->
    Drains (node_indices_next m (g_s g)) (node_identifiers g) nodes /\
    Drains (node_references_next m g) (node_references g) (map (fun c => (c, nf c)) nodes) /\
    NoDup nodes /\ node_count m g = Ok (Z.of_nat (length nodes)) /\
    node_bound m g = Ok (Z.of_nat (length nodes)) /\
    (forall i c, nth_error nodes i = Some c ->
       to_index m g c = Ok (Z.of_nat i) /\ from_index m g (Z.of_nat i) = Ok c).
  Proof using RF RG.
    intros g nf ef HB. destruct (x_c05 RF RG g nf ef HB) as (H1 & H2 & H3 & H4).
    split; [exact (x_c06 RF RG g nf ef HB)|]. split; [exact (x_c07 RF RG g nf ef HB)|]. auto.
  Qed.

  Lemma y_neighbors : forall (g : graph) nf ef c, Built m s G g nf ef -> In c nodes ->
    (forall dir, Drains (neighbors_next m g c) (neighbors_directed g c dir) (step_neighbors dirs step c)) /\
    Drains (neighbors_next m g c) (neighbors g c) (step_neighbors dirs step c) /\
    forall b, exists r, is_adjacent m g c b = Ok r /\ (r = true <-> In b (step_neighbors dirs step c)).
  Proof using RF RG.
    intros g nf ef c HB Hc. split; [intros dir; exact (proj2 (x_c09 RF RG g nf ef c dir HB Hc))|].
    pose proof (proj1 (x_c09 RF RG g nf ef c Outgoing HB Hc)) as HD. split; [exact HD|].
    intros b. destruct (x_c11 RF RG g nf ef c b HB Hc) as (l & r & o & L1 & L2 & _ & L3 & _).
    exists r. split; auto. rewrite L3, (Drains_det _ _ _ _ L1 HD). reflexivity.
  Qed.

  Lemma y_symmetric : forall a b, In a nodes -> In b nodes ->
    In b (step_neighbors dirs step a) <-> In a (step_neighbors dirs step b).
  Proof using RF RG.
    intros a b Ha Hb. change (In b (spec_neighbors G a) <-> In a (spec_neighbors G b)).
    rewrite !(x_in_spec_neighbors RF RG). split; intros (d & Hd).
    - destruct (x_step_back RF RG a b d Ha Hd) as (d' & _ & H). eauto.
    - destruct (x_step_back RF RG b a d Hb Hd) as (d' & _ & H). eauto.
  Qed.

  Lemma y_edges : forall (g : graph) nf ef c, Built m s G g nf ef -> In c nodes ->
    let l := step_edges (ax_DIRECTED (sh_axis s)) axes fwd opp step ef c in
    (exists it, edges m g c = Ok it /\ Drains (edges_next m g) it l) /\
    map er_target l = step_neighbors dirs step c.
  Proof using RF RG AC.
    intros g nf ef c HB Hc l. unfold l. rewrite <- step_edges_eq. split.
    - exact (x_c12 RF RG g nf ef c HB Hc).
    - exact (x_spec_edges_targets RF RG ef c Hc).
  Qed.

  Lemma y_incoming : forall (g : graph) nf ef c, Built m s G g nf ef -> In c nodes ->
    ax_DIRECTED (sh_axis s) = false ->
    exists it, edges_directed m g c Incoming = Ok it /\
      Drains (edges_next m g) it
        (map (fun r => mkEdgeRef (er_target r) (er_source r) (er_weight r) (er_direction r))
          (step_edges false axes fwd opp step ef c)).
  Proof using RF RG AC.
    intros g nf ef c HB Hc Hd.
    destruct (x_c17 RF RG g nf ef c HB Hc Hd) as (it & it' & l & H1 & H2 & H3 & H4 & _).
    exists it'. split; auto. rewrite <- Hd, <- step_edges_eq.
    rewrite <- (x_c12_code RF RG _ _ _ _ _ _ HB Hc H1 H3). exact H4.
  Qed.

  Lemma y_shared : forall (g : graph) nf ef a r it l, Built m s G g nf ef -> In a nodes ->
    ax_DIRECTED (sh_axis s) = false ->
    edges m g a = Ok it -> Drains (edges_next m g) it l -> In r l ->
    exists it' l', edges m g (er_target r) = Ok it' /\ Drains (edges_next m g) it' l' /\
      In (mkEdgeRef (er_target r) a (er_weight r) (opp (er_direction r))) l'.
  Proof using RF RG AC.
    intros g nf ef a r it l HB Ha Hd He Hl Hr.
    destruct (x_c13 RF RG g nf ef a r it l HB Ha Hd He Hl Hr)
      as (it' & l' & r' & H1 & H2 & H3 & H4 & H5 & H6 & H7).
    exists it', l'. split; auto. split; auto. apply (opposite_iff AC) in H7.
    assert (er_source r = a) as Hs.
    { destruct (x_c12_targets RF RG g nf ef a it l _ HB Ha He Hl
        (proj1 (x_c09 RF RG g nf ef a Outgoing HB Ha))) as [_ HF]. rewrite Forall_forall in HF. auto. }
    replace (mkEdgeRef _ _ _ _) with r'; auto. destruct r'. cbn in *. congruence.
  Qed.

  Lemma y_references : forall (g : graph) nf ef, Built m s G g nf ef ->
    let l := step_edge_references nodes axes fwd step ef in
    Drains (edge_references_next m g) (edge_references g) l /\
    (exists ids, map (er_id m s) l = map Ok ids /\ NoDup ids /\
       forall c a, In (c, a) ids <-> In c nodes /\ step c (fwd a) <> None).
  Proof using RF RG.
    intros g nf ef HB l. split; [exact (x_c15_drains RF RG g nf ef HB)|].
    exists (spec_edge_names G). split; [exact (x_edge_references_ids RF RG ef)|].
    split; [exact (x_spec_edge_names_nodup RF RG)|]. exact (x_in_spec_edge_names RF RG).
  Qed.

  Lemma y_write : forall (g : graph) nf ef, Built m s G g nf ef ->
    (forall c w nf', In c nodes -> nf' c = w -> (forall c', c' <> c -> nf' c' = nf c') ->
       exists g', node_weight_mut m g c (fun _ => Some w) = Ok (Some g') /\ Built m s G g' nf' ef) /\
    (forall c a w ef', In c nodes -> step c (fwd a) <> None -> ef' c a = w ->
       (forall c' a', (c', a') <> (c, a) -> ef' c' a' = ef c' a') ->
       exists g', edge_weight_mut m g (c, a) (fun _ => Some w) = Ok (Some g') /\ Built m s G g' nf ef').
  Proof using RF RG.
    intros g nf ef HB. split.
    - intros c w nf' Hc H1 H2.
      destruct (built_node_write RF g nf ef c (fun _ => Some w) w nf' HB Hc eq_refl H1 H2)
        as (g' & W1 & _ & W2). eauto.
    - intros c a w ef' Hc Hs H1 H2.
      destruct (built_edge_write RF g nf ef c a (fun _ => Some w) w ef' HB (conj Hc Hs) eq_refl H1 H2)
        as (g' & W1 & _ & W2). eauto.
  Qed.

  Lemma y_visit : forall (g : graph) nf ef ops, Built m s G g nf ef ->
    Forall (fun op => match op with Visit c | Unvisit c | IsVisited c => coord c | ResetMap => True end) ops ->
    visit_run m g (visit_map g) ops = Ok (visit_spec_run nodes [] ops).
  Proof using RF RG.
    intros g nf ef ops HB HF. apply (x_c23 RF RG g nf ef ops HB).
    eapply Forall_impl; [|exact HF]. intros [c|c|c|] H; cbn; auto; apply y_locatable, H.
  Qed.

  Lemma y_calls : forall St (n : St -> Cell -> N * St) (e : St -> Cell -> A -> E * St) st,
    exists g, new_with s n e m st = Ok (g, state_after n e (spec_calls G) st) /\
      (forall l1 c l2, spec_calls G = l1 ++ CallNode c :: l2 ->
         node_weight m g c = Ok (Some (fst (n (state_after n e l1 st) c)))) /\
      (forall l1 c a l2, spec_calls G = l1 ++ CallEdge c a :: l2 ->
         edge_weight m g (c, a) = Ok (Some (fst (e (state_after n e l1 st) c a)))).
  Proof using RF RG. exact (x_c04 RF RG). Qed.

  Lemma y_off_board : forall (g : graph) nf ef c dir, Built m s G g nf ef -> coord c -> ~ In c nodes ->
    to_index m g c = Fail FPanic /\
    edges m g c = Fail (match m with Debug => FPanic | Release => FUB end) /\
    edges_directed m g c dir = Fail (match m with Debug => FPanic | Release => FUB end).
  Proof using RF RG.
    intros g nf ef c dir HB Hc Hn.
    split; [exact (x_c05_off_board RF RG g nf ef c HB (y_locatable c Hc) Hn)|].
    exact (x_c22_fault RF RG g nf ef c dir HB (y_locatable c Hc) Hn).
  Qed.

  Lemma y_unchecked : forall (g : graph) nf ef, Built m s G g nf ef ->
    (forall c, In c nodes -> node_weight_unchecked m g c = Ok (nf c)) /\
    (forall c a, In c nodes -> step c (fwd a) <> None ->
       edge_weight_unchecked m g (c, a) = Ok (ef c a)).
  Proof using RF RG.
    intros g nf ef HB. destruct (x_built_weights RF RG g nf ef HB) as (W1 & W2 & _).
    destruct (x_c36_graph RF RG g nf ef HB) as (H1 & H2 & _). split.
    - intros c Hc. destruct (H1 c Hc) as (x & X1 & X2). rewrite (W1 c Hc) in X1. congruence.
    - intros c a Hc Hs. destruct (H2 c a (conj Hc Hs)) as (x & X1 & X2).
      rewrite (W2 c a (conj Hc Hs)) in X1. congruence.
  Qed.

  (** ** Searches *)

  Lemma y_degree : forall c, Z.of_nat (length (spec_neighbors G c)) + 1 < 2 ^ 72.
  Proof using AC.
    clear RF RG. intros c. pose proof (axc_size _ _ _ _ _ AC) as H. rewrite (axc_dcount _ _ _ _ _ AC) in H.
    assert (H2 : (length (spec_neighbors G c) <= length dirs)%nat).
    { unfold spec_neighbors. cbn [geo_ax geo_step contract_geometry ag_dirs]. clear.
      induction dirs as [|d l IH]; cbn [flat_map length]; [lia|].
      rewrite app_length. destruct (step c d); cbn [length]; lia. }
    change (2 ^ 72) with 4722366482869645213696.
    change (2 ^ 64) with 18446744073709551616 in H. lia.
  Qed.

  Section Search.
    Context (g : graph) (nf : Cell -> N) (ef : Cell -> A -> E) (HB : Built m s G g nf ef).
    Notation reached := (Reached (neighbors g) (neighbors_next m g) nodes).

    Lemma y_nb : forall c, In c (geo_nodes G) ->
      Drains (neighbors_next m g c) (neighbors g c) (spec_neighbors G c).
    Proof using RF RG HB. intros c Hc. exact (proj1 (x_c09 RF RG g nf ef c Outgoing HB Hc)). Qed.

    Lemma y_off : forall c x, In c (geo_nodes G) -> In x (spec_neighbors G c) ->
      ~ In x (geo_nodes G) -> forall vm,
      vm_visit m (g_s g) vm x = Ok (false, vm) /\ vm_is_visited m (g_s g) vm x = Ok false.
    Proof using RF RG.
      intros c x Hc Hx Hn. exfalso. apply Hn. apply (x_in_spec_neighbors RF RG) in Hx.
      destruct Hx as (d & Hd). eapply (rg_in RG); eauto.
    Qed.

    Lemma y_bfs : forall start, In start nodes ->
      exists it l, bfs_new (vm_visit m (g_s g)) (visit_map g) start = Ok it /\
        Drains (bfs_next (neighbors g) (neighbors_next m g) (vm_visit m (g_s g))) it l /\
        hd_error l = Some start /\ NoDup l /\
        (forall c, In c l <-> exists n, reached start n c) /\
        forall l1 a l2 b l3 n, l = l1 ++ a :: l2 ++ b :: l3 -> reached start n b ->
          exists k, (k <= n)%nat /\ reached start k a.
    Proof using RF RG HB AC.
      intros start Hs. pose proof (built_rep RF _ _ _ HB) as [Hgs _].
      apply (bfs_any (neighbors g) (neighbors_next m g) (vm_visit m (g_s g))
        (vm_is_visited m (g_s g)) cell_dec (geo_nodes G) (spec_neighbors G)
        (VMrep (s := s) (G := G) (cell := cell)) y_nb (fun c _ => y_degree c) y_off
        (vr_visit g nf ef HB cell RF) (vr_visited g nf ef HB cell RF) (vr_ext cell) start Hs).
      apply (visit_map_rep RF g Hgs).
    Qed.

    Lemma y_dfs : forall start, In start nodes ->
      exists l, Drains (dfs_next (neighbors g) (neighbors_next m g) (vm_visit m (g_s g))
          (vm_is_visited m (g_s g))) (dfs_new (visit_map g) start) l /\
        hd_error l = Some start /\ NoDup l /\
        (forall c, In c l <-> exists n, reached start n c) /\
        forall l1 c l2, l = l1 ++ c :: l2 -> l1 <> [] ->
          exists p ln, In p l1 /\ Drains (neighbors_next m g p) (neighbors g p) ln /\ In c ln.
    Proof using RF RG HB AC.
      intros start Hs. pose proof (built_rep RF _ _ _ HB) as [Hgs _].
      apply (dfs_any (neighbors g) (neighbors_next m g) (vm_visit m (g_s g))
        (vm_is_visited m (g_s g)) cell_dec (geo_nodes G) (spec_neighbors G)
        (VMrep (s := s) (G := G) (cell := cell)) y_nb (fun c _ => y_degree c) y_off
        (vr_visit g nf ef HB cell RF) (vr_visited g nf ef HB cell RF) (vr_ext cell) start Hs).
      apply (visit_map_rep RF g Hgs).
    Qed.

    Lemma y_dijkstra : forall H, HeapOK H -> forall cost start, In start nodes ->
      let target := fun e : EdgeReference Cell E D => Ok (er_target e) in
      (forall c e, In c nodes -> EdgeAt (edges m g) (edges_next m g) c e -> 0 <= cost e) ->
      exists r,
        Returns (dijkstra_round veqb H (edges m g) (edges_next m g) target cost
            (vm_visit m (g_s g)) (vm_is_visited m (g_s g)) None)
          (dijkstra_init veqb H (visit_map g) start) r /\
        forall c, match r c with
                  | Some x => LeastCost (edges m g) (edges_next m g) target cost start c x
                  | None => ~ exists p k, Route (edges m g) (edges_next m g) target cost start p k c
                  end.
    Proof using RF RG HB AC.
      intros H HOK cost start Hs target Hcost. pose proof (built_rep RF _ _ _ HB) as [Hgs _].
      assert (EDG : forall c, In c nodes ->
        exists it, edges m g c = Ok it /\ Drains (edges_next m g) it (spec_edges G ef c)).
      { intros c Hc. exact (x_c12 RF RG g nf ef c HB Hc). }
      destruct (@dijkstra_answers Cell (EdgeReference Cell E D)) with (eqb := veqb) (H := H)
        (edges := edges m g) (edges_next := edges_next m g) (targeto := target)
        (target := @er_target Cell E D) (cost := cost) (visit := vm_visit m (g_s g))
        (visited := vm_is_visited m (g_s g)) (goal := @None Cell) (board := nodes)
        (out := spec_edges G ef) (VR := VMrep (s := s) (G := G) (cell := cell)) (fresh := visit_map g)
        (start := start) as (r & R0 & R1 & R2).
      - exact veqb_eq.
      - exact HOK.
      - exact EDG.
      - intros c Hc. rewrite <- (map_length (@er_target Cell E D)).
        pose proof (x_spec_edges_targets RF RG ef c Hc) as HT. rewrite HT. apply y_degree.
      - reflexivity.
      - intros c e Hc He. apply (x_in_spec_edges RF RG) in He.
        destruct He as (d & c' & x & a & Hd & _ & ->). exact (rg_in RG _ _ _ Hd).
      - intros c e Hc He. destruct (EDG c Hc) as (it & E1 & D1). apply (Hcost c e); auto.
        exists it, (spec_edges G ef c). auto.
      - exact (vr_visit g nf ef HB cell RF).
      - exact (vr_visited g nf ef HB cell RF).
      - apply (visit_map_rep RF g Hgs).
      - exact Hs.
      - exists r. split; [exact R0|]. intros c. destruct (r c) as [x|] eqn:Er.
        + split; [apply (R1 c x Er)|]. intros p' k' HR.
          destruct (R2 p' k' c HR) as [(x' & X1 & X2)|(b & x' & X1 & _)]; [|discriminate].
          rewrite Er in X1. injection X1 as <-. exact X2.
        + intros (p & k & HR). destruct (R2 p k c HR) as [(x' & X1 & X2)|(b & x' & X1 & _)]; congruence.
    Qed.
  End Search.
End Contract.
