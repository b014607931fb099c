(** * DfsMain: [depth_first_search] and [is_cyclic_directed] on both graph types. *)

From Verif Require Import Machine Store Axes Shapes Lattice SquareGraph Traverse Clients Spec
  SpecSquare Spec2 Spec4 Spec10 Spec11 Basics AxisProofs GeoProofs ShapeProofs StoreProofs LoopProofs
  OffboardProofs OffboardMore GraphProofs RepProofs VisitProofs Main1 Main2 TraverseProofs AnySearch
  SearchProofs SquareProofs SquareIter SquareMain SquareSearch ClientsProofs ClientsMain
  AnySearchMain PostAny SccProofs SccMain Follow DfsEvents Spec16 DfsProofs DfsCycle.
From Coq Require Import ZifyBool ZifyNat Permutation.

Lemma leads_all : forall C (nbs : C -> list C) nodes c, Leads nbs nodes nodes c <-> In c nodes.
Proof. intros C nbs nodes c. split; [inversion 1; auto|]. intros H. apply leads_start; auto. Qed.

(** Where neighbours are mutual any edge makes a cycle. *)
Lemma mutual_cycle : forall C (nbs : C -> list C) nodes,
  (forall a b, In a nodes -> In b (nbs a) -> In b nodes /\ In a (nbs b)) ->
  ((exists c, In c nodes /\ Leads nbs nodes (nbs c) c) <-> exists c, In c nodes /\ nbs c <> []).
Proof.
  intros C nbs nodes H. split; intros (c & Hc & Hl); exists c; split; auto.
  - intros E. rewrite E in Hl.
    assert (K : forall x, Leads nbs nodes [] x -> False) by (induction 1 as [x []|]; auto). eauto.
  - destruct (nbs c) as [|b l] eqn:E; [contradiction|].
    destruct (H c b Hc) as [Hb Hm]; [rewrite E; left; auto|].
    apply leads_step with (c := b); auto. apply leads_start; auto. left. auto.
Qed.

Lemma all_found : forall C (nbs : C -> list C) nodes tr, NoDup nodes ->
  DepthFirst nbs nodes nodes tr -> Permutation (discovered tr) nodes.
Proof.
  intros C nbs nodes tr ND D. destruct (df_found _ _ _ _ D) as [H1 H2].
  apply NoDup_Permutation; auto. intros c. rewrite H2. apply leads_all.
Qed.

Section Lat.
  Context {A D N E : Type} {m : mode} {s : Shape Cell A D} {G : Geometry A D}
    (STO : Stored s G) (g : LatticeGraph Cell A D N E) (nf : Cell -> N) (ef : Cell -> A -> E)
    (HB : Built m s G g nf ef).

  Lemma c106 : forall Ids (it : Ids) next starts, Drains next it starts ->
    Z.of_nat (length starts) + 1 < 2 ^ 72 -> incl starts (geo_nodes G) ->
    exists tr, DepthFirst (spec_neighbors G) (geo_nodes G) starts tr /\
      forall V B (visitor : V -> DfsEvent Cell -> V + B) w,
        lattice_dfs m g it next visitor w = Ok (told visitor w tr).
  Proof using STO HB.
    intros Ids it next starts HD HL HI.
    pose proof (any_nb STO g nf ef HB) as HNB. pose proof (stored_few STO) as SMALL.
    pose proof (any_off STO g nf ef HB) as HOF. pose proof (degree_few STO) as HDF.
    refine_store m STO. pose proof (RepProofs.built_rep RF _ _ _ HB) as [Hgs _].
    exact (any_dfs m (neighbors g) (neighbors_next m g) (vm_visit m (g_s g))
      (vm_is_visited m (g_s g)) cell_dec (geo_nodes G) (spec_neighbors G)
      (VMrep (s := s) (G := G) (cell := cell)) HNB HDF HOF
      (vr_visit g nf ef HB cell RF) (vr_visited g nf ef HB cell RF) (vr_ext cell) SMALL
      (visit_map g) (visit_map_rep RF g Hgs) it next starts HD HL HI).
  Qed.

  Lemma c106_all : exists tr, DepthFirst (spec_neighbors G) (geo_nodes G) (geo_nodes G) tr /\
    Permutation (discovered tr) (geo_nodes G) /\
    forall V B (visitor : V -> DfsEvent Cell -> V + B) w,
      lattice_dfs m g (node_identifiers g) (node_indices_next m (g_s g)) visitor w
      = Ok (told visitor w tr).
  Proof using STO HB.
    destruct (c106 _ _ _ _ (c06 STO g nf ef HB)) as (tr & H1 & H2).
    - apply (nodes_few (m := m) STO).
    - apply incl_refl.
    - exists tr. split; auto. split; auto. eapply all_found; [|eauto].
      refine_store m STO. apply (nodes_nodup RF).
  Qed.

  Lemma c106_cyclic : exists b, lattice_is_cyclic_directed m g = Ok b /\
    (b = true <-> exists c, In c (geo_nodes G) /\
       Leads (spec_neighbors G) (geo_nodes G) (spec_neighbors G c) c).
  Proof using STO HB.
    destruct c106_all as (tr & H1 & _ & H2).
    destruct (cyclic_of_dfs _ (spec_neighbors G) (geo_nodes G) (geo_nodes G)
      (lattice_dfs m g (node_identifiers g) (node_indices_next m (g_s g)))) as (b & Eb & Hb).
    { exists tr. split; auto. }
    exists b. split; [exact Eb|]. rewrite Hb. clear. split; intros (c & H1 & H2); exists c; split; auto.
    - apply leads_all in H1. auto.
    - apply leads_all. auto.
  Qed.
End Lat.

Lemma c106_edge : forall A D N E (m : mode) (s : Shape Cell A D) (G : Geometry A D), Supported s G ->
  forall (g : LatticeGraph Cell A D N E) nf ef, Built m s G g nf ef ->
  exists b, lattice_is_cyclic_directed m g = Ok b /\
    (b = true <-> exists c, In c (geo_nodes G) /\ spec_neighbors G c <> []).
Proof.
  intros A D N E m s G SUP g nf ef HB. pose proof (st_supported _ _ _ _ SUP) as STO.
  destruct (c106_cyclic STO g nf ef HB) as (b & H1 & H2). exists b. split; auto. rewrite H2.
  apply mutual_cycle. intros a t Ha Ht. apply (in_spec_neighbors STO) in Ht. destruct Ht as (d & Hd).
  split; [eapply (rg_in (supported_regular _ _ _ _ SUP)); eauto|].
  destruct (step_back SUP a t d Ha Hd) as (d' & _ & Hb). apply (in_spec_neighbors STO). eauto.
Qed.

Lemma c106_leaky : forall A D N E (m : mode) (s : Shape Cell A D) (G : Geometry A D), Leaky s G ->
  forall (g : LatticeGraph Cell A D N E) nf ef, Built m s G g nf ef ->
  exists tr, (forall V B (visitor : V -> DfsEvent Cell -> V + B) w,
      lattice_dfs m g (node_identifiers g) (node_indices_next m (g_s g)) visitor w
      = Ok (told visitor w tr)) /\
    exists pre a b post, tr = pre ++ TreeEdge a b :: post /\ ~ In b (geo_nodes G) /\
      ~ In b (discovered tr).
Proof.
  intros A D N E m s G LK g nf ef HB.
  assert (STO : Stored s G) by (apply traversable_stored, leaky_traversable; auto).
  destruct (c106_all STO g nf ef HB) as (tr & HD & HP & H). exists tr. split; auto.
  destruct (leaky_step _ _ _ _ LK) as (c & a & t & Hc & _ & Hs & Ht).
  assert (Hn : In t (spec_neighbors G c)) by (apply (in_spec_neighbors STO); eauto).
  assert (Hno : ~ In t (discovered tr)).
  { intros X. apply Ht. revert X. apply Permutation_in. auto. }
  assert (Hse : In (c, t) (edges_seen tr)).
  { rewrite (df_edges _ _ _ _ HD). apply in_flat_map. exists c. split.
    - apply Permutation_sym in HP. eapply Permutation_in; eauto.
    - apply in_map. auto. }
  destruct (seen_event _ _ _ Hse) as (pre & e & post & Ep & [->|[->| ->]]).
  - exists pre, c, t, post. auto.
  - exfalso. destruct (df_proper _ _ _ _ HD _ _ _ Ep) as (_ & _ & Ho). apply Hno.
    rewrite Ep, discovered_app. apply in_or_app. left. apply in_rev.
    eapply sub_in; [apply open_sub|auto].
  - exfalso. destruct (df_proper _ _ _ _ HD _ _ _ Ep) as (_ & _ & Ho). apply Hno.
    rewrite <- (df_finished _ _ _ _ HD). rewrite Ep, finished_app. apply in_or_app. auto.
Qed.

Section Sq.
  Context {N E : Type} {ix : IxType} {S : LoopShape} {m : mode} {h v : Z}
    (SZ : sq_size S h v) (FX : sq_index_fits ix h v).
  Context (g : SquareGraph N E ix S) (nf : NodeIndex -> N) (ef : EdgeIndex -> E)
    (B : SqBuilt m h v g nf ef).
  Notation next := (fun _ : NodeIndex => sg_neighbors_next (ix := ix) (S := S) m).
  Notation nodes := (sq_nodes h v).

  Lemma c107 : forall Ids (it : Ids) nx starts, Drains nx it starts ->
    Z.of_nat (length starts) + 1 < 2 ^ 72 -> incl starts nodes ->
    exists tr, DepthFirst (sq_neighbours S h v) nodes starts tr /\
      forall V B (visitor : V -> DfsEvent NodeIndex -> V + B) w,
        square_dfs m g it nx visitor w = Ok (told visitor w tr).
  Proof using SZ FX B.
    intros Ids it nx starts HD HL HI.
    exact (any_dfs m (sg_neighbors g) next svm_visit svm_is_visited cell_dec nodes
      (sq_neighbours S h v) (SVM (h := h) (v := v))
      (sqc_nb SZ FX g nf ef B) (sqc_deg (S := S) (h := h) (v := v))
      ltac:(intros c x Hc Hx Hn; exfalso; apply Hn; eapply sqc_in; eauto)
      (svr_visit (g := g)) (svr_visited (g := g)) svr_ext (sq_nodes_few SZ) (sg_visit_map g)
      (svm_fresh SZ B) it nx starts HD HL HI).
  Qed.

  Lemma c107_all : 1 <= v -> exists tr, DepthFirst (sq_neighbours S h v) nodes nodes tr /\
    Permutation (discovered tr) nodes /\
    forall V B (visitor : V -> DfsEvent NodeIndex -> V + B) w,
      square_dfs m g (sg_node_identifiers g) (sg_node_indices_next (ix := ix) m) visitor w
      = Ok (told visitor w tr).
  Proof using SZ FX B.
    intros Hv. destruct (c43_identifiers SZ FX B Hv) as [HID _].
    destruct (c107 _ _ _ _ HID) as (tr & H1 & H2).
    - pose proof (sq_nodes_few SZ). lia.
    - apply incl_refl.
    - exists tr. split; auto. split; auto. eapply all_found; [apply sq_nodes_nodup|eauto].
  Qed.

  Lemma c107_edge : 1 <= v -> exists b, square_is_cyclic_directed m g = Ok b /\
    (b = true <-> exists c, In c nodes /\ sq_neighbours S h v c <> []).
  Proof using SZ FX B.
    intros Hv. destruct (c107_all Hv) as (tr & H1 & _ & H2).
    destruct (cyclic_of_dfs _ (sq_neighbours S h v) nodes nodes
      (square_dfs m g (sg_node_identifiers g) (sg_node_indices_next (ix := ix) m))) as (b & Eb & Hb).
    { exists tr. split; auto. }
    exists b. split; [exact Eb|]. rewrite Hb. rewrite <- mutual_cycle.
    - clear. split; intros (c & H1 & H2); exists c; split; auto.
      + apply leads_all in H1. auto.
      + apply leads_all. auto.
    - intros a b' Ha Hn. split; [eapply sqc_in; eauto|].
      apply sq_in_nodes in Ha. apply in_neighbours in Hn. destruct Hn as (d & Hd).
      destruct (neighbour_back a d b' Ha Hd) as (d' & Hd'). apply in_neighbours. eauto.
  Qed.

  (** Without rows there are no nodes, but [node_identifiers] yields some (C43). *)
  Lemma c107_no_rows : v = 0 -> 2 <= h -> forall V B (visitor : V -> DfsEvent NodeIndex -> V + B) w,
    square_dfs m g (sg_node_identifiers g) (sg_node_indices_next (ix := ix) m) visitor w
    = Fail FPanic.
  Proof using SZ FX B.
    intros Hv Hh V B' visitor w. pose proof (c43_no_rows SZ FX B Hv) as HD.
    pose proof (svm_fresh SZ B) as (V1 & V2). destruct (V2 1 ltac:(lia)) as (b & B1 & B2 & _).
    subst v. cbn [Z.to_nat] in B2. destruct b; [|discriminate].
    assert (EZ : zrange (h - 1) = 0 :: map Z.of_nat (seq 1 (Z.to_nat (h - 2)))).
    { unfold zrange. replace (Z.to_nat (h - 1)) with (Datatypes.S (Z.to_nat (h - 2))) by lia.
      reflexivity. }
    rewrite EZ in HD. cbn [map] in HD. apply drains_some in HD as (it' & En & _).
    assert (E2 : svm_visit (sg_visit_map g) (1 + 0, 0) = Fail FPanic).
    { unfold svm_visit. cbn [fst snd]. change (1 + 0) with 1.
      rewrite (vec_index_ok _ _ _ _ Z.le_0_1 B1). reflexivity. }
    unfold square_dfs, depth_first_search, for_return.
    erewrite loop_rounds; [|apply R_fail|reflexivity].
    - reflexivity.
    - cbn [fst snd]. rewrite En. cbn [bind fst snd]. unfold dfs_visitor, dfs_enter.
      cbn [ds_disc]. rewrite E2. reflexivity.
  Qed.
End Sq.
