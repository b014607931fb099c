(** * TopoMain: [toposort] on both graph types. *)

From Verif Require Import Machine Store Axes Shapes Lattice SquareGraph Traverse Clients Spec
  SpecSquare Spec2 Spec4 Spec10 Spec11 Basics AxisProofs GeoProofs ShapeProofs StoreProofs LoopProofs
  OffboardProofs OffboardMore GraphProofs RepProofs VisitProofs Main1 Main2 TraverseProofs AnySearch
  SearchProofs SquareProofs SquareIter SquareMain SquareSearch ClientsProofs ClientsMain
  AnySearchMain PostAny SccProofs SccMain Follow DfsEvents Spec16 DfsProofs DfsCycle DfsMain
  Topo TopoProofs.
From Coq Require Import ZifyBool ZifyNat Permutation.

Section Lat.
  Context {A D N E : Type} {m : mode} {s : Shape Cell A D} {G : Geometry A D}
    (STO : Stored s G) (g : LatticeGraph Cell A D N E) (nf : Cell -> N) (ef : Cell -> A -> E)
    (HB : Built m s G g nf ef).

  Lemma c108 : exists r, lattice_toposort m g = Ok r /\
    match r with
    | inl l => Permutation l (geo_nodes G) /\
        forall c d, In c (geo_nodes G) -> In d (spec_neighbors G c) -> ~ In d (geo_nodes G)
    | inr j => In j (geo_nodes G) /\
        exists c, In c (geo_nodes G) /\ In j (spec_neighbors G c)
    end.
  Proof using STO HB.
    pose proof (c06 STO g nf ef HB) as HID. pose proof (any_nb STO g nf ef HB) as HNB.
    pose proof (any_off STO g nf ef HB) as HOF. pose proof (degree_few STO) as HDF.
    pose proof (stored_few STO) as SMALL.
    refine_store m STO. pose proof (RepProofs.built_rep RF _ _ _ HB) as [Hgs _].
    exact (toposort_any (node_identifiers g) (node_indices_next m (g_s g)) (neighbors g)
      (neighbors_next m g) (vm_visit m (g_s g))
      (vm_is_visited m (g_s g)) (visit_map g) (reset_map g) node_dec (geo_nodes G) (spec_neighbors G)
      (VMrep (s := s) (G := G) (cell := cell)) HID (nodes_nodup RF) HNB HDF HOF
      (vr_visit g nf ef HB cell RF) (vr_visited g nf ef HB cell RF) (vr_ext cell)
      (visit_map_rep RF g Hgs) (lat_reset g nf ef HB cell RF) SMALL).
  Qed.
End Lat.

(** A node that is the neighbour of a neighbour lies on a cycle. *)
Lemma mutual_on_cycle : forall C (nbs : C -> list C) nodes,
  (forall a b, In a nodes -> In b (nbs a) -> In b nodes /\ In a (nbs b)) ->
  forall c j, In c nodes -> In j (nbs c) -> Leads nbs nodes (nbs j) j.
Proof.
  intros C nbs nodes H c j Hc Hj. destruct (H c j Hc Hj) as [Hjn Hcj].
  apply leads_step with (c := c); auto. apply leads_start; auto.
Qed.

Lemma supported_mutual : forall A D (s : Shape Cell A D) (G : Geometry A D), Supported s G ->
  forall a b, In a (geo_nodes G) -> In b (spec_neighbors G a) ->
  In b (geo_nodes G) /\ In a (spec_neighbors G b).
Proof.
  intros A D s G SUP a t Ha Ht. pose proof (st_supported _ _ _ _ SUP) as STO.
  apply (in_spec_neighbors STO) in Ht. destruct Ht as (d & Hd).
  split; [eapply (rg_in (supported_regular _ _ _ _ SUP)); eauto|].
  destruct (step_back SUP a t d Ha Hd) as (d' & _ & Hb). apply (in_spec_neighbors STO). eauto.
Qed.

Lemma c108_cycle : forall A D N E (m : mode) (s : Shape Cell A D) (G : Geometry A D), Supported s G ->
  forall (g : LatticeGraph Cell A D N E) nf ef, Built m s G g nf ef ->
  exists r, lattice_toposort m g = Ok r /\
    match r with
    | inl l => Permutation l (geo_nodes G) /\ forall c, In c (geo_nodes G) -> spec_neighbors G c = []
    | inr j => In j (geo_nodes G) /\
        Leads (spec_neighbors G) (geo_nodes G) (spec_neighbors G j) j
    end.
Proof.
  intros A D N E m s G SUP g nf ef HB. pose proof (supported_mutual _ _ _ _ SUP) as MU.
  destruct (c108 (st_supported _ _ _ _ SUP) g nf ef HB) as (r & H1 & H2). exists r. split; auto.
  destruct r as [l|j].
  - destruct H2 as [H2 H3]. split; auto. intros c Hc.
    destruct (spec_neighbors G c) as [|d t] eqn:Ed; auto. exfalso.
    assert (Hd : In d (spec_neighbors G c)) by (rewrite Ed; left; auto).
    exact (H3 c d Hc Hd (proj1 (MU c d Hc Hd))).
  - destruct H2 as (H2 & c & Hc & Hj). split; auto. eapply mutual_on_cycle; eauto.
Qed.

Section Sq.
  Context {N E : Type} {ix : IxType} {S : LoopShape} {m : mode} {h v : Z}
    (SZ : sq_size S h v) (FX : sq_index_fits ix h v).
  Context (g : SquareGraph N E ix S) (nf : NodeIndex -> N) (ef : EdgeIndex -> E)
    (B : SqBuilt m h v g nf ef).
  Notation next := (fun _ : NodeIndex => sg_neighbors_next (ix := ix) (S := S) m).
  Notation nodes := (sq_nodes h v).

  Lemma sq_reset : forall vm M, SVM (h := h) (v := v) vm M -> SVM (h := h) (v := v) (sg_reset_map g vm) [].
  Proof using SZ B.
    intros vm M HV. destruct (svm_op (g := g) vm M ResetMap HV I) as (vm' & H1 & H2).
    cbn [sq_visit_op] in H1. injection H1 as <-. exact H2.
  Qed.

  Lemma c109 : 1 <= v -> exists r, square_toposort m g = Ok r /\
    match r with
    | inl l => Permutation l nodes /\ forall c, In c nodes -> sq_neighbours S h v c = []
    | inr j => In j nodes /\ Leads (sq_neighbours S h v) nodes (sq_neighbours S h v j) j
    end.
  Proof using SZ FX B.
    intros Hv. destruct (c43_identifiers SZ FX B Hv) as [HID _].
    assert (MU : forall a b, In a nodes -> In b (sq_neighbours S h v a) ->
      In b nodes /\ In a (sq_neighbours S h v b)).
    { intros a b' Ha Hn. split; [eapply sqc_in; eauto|].
      apply sq_in_nodes in Ha. apply in_neighbours in Hn. destruct Hn as (d & Hd).
      destruct (neighbour_back a d b' Ha Hd) as (d' & Hd'). apply in_neighbours. eauto. }
    destruct (toposort_any (sg_node_identifiers g) (sg_node_indices_next (ix := ix) m)
      (sg_neighbors g) next svm_visit svm_is_visited (sg_visit_map g) (sg_reset_map g)
      node_dec nodes (sq_neighbours S h v) (SVM (h := h) (v := v)) HID (sq_nodes_nodup h v)
      (sqc_nb SZ FX g nf ef B) (sqc_deg (S := S) (h := h) (v := v))
      ltac:(intros c x Hc Hx Hn; exfalso; apply Hn; eapply sqc_in; eauto)
      (svr_visit (g := g)) (svr_visited (g := g)) svr_ext (svm_fresh SZ B) sq_reset
      (sq_nodes_few SZ)) as (r & H1 & H2).
    exists r. split; [exact H1|]. destruct r as [l|j].
    - destruct H2 as [H2 H3]. split; auto. intros c Hc.
      destruct (sq_neighbours S h v c) as [|d t] eqn:Ed; auto. exfalso.
      assert (Hd : In d (sq_neighbours S h v c)) by (rewrite Ed; left; auto).
      exact (H3 c d Hc Hd (proj1 (MU c d Hc Hd))).
    - destruct H2 as (H2 & c & Hc & Hj). split; auto. eapply mutual_on_cycle; eauto.
  Qed.

  (** Without rows there are no nodes, but [node_identifiers] yields some (C43). *)
  Lemma c109_no_rows : v = 0 -> 2 <= h -> square_toposort m g = Fail FPanic.
  Proof using SZ FX B.
    intros Hv Hh. pose proof (c43_no_rows SZ FX B Hv) as HD.
    pose proof (sq_reset _ _ (svm_fresh SZ B)) as (V1 & V2).
    destruct (V2 1 ltac:(lia)) as (b & B1 & B2 & _).
    subst v. cbn [Z.to_nat] in B2. destruct b; [|discriminate].
    assert (EZ : zrange (h - 1) = 0 :: map Z.of_nat (seq 1 (Z.to_nat (h - 2)))).
    { unfold zrange. replace (Z.to_nat (h - 1)) with (Datatypes.S (Z.to_nat (h - 2))) by lia.
      reflexivity. }
    rewrite EZ in HD. cbn [map] in HD. apply drains_some in HD as (it' & En & _).
    set (vm0 := sg_reset_map g (sg_visit_map g)) in *.
    assert (E1 : svm_is_visited vm0 (1 + 0, 0) = Ok false).
    { unfold svm_is_visited. cbn [fst snd]. change (1 + 0) with 1.
      rewrite (vec_index_ok _ _ _ _ Z.le_0_1 B1). reflexivity. }
    assert (E2 : svm_visit vm0 (1 + 0, 0) = Fail FPanic).
    { unfold svm_visit. cbn [fst snd]. change (1 + 0) with 1.
      rewrite (vec_index_ok _ _ _ _ Z.le_0_1 B1). reflexivity. }
    assert (E3 : forall fm, loop (topo_round (sg_neighbors g) next svm_visit svm_is_visited node_dec)
      ([], ([(1 + 0, 0)], (vm0, fm))) = Fail FPanic).
    { intros fm. eapply loop_rounds; [apply R_fail|reflexivity]. unfold topo_round.
      rewrite E2. reflexivity. }
    unfold square_toposort, toposort, for_return. fold vm0.
    erewrite loop_rounds; [|apply R_fail|reflexivity].
    - reflexivity.
    - cbn [fst snd]. rewrite En. cbn [bind fst snd]. unfold topo_start. rewrite E1. cbn [bind].
      rewrite E3. reflexivity.
  Qed.
End Sq.
