(** * BellmanMain: [bellman_ford] on [LatticeGraph] and on [SquareGraph] (C124, C125). *)

From Verif Require Import Machine Store Axes Shapes Lattice SquareGraph Traverse Clients Astar
  Dijkstra Filtered Spec SpecSquare Spec4 Spec6 Spec11 Spec19 Spec21 Basics AxisProofs GeoProofs
  ShapeProofs StoreProofs GraphProofs RepProofs EdgeProofs VisitProofs Main1 DistProofs TraverseProofs AnySearch AstarProofs
  SearchProofs SquareProofs SquareIter SquareMain SquareSearch ClientsProofs ClientsMain
  AnySearchMain AstarMain DijkstraProofs DijkstraMain CustomProofs CustomMain FilteredProofs FilteredMain
  Bellman Spec23 BellmanProofs.
From Coq Require Import ZifyBool ZifyNat.

(** ** Two ways to say which ways there are *)

Lemma answered_iff : forall C (way way' : C -> list C -> Z -> C -> Prop) at_node nodes start r,
  In start nodes -> (forall a p k b, In a nodes -> way a p k b -> In b nodes) ->
  (forall a p k b, In a nodes -> way a p k b <-> way' a p k b) ->
  Answered way at_node nodes start r -> Answered way' at_node nodes start r.
Proof.
  intros C way way' at_node nodes start r Hs HI HE.
  assert (HN : NegativeCycle way start <-> NegativeCycle way' start).
  { split; intros (c & p & x & q & k & H1 & H2 & H3); exists c, p, x, q, k.
    - assert (Hc : In c nodes) by (eapply HI; eauto). split; [apply HE; auto|]. split; [apply HE; auto|auto].
    - apply HE in H1; auto. assert (Hc : In c nodes) by (eapply HI; eauto).
      split; auto. split; [apply HE; auto|auto]. }
  destruct r as [[dist pred]|]; cbn [Answered]; [|apply HN].
  intros [H1 H2]. split; [rewrite <- HN; auto|]. intros c Hc.
  destruct (H2 c Hc) as [(x & p & D1 & D2 & D3 & D4)|(D1 & D2 & D3)].
  - left. exists x, p. split; auto. split; auto. split; [apply HE; auto|].
    intros p' k HW. apply (D4 p'). apply HE; auto.
  - right. split; auto. split; auto. intros p k HW. apply (D3 p k). apply HE; auto.
Qed.

Section Graph.
  Context {C Ed It : Type} (edges : C -> outcome It) (next : It -> outcome (option Ed * It))
    (target : Ed -> outcome C) (cost : Ed -> Z).
  Notation way := (Route edges next target cost).

  Lemma along_route : forall a p k b, Along edges next target cost (fun _ => true) a p k b <-> way a p k b.
  Proof.
    intros a p k b. split; induction 1; econstructor; eauto.
  Qed.

  Lemma route_one : forall a e t, EdgeAt edges next a e -> target e = Ok t ->
    way a [a; t] (cost e + 0) t.
  Proof. intros a e t He Ht. econstructor; eauto. constructor. Qed.

  Lemma route_join : forall a p k b, way a p k b -> forall q k' c, way b (b :: q) k' c ->
    way a (p ++ q) (k + k') c.
  Proof.
    induction 1 as [c|a e t p k b He Ht HR IH]; intros q k' d HQ; [exact HQ|].
    cbn [app]. rewrite <- Z.add_assoc. econstructor; eauto.
  Qed.

  Lemma route_heads : forall a p k b, way a p k b -> exists q, p = a :: q.
  Proof. destruct 1; eauto. Qed.

  (** Where every way leads back for what it costs, one edge makes the cycle. *)
  Lemma two_way : forall start nodes, In start nodes ->
    (forall a p k b, In a nodes -> way a p k b -> In b nodes /\ exists q, way b q k a) ->
    NegativeCycle way start <->
    exists a p x e t, way start p x a /\ EdgeAt edges next a e /\ target e = Ok t /\ cost e < 0.
  Proof.
    intros start nodes Hs HB. split.
    - intros (c & p & x & q & k & H1 & H2 & H3).
      assert (GO : forall a q k b, way a q k b -> forall p x, way start p x a -> k < 0 ->
        exists a p x e t, way start p x a /\ EdgeAt edges next a e /\ target e = Ok t /\ cost e < 0).
      { clear - Hs. induction 1 as [c|a e t q k b He Ht HR IH]; intros p x HP Hk; [lia|].
        destruct (Z_lt_le_dec (cost e) 0) as [Hc|Hc].
        - exists a, p, x, e, t. auto.
        - apply (IH (p ++ [t]) (x + (cost e + 0))); [|lia].
          eapply route_join; [exact HP|]. apply route_one; auto. }
      eapply GO; eauto.
    - intros (a & p & x & e & t & H1 & H2 & H3 & H4).
      destruct (HB _ _ _ _ Hs H1) as [Ha _].
      pose proof (route_one a e t H2 H3) as H5. destruct (HB _ _ _ _ Ha H5) as [_ (q & H6)].
      destruct (route_heads _ _ _ _ H6) as (q' & ->).
      exists a, p, x, ([a; t] ++ q'), (cost e + 0 + (cost e + 0)).
      split; auto. split; [|lia]. eapply route_join; eauto.
  Qed.
End Graph.

(** ** [LatticeGraph] *)

Section Lat.
  Context {A D N E : Type} {m : mode} {s : Shape Cell A D} {G : Geometry A D}
    (SO : Sound m s G) (g : LatticeGraph Cell A D N E) (nf : Cell -> N) (ef : Cell -> A -> E)
    (HB : Built m s G g nf ef).
  Notation nodes := (geo_nodes G).
  Notation target := (fun e : EdgeReference Cell E D => Ok (er_target e)).
  Notation out := (spec_edges G ef).
  Notation run cost := (bellman_ford (node_count m g) (node_bound m g) (to_index m g)
    (node_identifiers g) (node_indices_next m (g_s g)) (edges m g) (edges_next m g) target cost).

  Lemma sound_in : forall cost a p k b, In a nodes ->
    Route (edges m g) (edges_next m g) target cost a p k b -> In b nodes.
  Proof using SO HB.
    intros cost a p k b Ha HR. revert Ha. induction HR as [c|a e t p k b He Ht HR IH]; intros Ha; auto.
    injection Ht as <-. apply IH.
    apply (edge_at_out (edges m g) (edges_next m g) nodes out (f_edges SO g nf ef HB)) in He; auto.
    exact (f_in SO ef a e Ha He).
  Qed.

  Lemma c124_costs : forall cost start, In start nodes ->
    exists r, run cost start = Ok r /\
      Answered (Route (edges m g) (edges_next m g) target cost) (@at_index Cell (to_index m g)) nodes
        start r.
  Proof using SO HB.
    intros cost start Hs. destruct (sound_facts _ _ _ _ _ SO) as ((cell & RF) & RG & _).
    destruct (x_c05 RF RG g nf ef HB) as (B1 & B2 & _ & B4).
    destruct (bellman_ok (node_count m g) (node_bound m g) (to_index m g) (node_identifiers g)
      (node_indices_next m (g_s g)) (edges m g) (edges_next m g) target cost nodes out er_target
      cell_dec (x_c06 RF RG g nf ef HB) (refines_few _ _ _ _ _ _ RF) B2 B1
      (fun i c H => proj1 (B4 i c H)) (f_edges SO g nf ef HB) (f_deg SO ef) (f_tgt ef) (f_in SO ef)
      start Hs) as (r & R1 & R2).
    exists r. split; [exact R1|].
    pose proof (route_iff (edges m g) (edges_next m g) target er_target cost nodes out
      (f_edges SO g nf ef HB) (f_tgt ef) (f_in SO ef)) as RI.
    refine (answered_iff _ _ _ _ _ _ _ Hs _ _ R2).
    - intros a p k b Ha HR. apply RI in HR; auto. eapply sound_in; eauto.
    - intros a p k b Ha. symmetry. apply RI; auto.
  Qed.

  Lemma c124_undirected : ag_directed (geo_ax G) = false -> forall (price : E -> Z) start,
    In start nodes ->
    let cost := fun e : EdgeReference Cell E D => price (er_weight e) in
    let way := Route (edges m g) (edges_next m g) target cost in
    NegativeCycle way start <->
    exists a p x e, way start p x a /\ EdgeAt (edges m g) (edges_next m g) a e /\ cost e < 0.
  Proof using SO HB.
    intros UD price start Hs cost way. unfold way.
    rewrite (two_way (edges m g) (edges_next m g) target cost start nodes Hs).
    - split.
      + intros (a & p & x & e & t & H1 & H2 & _ & H4). exists a, p, x, e. auto.
      + intros (a & p & x & e & H1 & H2 & H4). exists a, p, x, e, (er_target e). auto.
    - intros a p k b Ha HR. split; [eapply sound_in; eauto|]. exists (rev p).
      apply along_route in HR. apply along_route.
      exact (c119_back SO g nf ef HB (fun _ => true) price UD a p k b Ha HR).
  Qed.
End Lat.

(** ** [SquareGraph] *)

Section Sq.
  Context {N E : Type} {ix : IxType} {S : LoopShape} {m : mode} {h v : Z}
    (SZ : sq_size S h v) (FX : sq_index_fits ix h v)
    (g : SquareGraph N E ix S) (nf : NodeIndex -> N) (ef : EdgeIndex -> E)
    (B : SqBuilt m h v g nf ef).
  Notation nodes := (sq_nodes h v).
  Notation edges := (fun n => Ok (sg_edges g n)).
  Notation next := (sg_edges_next m g).
  Notation target := (sr_target (ix := ix) (S := S) (E := E) m).
  Notation out := (sq_out (S := S) (h := h) (v := v) ef).
  Notation tgt := (sq_tgt (ix := ix) (S := S) (m := m)).
  Notation run cost := (bellman_ford (Ok (sg_node_count g)) (Ok (sg_node_bound g)) (sg_to_index m g)
    (sg_node_identifiers g) (sg_node_indices_next (ix := ix) m) edges next target cost).

  Lemma square_in : forall cost a p k b, In a nodes -> Route edges next target cost a p k b -> In b nodes.
  Proof using SZ FX B.
    intros cost a p k b Ha HR. revert Ha. induction HR as [c|a e t p k b He Ht HR IH]; intros Ha; auto.
    apply IH. apply (edge_at_out edges next nodes out (sqa_edges SZ FX g nf ef B)) in He; auto.
    rewrite (s_tgt SZ FX ef a e Ha He) in Ht. injection Ht as <-. exact (sqa_in SZ FX ef a e Ha He).
  Qed.

  Lemma c125_costs : forall cost start, on_board h v start ->
    exists r, run cost start = Ok r /\
      Answered (Route edges next target cost) (@at_index NodeIndex (sg_to_index m g)) nodes start r.
  Proof using SZ FX B.
    intros cost start Hs0. pose proof (proj2 (sq_in_nodes _) Hs0) as Hs.
    assert (Hv : 1 <= v) by (destruct start; unfold on_board in Hs0; cbn in Hs0; lia).
    destruct (c43_order SZ B) as (O1 & O2 & O3). destruct (c43_identifiers SZ FX B Hv) as (I1 & _).
    destruct (c42 SZ FX B) as (C1 & C2 & C3 & C4).
    assert (CNT : Ok (sg_node_count g) = Ok (Z.of_nat (length nodes))).
    { rewrite C2. f_equal. symmetry. exact (sq_nodes_length SZ). }
    assert (BND : Ok (sg_node_bound g) = Ok (Z.of_nat (length nodes))).
    { rewrite C1. f_equal. symmetry. exact (sq_nodes_length SZ). }
    assert (IDX : forall i c, nth_error nodes i = Some c -> sg_to_index m g c = Ok (Z.of_nat i)).
    { intros i c Hi. assert (Hc : on_board h v c) by (apply O2; eapply nth_error_In; eauto).
      destruct (C3 c Hc) as (j & J1 & J2 & J3). rewrite (O3 _ _ Hi) in J1. injection J1 as <-. auto. }
    destruct (bellman_ok (Ok (sg_node_count g)) (Ok (sg_node_bound g)) (sg_to_index m g)
      (sg_node_identifiers g) (sg_node_indices_next (ix := ix) m) edges next target cost nodes out tgt
      cell_dec I1 (s_many SZ) CNT BND IDX (sqa_edges SZ FX g nf ef B) (sqa_degree ef) (s_tgt SZ FX ef)
      (sqa_in SZ FX ef) start Hs) as (r & R1 & R2).
    exists r. split; [exact R1|].
    pose proof (route_iff edges next target tgt cost nodes out
      (sqa_edges SZ FX g nf ef B) (s_tgt SZ FX ef) (sqa_in SZ FX ef)) as RI.
    refine (answered_iff _ _ _ _ _ _ _ Hs _ _ R2).
    - intros a p k b Ha HR. apply RI in HR; auto. eapply square_in; eauto.
    - intros a p k b Ha. symmetry. apply RI; auto.
  Qed.

  Lemma c125_negative : forall (price : EdgeIndex -> E -> Z) start, on_board h v start ->
    let cost := fun e : SqEdgeReference E => price (sr_id e) (sr_weight e) in
    let way := Route edges next target cost in
    NegativeCycle way start <->
    exists a p x e, way start p x a /\ EdgeAt edges next a e /\ cost e < 0.
  Proof using SZ FX B.
    intros price start Hs0 cost way. unfold way. pose proof (proj2 (sq_in_nodes _) Hs0) as Hs.
    rewrite (two_way edges next target cost start nodes Hs).
    - split.
      + intros (a & p & x & e & t & H1 & H2 & _ & H4). exists a, p, x, e. auto.
      + intros (a & p & x & e & H1 & H2 & H4). exists a, p, x, e, (tgt e). split; auto. split; auto.
        split; auto. pose proof (square_in _ _ _ _ _ Hs H1) as Ha.
        apply (s_tgt SZ FX ef a e Ha).
        apply (edge_at_out edges next nodes out (sqa_edges SZ FX g nf ef B)) in H2; auto.
    - intros a p k b Ha HR. split; [eapply square_in; eauto|]. exists (rev p).
      apply along_route in HR. apply along_route.
      exact (c121_back SZ FX g nf ef B (fun _ _ => true) price a p k b (proj1 (sq_in_nodes _) Ha) HR).
  Qed.
End Sq.
