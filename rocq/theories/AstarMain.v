(** * AstarMain: A* on [LatticeGraph] and on [SquareGraph]. *)

From Verif Require Import Machine Store Axes Shapes Lattice SquareGraph Traverse Astar Spec
  SpecSquare Spec4 Basics AxisProofs GeoProofs ShapeProofs GraphProofs RepProofs Main1 DistProofs
  TraverseProofs AstarProofs SearchProofs SquareProofs SquareIter SquareMain SquareSearch.
From Coq Require Import ZifyBool ZifyNat.

Section Lat.
  Context {A D N E : Type} {m : mode} {s : Shape Cell A D} {G : Geometry A D}
    (SUP : Supported s G) (g : LatticeGraph Cell A D N E) (nf : Cell -> N) (ef : Cell -> A -> E)
    (HB : Built m s G g nf ef) (H : HeapOps Cell) (HH : HeapOK H)
    (cost : EdgeReference Cell E D -> Z) (est : Cell -> Z) (goal : Cell -> bool).
  Let STO := st_supported _ _ _ _ SUP.
  Let TR := tr_supported _ _ _ _ SUP.

  Notation target := (fun e : EdgeReference Cell E D => Ok (er_target e)).
  Notation at_edge := (EdgeAt (edges m g) (edges_next m g)).
  Notation round := (astar_round veqb H (edges m g) (edges_next m g) target cost est goal).
  Notation out := (spec_edges G ef).

  Context (Hcost : forall a e, In a (geo_nodes G) -> at_edge a e -> 0 <= cost e)
    (start : Cell) (Hs : In start (geo_nodes G)).

  Lemma lat_edges : forall c, In c (geo_nodes G) ->
    exists it, edges m g c = Ok it /\ Drains (edges_next m g) it (out c).
  Proof. intros c Hc. apply (c12 TR g nf ef c HB Hc). Qed.

  Lemma lat_at : forall a e, In a (geo_nodes G) -> In e (out a) -> at_edge a e.
  Proof. intros a e Ha He. destruct (lat_edges a Ha) as (it & E1 & D1). exists it, (out a). auto. Qed.

  Lemma lat_target : forall a t, In a (geo_nodes G) ->
    (exists e, In e (out a) /\ er_target e = t) <-> exists d, geo_step G a d = Some t.
  Proof.
    intros a t Ha. rewrite <- (in_spec_neighbors STO), <- (spec_edges_targets TR ef a Ha), in_map_iff.
    split; intros (e & H1 & H2); exists e; auto.
  Qed.

  Lemma lat_in : forall a e, In a (geo_nodes G) -> In e (out a) -> In (er_target e) (geo_nodes G).
  Proof.
    intros a e Ha He. destruct (proj1 (lat_target a (er_target e) Ha)) as (d & Hd); [eauto|].
    eapply (rg_in (supported_regular _ _ _ _ SUP)); eauto.
  Qed.

  Lemma lat_degree : forall c, In c (geo_nodes G) -> Z.of_nat (length (out c)) + 1 < 2 ^ 72.
  Proof.
    intros c Hc. rewrite <- (map_length er_target), (spec_edges_targets TR ef c Hc).
    apply (degree_few SUP).
  Qed.

  Lemma lat_size : Z.of_nat (length (geo_nodes G)) < 2 ^ 72.
  Proof.
    clear HB Hcost Hs. refine_shape Debug SUP. rewrite (nodes_length RF).
    pose proof (wh_range RF) as W. rewrite IMAX1_val in W. lia.
  Qed.

  Lemma lat_closer : forall b, In b (geo_nodes G) -> forall dist, metric G dist ->
    forall a, In a (geo_nodes G) -> exists p k, GRoute er_target cost out a p k b /\
      ((forall a e, In a (geo_nodes G) -> In e (out a) -> cost e = 1) -> k <= dist a b).
  Proof.
    intros b Hb dist MT. apply route_closer with (dist := fun a => dist a b).
    - exact lat_in.
    - intros a Ha. split; [apply (mt_pos MT)|]. intros Hz. apply (mt_same MT); auto.
    - intros a Ha Hd. destruct (mt_desc MT a b Ha Hb Hd) as (d & t & D1 & D2).
      destruct (proj2 (lat_target a t Ha)) as (e & He & <-); [eauto|]. exists e. auto.
  Qed.

  Lemma lat_conn : forall c, In c (geo_nodes G) ->
    exists p k, GRoute er_target cost out start p k c.
  Proof.
    intros c Hc. destruct (c63_every _ _ _ _ SUP) as (dist & HD).
    destruct (lat_closer c Hc dist (distance_metric _ _ _ _ _ HD) start Hs) as (p & k & P & _).
    eauto.
  Qed.

  Lemma c72_finds : exists r, Returns round (astar_init veqb H est start) r /\
    match r with
    | None => forall c, In c (geo_nodes G) -> goal c = false
    | Some (x, p) => exists c k, goal c = true /\
        Route (edges m g) (edges_next m g) target cost start p k c /\ k <= x
    end.
  Proof.
    apply (@astar_finds Cell (EdgeReference Cell E D)) with (target := er_target) (out := out); auto.
    - exact veqb_eq.
    - exact lat_edges.
    - exact lat_degree.
    - exact lat_size.
    - exact lat_in.
    - intros a e Ha He. apply (Hcost a e Ha). apply lat_at; auto.
    - exact lat_conn.
  Qed.

  Lemma c72_cheapest :
    (forall n, In n (geo_nodes G) -> goal n = true -> 0 <= est n) ->
    (forall n p k c, In n (geo_nodes G) -> goal c = true ->
       Route (edges m g) (edges_next m g) target cost n p k c -> est n <= k) ->
    exists r, Returns round (astar_init veqb H est start) r /\
    match r with
    | None => forall c, In c (geo_nodes G) -> goal c = false
    | Some (x, p) => Cheapest (edges m g) (edges_next m g) target cost goal start p x
    end.
  Proof.
    intros H1 H2.
    apply (@astar_cheapest Cell (EdgeReference Cell E D)) with (target := er_target) (out := out)
      (board := geo_nodes G); auto.
    - exact veqb_eq.
    - exact lat_edges.
    - exact lat_degree.
    - exact lat_size.
    - exact lat_in.
    - intros a e Ha He. apply (Hcost a e Ha). apply lat_at; auto.
    - exact lat_conn.
  Qed.

  Lemma c72_close : forall slack,
    (forall n, In n (geo_nodes G) -> goal n = true -> 0 <= est n) ->
    (forall n p k c, In n (geo_nodes G) -> goal c = true ->
       Route (edges m g) (edges_next m g) target cost n p k c -> est n <= k + slack) ->
    exists r, Returns round (astar_init veqb H est start) r /\
    match r with
    | None => forall c, In c (geo_nodes G) -> goal c = false
    | Some (x, p) =>
        (exists c k, goal c = true /\
           Route (edges m g) (edges_next m g) target cost start p k c /\ k <= x) /\
        forall c p' k', goal c = true ->
          Route (edges m g) (edges_next m g) target cost start p' k' c -> x <= k' + slack
    end.
  Proof.
    intros slack H1 H2.
    apply (@astar_close Cell (EdgeReference Cell E D)) with (target := er_target) (out := out)
      (board := geo_nodes G); auto.
    - exact veqb_eq.
    - exact lat_edges.
    - exact lat_degree.
    - exact lat_size.
    - exact lat_in.
    - intros a e Ha He. apply (Hcost a e Ha). apply lat_at; auto.
    - exact lat_conn.
  Qed.
End Lat.

Section LatDistance.
  Context {A D N E : Type} {m : mode} {s : Shape Cell A D} {G : Geometry A D}
    (SUP : Supported s G) (dist : Cell -> Cell -> Z) (HD : Distance s G dist)
    (g : LatticeGraph Cell A D N E) (nf : Cell -> N) (ef : Cell -> A -> E)
    (HB : Built m s G g nf ef) (H : HeapOps Cell) (HH : HeapOK H)
    (cost : EdgeReference Cell E D -> Z).

  Notation target := (fun e : EdgeReference Cell E D => Ok (er_target e)).
  Notation at_edge := (EdgeAt (edges m g) (edges_next m g)).
  Notation out := (spec_edges G ef).

  Context (Hcost : forall a e, In a (geo_nodes G) -> at_edge a e -> 1 <= cost e)
    (start b : Cell) (Hs : In start (geo_nodes G)) (Hb : In b (geo_nodes G)).
  Let est := fun c => dist c b.
  Let goal := fun c => veqb c b.
  Notation round := (astar_round veqb H (edges m g) (edges_next m g) target cost est goal).

  Lemma c72_distance : exists x p, Returns round (astar_init veqb H est start) (Some (x, p)) /\
    Cheapest (edges m g) (edges_next m g) target cost goal start p x /\
    ((forall a e, In a (geo_nodes G) -> at_edge a e -> cost e = 1) -> x = dist start b).
  Proof.
    pose proof (distance_metric _ _ _ _ _ HD) as MT.
    pose proof (lat_edges SUP g nf ef HB) as LE. pose proof (lat_at SUP g nf ef HB) as LA.
    assert (RI : forall a p k c, In a (geo_nodes G) ->
      Route (edges m g) (edges_next m g) target cost a p k c <-> GRoute er_target cost out a p k c).
    { intros a p k c Ha. apply route_iff with (board := geo_nodes G); auto.
      apply (lat_in SUP ef). }
    assert (FAR : forall n p k, In n (geo_nodes G) ->
      Route (edges m g) (edges_next m g) target cost n p k b -> dist n b <= k).
    { intros n p k Hn HR. apply RI in HR; auto.
      pose proof (route_far er_target cost (geo_nodes G) out (lat_in SUP ef)
        (fun a => dist a b)) as F.
      rewrite <- (Z.add_0_l k), <- (mt_zero MT b). apply F with (p := p) (a := n); auto.
      intros a e Ha He. split; [|apply (Hcost a e Ha); auto].
      destruct (proj1 (lat_target SUP ef a (er_target e) Ha)) as (d & Hd); [eauto|].
      apply (mt_lip MT a d); auto. }
    destruct (c72_cheapest SUP g nf ef HB H HH cost est goal) with (start := start)
      as (r & HR & HP); auto.
    { intros a e Ha He. specialize (Hcost a e Ha He). lia. }
    { intros n _ Hg. apply veqb_eq in Hg. subst n. unfold est. rewrite (mt_zero MT). lia. }
    { intros n p k c Hn Hg HRt. apply veqb_eq in Hg. subst c. apply (FAR n p k); auto. }
    destruct r as [[x p]|].
    - exists x, p. split; auto. split; auto. intros HU.
      destruct HP as [(c & Hg & HRt) Hmin]. apply veqb_eq in Hg. subst c.
      destruct (lat_closer SUP ef cost b Hb dist MT start Hs) as (p' & k' & R1 & R2).
      assert (k' <= dist start b).
      { apply R2. intros a e Ha He. apply (HU a e Ha). auto. }
      apply RI in R1; auto. specialize (Hmin b p' k' (proj2 (veqb_eq b b) eq_refl) R1).
      specialize (FAR start p x Hs HRt). lia.
    - specialize (HP b Hb). unfold goal in HP. rewrite (proj2 (veqb_eq b b) eq_refl) in HP. discriminate.
  Qed.
End LatDistance.

(** ** [SquareGraph] *)

Section Sq.
  Context {N E : Type} {ix : IxType} {S : LoopShape} {m : mode} {h v : Z}
    (SZ : sq_size S h v) (FX : sq_index_fits ix h v).
  Context (g : SquareGraph N E ix S) (nf : NodeIndex -> N) (ef : EdgeIndex -> E)
    (B : SqBuilt m h v g nf ef).

  Notation edges := (fun n => Ok (sg_edges g n)).
  Notation next := (sg_edges_next m g).
  Notation target := (sr_target (ix := ix) (S := S) (E := E) m).
  Notation at_edge := (EdgeAt edges next).
  Notation nodes := (sq_nodes h v).

  Definition sq_out (n : NodeIndex) : list (SqEdgeReference E) :=
    flat_map (fun j => opt_list (ref_at (S := S) (h := h) (v := v) ef n (dir_at j))) [0; 1; 2; 3].
  Definition sq_tgt (e : SqEdgeReference E) : NodeIndex :=
    match target e with Ok t => t | Fail _ => (0, 0) end.

  Lemma sqa_edges : forall c, In c nodes -> exists it, Ok (sg_edges g c) = Ok it /\ Drains next it (sq_out c).
  Proof.
    intros c Hc. apply sq_in_nodes in Hc.
    exists (sg_edges g c). split; auto.
    eapply IterInv_drains; [apply (sq_edges_inv SZ FX g nf ef c (SquareProofs.built_rep _ _ _ _ _ _ SZ B) Hc)|]. apply scan_start.
  Qed.

  Lemma sqa_named : forall a e, In a nodes -> In e (sq_out a) ->
    target e = Ok (sq_tgt e) /\ exists d, sq_neighbour S h v a d = Some (sq_tgt e) /\
      sr_id e = sq_edge_name a d (sq_tgt e).
  Proof.
    intros a e Ha He. apply sq_in_nodes in Ha.
    pose proof (in_map (sq_view ix S m) _ _ He) as Hv. unfold sq_out in Hv.
    rewrite (view_edges SZ FX ef a Ha) in Hv. apply in_map_iff in Hv. destruct Hv as (x & Hx & Hi).
    apply in_edges_of in Hi. destruct Hi as (d & Hd).
    unfold sq_edge_view in Hd. destruct (sq_neighbour S h v a d) as [t|] eqn:Et; [|discriminate].
    injection Hd as <-. unfold sq_view in Hx.
    destruct (sr_source m e) as [s0|]; [|discriminate]. cbn [bind] in Hx.
    unfold sq_tgt. destruct (target e) as [t0|]; [|discriminate]. cbn [bind] in Hx.
    injection Hx as K1 _ _ ->. split; auto. exists d. split; auto.
  Qed.

  Lemma sqa_target : forall a e, In a nodes -> In e (sq_out a) ->
    target e = Ok (sq_tgt e) /\ exists d, sq_neighbour S h v a d = Some (sq_tgt e).
  Proof. intros a e Ha He. destruct (sqa_named a e Ha He) as (H1 & d & H2 & _). eauto. Qed.

  Lemma sqa_neighbour_named : forall a d t, In a nodes -> sq_neighbour S h v a d = Some t ->
    exists e, In e (sq_out a) /\ sq_tgt e = t /\ sr_id e = sq_edge_name a d t.
  Proof.
    intros a d t Ha Ht. pose proof Ha as Ha'. apply sq_in_nodes in Ha.
    assert (Hi : In (sq_edge_name a d t, ef (sq_edge_name a d t), a, t) (sq_edges_of S h v ef a)).
    { apply in_edges_of. exists d. unfold sq_edge_view. rewrite Ht. auto. }
    apply (in_map (@Ok (EdgeView E))) in Hi.
    pose proof (view_edges (m := m) SZ FX ef a Ha) as V. rewrite <- V in Hi.
    apply in_map_iff in Hi. destruct Hi as (e & He & Hi). exists e. split; auto.
    unfold sq_view in He. destruct (sr_source m e) as [s0|]; [|discriminate]. cbn [bind] in He.
    unfold sq_tgt. destruct (target e) as [t0|]; [|discriminate]. cbn [bind] in He.
    injection He as -> _ _ ->. auto.
  Qed.

  Lemma sqa_neighbour : forall a d t, In a nodes -> sq_neighbour S h v a d = Some t ->
    exists e, In e (sq_out a) /\ sq_tgt e = t.
  Proof.
    intros a d t Ha Ht. destruct (sqa_neighbour_named a d t Ha Ht) as (e & H1 & H2 & _). eauto.
  Qed.

  Lemma sqa_in : forall a e, In a nodes -> In e (sq_out a) -> In (sq_tgt e) nodes.
  Proof.
    intros a e Ha He. destruct (sqa_target a e Ha He) as (_ & d & Hd). apply sq_in_nodes in Ha.
    apply sq_in_nodes. exact (neighbour_on_board _ _ _ _ _ Ha Hd).
  Qed.

  Lemma sqa_at : forall a e, In a nodes -> In e (sq_out a) -> at_edge a e.
  Proof.
    intros a e Ha He. destruct (sqa_edges a Ha) as (it & E1 & D1). exists it, (sq_out a). auto.
  Qed.

  Lemma sqa_degree : forall c, In c nodes -> Z.of_nat (length (sq_out c)) + 1 < 2 ^ 72.
  Proof.
    intros c _. enough (length (sq_out c) <= 4)%nat by lia. unfold sq_out. cbn [flat_map].
    rewrite !app_length.
    repeat match goal with |- context [ref_at ef c ?d] =>
      destruct (ref_at (S := S) (h := h) (v := v) ef c d) end; cbn [opt_list length]; lia.
  Qed.

  Lemma sqa_size : Z.of_nat (length nodes) < 2 ^ 72.
  Proof. rewrite (sq_nodes_length SZ). destruct SZ as (H1 & H2 & H3). destruct (loops_v S); nia. Qed.

  Section Cost.
    Context (H : HeapOps NodeIndex) (HH : HeapOK H) (cost : SqEdgeReference E -> Z).

    Lemma sqa_closer : forall b, on_board h v b ->
      forall a, In a nodes -> exists p k, GRoute sq_tgt cost sq_out a p k b /\
        ((forall a e, In a nodes -> In e (sq_out a) -> cost e = 1) -> k <= sq_distance S h v a b).
    Proof.
      intros b Hb. apply route_closer with (dist := fun a => sq_distance S h v a b).
      - exact sqa_in.
      - intros a Ha. apply sq_in_nodes in Ha. split; [apply (dist_pos a b Ha Hb)|].
        apply (dist_same a b Ha Hb).
      - intros a Ha Hd. pose proof (proj1 (sq_in_nodes _) Ha) as Ha'.
        destruct (dist_desc a b Ha' Hb Hd) as (d & t & D1 & D2).
        destruct (sqa_neighbour a d t Ha D1) as (e & He & <-). exists e. auto.
    Qed.

    Lemma sqa_route : forall a b, on_board h v a -> on_board h v b ->
      exists p k, Route edges next target cost a p k b /\
        ((forall a e, at_edge a e -> cost e = 1) -> k <= sq_distance S h v a b).
    Proof.
      intros a b Ha Hb. apply sq_in_nodes in Ha.
      destruct (sqa_closer b Hb a Ha) as (p & k & R1 & R2). exists p, k. split.
      - apply (route_iff edges next target sq_tgt cost nodes sq_out sqa_edges); auto.
        + intros a' e Ha' He. apply (sqa_target a' e Ha' He).
        + exact sqa_in.
      - intros HU. apply R2. intros a' e Ha' He. apply (HU a' e). apply sqa_at; auto.
    Qed.

    Section Any.
      Context (est : NodeIndex -> Z) (goal : NodeIndex -> bool)
        (Hcost : forall a e, on_board h v a -> at_edge a e -> 0 <= cost e)
        (start : NodeIndex) (Hs : on_board h v start).
      Notation round := (astar_round veqb H edges next target cost est goal).

      Lemma c73_finds : exists r, Returns round (astar_init veqb H est start) r /\
        match r with
        | None => forall c, on_board h v c -> goal c = false
        | Some (x, p) => exists c k, goal c = true /\
            Route edges next target cost start p k c /\ k <= x
        end.
      Proof.
        destruct (@astar_finds NodeIndex (SqEdgeReference E) SqEdges) with (eqb := veqb) (H := H)
          (edges := edges) (edges_next := next) (targeto := target) (target := sq_tgt) (cost := cost)
          (est := est) (goal := goal) (board := nodes) (out := sq_out) (start := start) as (r & R1 & R2); auto.
        - exact veqb_eq.
        - exact sqa_edges.
        - exact sqa_degree.
        - exact sqa_size.
        - intros a e Ha He. apply (sqa_target a e Ha He).
        - exact sqa_in.
        - intros a e Ha He. apply (Hcost a e); [apply sq_in_nodes; auto|]. apply sqa_at; auto.
        - apply sq_in_nodes; auto.
        - intros c Hc. apply sq_in_nodes in Hc.
          destruct (sqa_closer c Hc start) as (p & k & P & _); [apply sq_in_nodes; auto|]. eauto.
        - exists r. split; auto. destruct r as [[x p]|]; auto.
          intros c Hc. apply R2. apply sq_in_nodes; auto.
      Qed.

      Lemma c73_cheapest :
        (forall n, on_board h v n -> goal n = true -> 0 <= est n) ->
        (forall n p k c, on_board h v n -> goal c = true ->
           Route edges next target cost n p k c -> est n <= k) ->
        exists r, Returns round (astar_init veqb H est start) r /\
        match r with
        | None => forall c, on_board h v c -> goal c = false
        | Some (x, p) => Cheapest edges next target cost goal start p x
        end.
      Proof.
        intros H1 H2.
        destruct (@astar_cheapest NodeIndex (SqEdgeReference E) SqEdges) with (eqb := veqb) (H := H)
          (edges := edges) (edges_next := next) (targeto := target) (target := sq_tgt) (cost := cost)
          (est := est) (goal := goal) (board := nodes) (out := sq_out) (start := start) as (r & R1 & R2); auto.
        - exact veqb_eq.
        - exact sqa_edges.
        - exact sqa_degree.
        - exact sqa_size.
        - intros a e Ha He. apply (sqa_target a e Ha He).
        - exact sqa_in.
        - intros a e Ha He. apply (Hcost a e); [apply sq_in_nodes; auto|]. apply sqa_at; auto.
        - apply sq_in_nodes; auto.
        - intros c Hc. apply sq_in_nodes in Hc.
          destruct (sqa_closer c Hc start) as (p & k & P & _); [apply sq_in_nodes; auto|]. eauto.
        - intros n Hn. apply H1. apply sq_in_nodes; auto.
        - intros n p k c Hn. apply H2. apply sq_in_nodes; auto.
        - exists r. split; auto. destruct r as [[x p]|]; auto.
          intros c Hc. apply R2. apply sq_in_nodes; auto.
      Qed.

      Lemma c73_close : forall slack,
        (forall n, on_board h v n -> goal n = true -> 0 <= est n) ->
        (forall n p k c, on_board h v n -> goal c = true ->
           Route edges next target cost n p k c -> est n <= k + slack) ->
        exists r, Returns round (astar_init veqb H est start) r /\
        match r with
        | None => forall c, on_board h v c -> goal c = false
        | Some (x, p) =>
            (exists c k, goal c = true /\ Route edges next target cost start p k c /\ k <= x) /\
            forall c p' k', goal c = true -> Route edges next target cost start p' k' c ->
              x <= k' + slack
        end.
      Proof.
        intros slack H1 H2.
        destruct (@astar_close NodeIndex (SqEdgeReference E) SqEdges) with (eqb := veqb) (H := H)
          (edges := edges) (edges_next := next) (targeto := target) (target := sq_tgt) (cost := cost)
          (est := est) (goal := goal) (board := nodes) (out := sq_out) (start := start)
          (slack := slack) as (r & R1 & R2); auto.
        - exact veqb_eq.
        - exact sqa_edges.
        - exact sqa_degree.
        - exact sqa_size.
        - intros a e Ha He. apply (sqa_target a e Ha He).
        - exact sqa_in.
        - intros a e Ha He. apply (Hcost a e); [apply sq_in_nodes; auto|]. apply sqa_at; auto.
        - apply sq_in_nodes; auto.
        - intros c Hc. apply sq_in_nodes in Hc.
          destruct (sqa_closer c Hc start) as (p & k & P & _); [apply sq_in_nodes; auto|]. eauto.
        - intros n Hn. apply H1. apply sq_in_nodes; auto.
        - intros n p k c Hn. apply H2. apply sq_in_nodes; auto.
        - exists r. split; auto. destruct r as [[x p]|]; auto.
          intros c Hc. apply R2. apply sq_in_nodes; auto.
      Qed.
    End Any.

    Section Distance.
      Context (Hcost : forall a e, on_board h v a -> at_edge a e -> 1 <= cost e)
        (start b : NodeIndex) (Hs : on_board h v start) (Hb : on_board h v b).
      Context (est : NodeIndex -> Z)
        (Hest : forall c, on_board h v c -> est c = sq_distance S h v c b).
      Let goal := fun c => veqb c b.
      Notation round := (astar_round veqb H edges next target cost est goal).

      Lemma sqa_far : forall n p k, on_board h v n ->
        Route edges next target cost n p k b -> sq_distance S h v n b <= k.
      Proof using SZ FX B Hcost Hb.
        clear Hest.
        intros n p k Hn HR.
        apply (route_iff edges next target sq_tgt cost nodes sq_out sqa_edges) in HR.
        2:{ intros a' e Ha' He. apply (sqa_target a' e Ha' He). }
        2:{ exact sqa_in. }
        2:{ apply sq_in_nodes; auto. }
        pose proof (route_far sq_tgt cost nodes sq_out sqa_in
          (fun a => sq_distance S h v a b)) as F.
        rewrite <- (Z.add_0_l k), <- (dist_zero (S := S) b Hb).
        apply F with (p := p) (a := n); auto; [|apply sq_in_nodes; auto].
        intros a e Ha He. pose proof (proj1 (sq_in_nodes _) Ha) as Ha'.
        split; [|apply (Hcost a e Ha'); apply sqa_at; auto].
        destruct (sqa_target a e Ha He) as (_ & d & Hd).
        apply (dist_step a d (sq_tgt e) b Ha' Hb Hd).
      Qed.

      Lemma c73_distance : exists x p, Returns round (astar_init veqb H est start) (Some (x, p)) /\
        Cheapest edges next target cost goal start p x /\
        ((forall a e, on_board h v a -> at_edge a e -> cost e = 1) -> x = sq_distance S h v start b).
      Proof.
        assert (RI : forall a p k c, on_board h v a ->
          Route edges next target cost a p k c <-> GRoute sq_tgt cost sq_out a p k c).
        { intros a p k c Ha. apply route_iff with (board := nodes).
          - exact sqa_edges.
          - intros a' e Ha' He. apply (sqa_target a' e Ha' He).
          - exact sqa_in.
          - apply sq_in_nodes; auto. }
        pose proof sqa_far as FAR.
        destruct (c73_cheapest est goal) with (start := start) as (r & HR & HP); auto.
        { intros a e Ha He. specialize (Hcost a e Ha He). lia. }
        { intros n _ Hg. apply veqb_eq in Hg. subst n. rewrite Hest, dist_zero by auto. lia. }
        { intros n p k c Hn Hg HRt. apply veqb_eq in Hg. subst c. rewrite Hest by auto.
          apply (FAR n p k); auto. }
        destruct r as [[x p]|].
        - exists x, p. split; auto. split; auto. intros HU.
          destruct HP as [(c & Hg & HRt) Hmin]. apply veqb_eq in Hg. subst c.
          destruct (sqa_closer b Hb start) as (p' & k' & R1 & R2); [apply sq_in_nodes; auto|].
          assert (k' <= sq_distance S h v start b).
          { apply R2. intros a e Ha He. apply (HU a e); [apply sq_in_nodes; auto|]. apply sqa_at; auto. }
          apply RI in R1; auto. specialize (Hmin b p' k' (proj2 (veqb_eq b b) eq_refl) R1).
          specialize (FAR start p x Hs HRt). lia.
        - specialize (HP b Hb). unfold goal in HP. rewrite (proj2 (veqb_eq b b) eq_refl) in HP. discriminate.
      Qed.
    End Distance.
  End Cost.
End Sq.

Lemma c74 : forall (N E : Type) (ix : IxType) (m : mode) (h v : Z),
  sq_size DefaultShape h v -> sq_index_fits ix h v ->
  forall (g : SquareGraph N E ix DefaultShape) nf ef, SqBuilt m h v g nf ef ->
  forall H, HeapOK H -> forall cost : SqEdgeReference E -> Z,
  (forall a e, on_board h v a ->
     EdgeAt (fun n => Ok (sg_edges g n)) (sg_edges_next m g) a e -> 1 <= cost e) ->
  forall start b, on_board h v start -> on_board h v b ->
  forall est, (forall c, on_board h v c -> ni_distance m c b = Ok (est c)) ->
  let target := sr_target (ix := ix) (S := DefaultShape) m in
  let goal := fun c => veqb c b in
  exists x p,
    Returns (astar_round veqb H (fun n => Ok (sg_edges g n)) (sg_edges_next m g) target cost est goal)
      (astar_init veqb H est start) (Some (x, p)) /\
    Cheapest (fun n => Ok (sg_edges g n)) (sg_edges_next m g) target cost goal start p x.
Proof.
  intros N E ix m h v SZ FX g nf ef B H HH cost Hcost start b Hs Hb est Hest target goal.
  destruct (c73_distance SZ FX g nf ef B H HH cost Hcost start b Hs Hb est) as (x & p & P1 & P2 & _).
  - intros c Hc. specialize (Hest c Hc).
    rewrite distance_ok in Hest by (eapply on_board_small; eauto).
    injection Hest as <-. unfold manhattan, sq_distance, ring_distance. reflexivity.
  - exists x, p. auto.
Qed.

(** Looped or not: by how much the path found may exceed a cheapest one. *)
Lemma c74_bound : forall (N E : Type) (ix : IxType) (S : LoopShape) (m : mode) (h v : Z),
  sq_size S h v -> sq_index_fits ix h v ->
  forall (g : SquareGraph N E ix S) nf ef, SqBuilt m h v g nf ef ->
  forall H, HeapOK H -> forall cost : SqEdgeReference E -> Z,
  (forall a e, on_board h v a ->
     EdgeAt (fun n => Ok (sg_edges g n)) (sg_edges_next m g) a e -> 1 <= cost e) ->
  forall start b, on_board h v start -> on_board h v b ->
  forall est, (forall c, on_board h v c -> ni_distance m c b = Ok (est c)) ->
  let target := sr_target (ix := ix) (S := S) m in
  let goal := fun c => veqb c b in
  let excess := (if loops_h S then Z.max 0 (h - 2) else 0) + (if loops_v S then Z.max 0 (v - 2) else 0) in
  exists x p k,
    Returns (astar_round veqb H (fun n => Ok (sg_edges g n)) (sg_edges_next m g) target cost est goal)
      (astar_init veqb H est start) (Some (x, p)) /\
    Route (fun n => Ok (sg_edges g n)) (sg_edges_next m g) target cost start p k b /\ k <= x /\
    (forall p' k', Route (fun n => Ok (sg_edges g n)) (sg_edges_next m g) target cost start p' k' b ->
       x <= k' + excess) /\
    (excess = 0 -> Cheapest (fun n => Ok (sg_edges g n)) (sg_edges_next m g) target cost goal start p x).
Proof.
  intros N E ix S m h v SZ FX g nf ef B H HH cost Hcost start b Hs Hb est Hest target goal excess.
  assert (EST : forall c, on_board h v c -> est c = manhattan c b).
  { intros c Hc. specialize (Hest c Hc).
    rewrite distance_ok in Hest by (eapply on_board_small; eauto). injection Hest as <-. auto. }
  destruct (c73_close SZ FX g nf ef B H HH cost est goal) with (start := start) (slack := excess)
    as (r & HR & HP); auto.
  - intros a e Ha He. specialize (Hcost a e Ha He). lia.
  - intros n Hn _. rewrite EST by auto. unfold manhattan. lia.
  - intros n p k c Hn Hc HRt. apply veqb_eq in Hc. subst c.
    pose proof (sqa_far SZ FX g nf ef B cost Hcost b Hb n p k Hn HRt) as F.
    rewrite EST by auto. subst excess. clear - F Hn Hb.
    unfold on_board in *. unfold sq_distance, ring_distance, manhattan in *.
    destruct (loops_h S), (loops_v S); lia.
  - destruct r as [[x p]|].
    + destruct HP as [(c & k & P1 & P2 & P3) P4]. apply veqb_eq in P1. subst c.
      exists x, p, k. split; auto. split; auto. split; auto.
      assert (P5 : forall p' k', Route (fun n => Ok (sg_edges g n)) (sg_edges_next m g) target cost
        start p' k' b -> x <= k' + excess).
      { intros p' k'. apply P4. apply veqb_eq. auto. }
      split; auto. intros Ez. rewrite Ez in *. assert (k = x) as <- by (specialize (P5 _ _ P2); lia).
      split.
      * exists b. split; [apply veqb_eq; auto|auto].
      * intros c p' k' Hc HR'. apply veqb_eq in Hc. subst c. specialize (P5 _ _ HR'). lia.
    + specialize (HP b Hb). unfold goal in HP. rewrite (proj2 (veqb_eq b b) eq_refl) in HP. discriminate.
Qed.
