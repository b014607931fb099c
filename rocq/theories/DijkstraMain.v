(** * DijkstraMain: Dijkstra's search on [LatticeGraph] and on [SquareGraph]. *)

From Verif Require Import Machine Store Axes Shapes Lattice SquareGraph Traverse Astar Dijkstra Spec
  SpecSquare Spec4 Spec6 Basics AxisProofs GeoProofs ShapeProofs GraphProofs RepProofs VisitProofs
  Main1 DistProofs TraverseProofs AstarProofs SearchProofs SquareProofs SquareIter SquareMain
  SquareSearch AstarMain DijkstraProofs.
From Coq Require Import ZifyBool ZifyNat.

(** ** What the two halves of the postcondition say together *)

Section Least.
  Context {C Ed It : Type} (edges : C -> outcome It) (edges_next : It -> outcome (option Ed * It))
    (target : Ed -> outcome C) (cost : Ed -> Z) (board : list C) (start : C).
  Notation Rt := (Route edges edges_next target cost).
  Notation least := (LeastCost edges edges_next target cost start).

  Lemma least_unique : forall c x y, least c x -> least c y -> x = y.
  Proof.
    intros c x y [(p & P) Hx] [(q & Q) Hy]. specialize (Hx _ _ Q). specialize (Hy _ _ P). lia.
  Qed.

  Context (goal : option C) (r : C -> option Z)
    (R1 : forall c x, r c = Some x -> In c board /\ exists p, Rt start p x c)
    (R2 : forall p k c, Rt start p k c ->
       (exists x, r c = Some x /\ x <= k) \/
       (exists b x, goal = Some b /\ r b = Some x /\ x <= k)).

  Lemma least_all : goal = None -> (forall c, In c board -> exists p k, Rt start p k c) ->
    forall c, match r c with Some x => In c board /\ least c x | None => ~ In c board end.
  Proof.
    intros Hg HC c. assert (R3 : forall p k d, Rt start p k d -> exists x, r d = Some x /\ x <= k).
    { intros p k d HR. destruct (R2 p k d HR) as [P|(b & x & P & _)]; auto. congruence. }
    destruct (r c) as [x|] eqn:E.
    - destruct (R1 c x E) as (Hc & p & P). split; auto. split; [exists p; auto|].
      intros p' k' P'. destruct (R3 _ _ _ P') as (x' & E' & L). assert (x' = x) by congruence. lia.
    - intros Hc. destruct (HC c Hc) as (p & k & P). destruct (R3 _ _ _ P) as (x & E' & _). congruence.
  Qed.

  Lemma least_goal : forall b, goal = Some b -> (In b board -> exists p k, Rt start p k b) ->
    (forall c x, r c = Some x -> In c board /\ exists p, Rt start p x c) /\
    (In b board -> exists x, r b = Some x /\ least b x) /\
    (forall c x, least c x -> (forall y, least b y -> x < y) -> r c = Some x).
  Proof.
    intros b Hg HC. split; [exact R1|].
    assert (LB : forall x, r b = Some x -> least b x).
    { intros x E. destruct (R1 b x E) as (_ & p & P). split; [exists p; auto|].
      intros p' k' P'. destruct (R2 _ _ _ P') as [(x' & E' & L)|(b' & x' & E1 & E' & L)].
      - assert (x' = x) by congruence. lia.
      - assert (b' = b) by congruence. subst b'. assert (x' = x) by congruence. lia. }
    split.
    - intros Hb. destruct (HC Hb) as (p & k & P).
      destruct (R2 _ _ _ P) as [(x & E & _)|(b' & x & E1 & E & _)].
      + exists x. auto.
      + assert (b' = b) by congruence. subst b'. exists x. auto.
    - intros c x [(p & P) Hm] Hlt. destruct (R2 _ _ _ P) as [(x' & E & L)|(b' & x' & E1 & E & L)].
      + destruct (R1 c x' E) as (_ & p' & P'). specialize (Hm _ _ P'). rewrite E. f_equal. lia.
      + assert (b' = b) by congruence. subst b'. specialize (Hlt x' (LB x' E)). lia.
  Qed.
End Least.

(** ** [LatticeGraph] *)

Section Lat.
  Context {A D N E : Type} {m : mode} {s : Shape Cell A D} {G : Geometry A D}
    (SUP : Supported s G) (g : LatticeGraph Cell A D N E) (nf : Cell -> N) (ef : Cell -> A -> E)
    (HB : Built m s G g nf ef) (H : HeapOps Cell) (HH : HeapOK H)
    (cost : EdgeReference Cell E D -> Z).

  Notation target := (fun e : EdgeReference Cell E D => Ok (er_target e)).
  Notation at_edge := (EdgeAt (edges m g) (edges_next m g)).
  Notation Rt := (Route (edges m g) (edges_next m g) target cost).
  Notation least := (LeastCost (edges m g) (edges_next m g) target cost).
  Notation round := (dijkstra_round veqb H (edges m g) (edges_next m g) target cost
    (vm_visit m (g_s g)) (vm_is_visited m (g_s g))).
  Notation out := (spec_edges G ef).

  Lemma lat_dijkstra : (forall a e, In a (geo_nodes G) -> at_edge a e -> 0 <= cost e) ->
    forall goal start, In start (geo_nodes G) ->
    exists r, Returns (round goal) (dijkstra_init veqb H (visit_map g) start) r /\
      (forall c x, r c = Some x -> In c (geo_nodes G) /\ exists p, Rt start p x c) /\
      (forall p k c, Rt start p k c -> (exists x, r c = Some x /\ x <= k) \/
         (exists b x, goal = Some b /\ r b = Some x /\ x <= k)).
  Proof.
    intros Hcost goal start Hs. refine_shape m SUP. pose proof (RepProofs.built_rep RF _ _ _ HB) as [Hgs _].
    apply (@dijkstra_answers Cell (EdgeReference Cell E D)) with (target := er_target) (out := out)
      (VR := VMrep (s := s) (G := G) (cell := cell)); auto.
    - exact veqb_eq.
    - apply (lat_edges SUP g nf ef HB).
    - apply (lat_degree SUP ef).
    - apply (lat_in SUP ef).
    - intros a e Ha He. apply (Hcost a e Ha). apply (lat_at SUP g nf ef HB); auto.
    - apply (vr_visit g nf ef HB cell RF).
    - apply (vr_visited g nf ef HB cell RF).
    - apply (visit_map_rep RF g Hgs).
  Qed.

  Lemma lat_iff : forall a p k b, In a (geo_nodes G) -> Rt a p k b <-> GRoute er_target cost out a p k b.
  Proof.
    intros a p k b Ha. apply route_iff with (board := geo_nodes G); auto.
    - apply (lat_edges SUP g nf ef HB).
    - apply (lat_in SUP ef).
  Qed.

  Lemma lat_reach : forall a b, In a (geo_nodes G) -> In b (geo_nodes G) -> exists p k, Rt a p k b.
  Proof.
    intros a b Ha Hb. destruct (lat_conn SUP ef cost a Ha b Hb) as (p & k & P).
    exists p, k. apply lat_iff; auto.
  Qed.

  Lemma c80_all : (forall a e, In a (geo_nodes G) -> at_edge a e -> 0 <= cost e) ->
    forall start, In start (geo_nodes G) ->
    exists r, Returns (round None) (dijkstra_init veqb H (visit_map g) start) r /\
      forall c, match r c with
                | Some x => In c (geo_nodes G) /\ least start c x
                | None => ~ In c (geo_nodes G)
                end.
  Proof.
    intros Hcost start Hs. destruct (lat_dijkstra Hcost None start Hs) as (r & R0 & R1 & R2).
    exists r. split; auto.
    eapply (least_all (edges m g) (edges_next m g) target cost (geo_nodes G) start None r R1 R2); auto.
    intros c Hc. apply lat_reach; auto.
  Qed.

  Lemma c80_goal : (forall a e, In a (geo_nodes G) -> at_edge a e -> 0 <= cost e) ->
    forall start b, In start (geo_nodes G) ->
    exists r, Returns (round (Some b)) (dijkstra_init veqb H (visit_map g) start) r /\
      (forall c x, r c = Some x -> In c (geo_nodes G) /\ exists p, Rt start p x c) /\
      (In b (geo_nodes G) -> exists x, r b = Some x /\ least start b x) /\
      (forall c x, least start c x -> (forall y, least start b y -> x < y) -> r c = Some x).
  Proof.
    intros Hcost start b Hs. destruct (lat_dijkstra Hcost (Some b) start Hs) as (r & R0 & R1 & R2).
    exists r. split; auto.
    eapply (least_goal (edges m g) (edges_next m g) target cost (geo_nodes G) start (Some b) r R1 R2); auto.
    intros Hb. apply lat_reach; auto.
  Qed.

  Lemma c80_distance : forall dist, Distance s G dist ->
    (forall a e, In a (geo_nodes G) -> at_edge a e -> cost e = 1) ->
    forall start, In start (geo_nodes G) ->
    exists r, Returns (round None) (dijkstra_init veqb H (visit_map g) start) r /\
      forall c, r c = if existsb (veqb c) (geo_nodes G) then Some (dist start c) else None.
  Proof.
    intros dist HD HU start Hs. pose proof (distance_metric _ _ _ _ _ HD) as MT.
    destruct (c80_all) with (start := start) as (r & R0 & R1); auto.
    { intros a e Ha He. rewrite (HU a e Ha He). lia. }
    exists r. split; auto. intros c. specialize (R1 c).
    assert (Hb : existsb (veqb c) (geo_nodes G) = true <-> In c (geo_nodes G)).
    { rewrite existsb_exists. split; [intros (x & X1 & X2); apply veqb_eq in X2; subst; auto|].
      intros Hc. exists c. split; auto. apply veqb_eq. auto. }
    destruct (existsb (veqb c) (geo_nodes G)), (r c) as [x|]; try tauto.
    2:{ exfalso. destruct R1 as [Hc _]. apply Hb in Hc. discriminate. }
    destruct R1 as [Hc [(p & P) Hm]]. f_equal.
    destruct (lat_closer SUP ef cost c Hc dist MT start Hs) as (p' & k' & K1 & K2).
    assert (k' <= dist start c).
    { apply K2. intros a e Ha He. apply (HU a e Ha). apply (lat_at SUP g nf ef HB); auto. }
    apply lat_iff in K1; auto. specialize (Hm _ _ K1).
    apply lat_iff in P; auto.
    pose proof (route_far er_target cost (geo_nodes G) out (lat_in SUP ef) (fun a => dist a c)) as F.
    assert (dist start c <= dist c c + x); [|rewrite (mt_zero MT) in *; lia].
    eapply F with (p := p); auto.
    intros a e Ha He. rewrite (HU a e Ha) by (apply (lat_at SUP g nf ef HB); auto). split; [|lia].
    destruct (proj1 (lat_target SUP ef a (er_target e) Ha)) as (d & Hd); [eauto|].
    apply (mt_lip MT a d); auto.
  Qed.
End Lat.

(** ** [SquareGraph] *)

Section Sq.
  Context {N E : Type} {ix : IxType} {S : LoopShape} {m : mode} {h v : Z}
    (SZ : sq_size S h v) (FX : sq_index_fits ix h v)
    (g : SquareGraph N E ix S) (nf : NodeIndex -> N) (ef : EdgeIndex -> E)
    (B : SqBuilt m h v g nf ef) (H : HeapOps NodeIndex) (HH : HeapOK H)
    (cost : SqEdgeReference E -> Z).

  Notation edges := (fun n => Ok (sg_edges g n)).
  Notation next := (sg_edges_next m g).
  Notation target := (sr_target (ix := ix) (S := S) (E := E) m).
  Notation at_edge := (EdgeAt edges next).
  Notation nodes := (sq_nodes h v).
  Notation Rt := (Route edges next target cost).
  Notation least := (LeastCost edges next target cost).
  Notation round := (dijkstra_round veqb H edges next target cost svm_visit svm_is_visited).
  Notation out := (sq_out (S := S) (h := h) (v := v) ef).
  Notation tgt := (sq_tgt (ix := ix) (S := S) (m := m)).

  Lemma sqd_iff : forall a p k b, on_board h v a -> Rt a p k b <-> GRoute tgt cost out a p k b.
  Proof.
    intros a p k b Ha. apply route_iff with (board := nodes).
    - apply (sqa_edges SZ FX g nf ef B).
    - intros a' e Ha' He. apply (sqa_target SZ FX ef a' e Ha' He).
    - apply (sqa_in SZ FX ef).
    - apply sq_in_nodes; auto.
  Qed.

  Lemma sq_dijkstra : (forall a e, on_board h v a -> at_edge a e -> 0 <= cost e) ->
    forall goal start, on_board h v start ->
    exists r, Returns (round goal) (dijkstra_init veqb H (sg_visit_map g) start) r /\
      (forall c x, r c = Some x -> In c nodes /\ exists p, Rt start p x c) /\
      (forall p k c, Rt start p k c -> (exists x, r c = Some x /\ x <= k) \/
         (exists b x, goal = Some b /\ r b = Some x /\ x <= k)).
  Proof.
    intros Hcost goal start Hs.
    apply (@dijkstra_answers NodeIndex (SqEdgeReference E)) with (target := tgt) (out := out)
      (VR := SVM (h := h) (v := v)); auto.
    - exact veqb_eq.
    - apply (sqa_edges SZ FX g nf ef B).
    - apply sqa_degree.
    - intros a e Ha He. apply (sqa_target SZ FX ef a e Ha He).
    - apply (sqa_in SZ FX ef).
    - intros a e Ha He. apply (Hcost a e); [apply sq_in_nodes; auto|].
      apply (sqa_at SZ FX g nf ef B); auto.
    - apply (svr_visit (g := g)).
    - apply (svr_visited (g := g)).
    - apply (svm_fresh SZ B).
    - apply sq_in_nodes; auto.
  Qed.

  Lemma sqd_reach : forall a b, on_board h v a -> on_board h v b -> exists p k, Rt a p k b.
  Proof.
    intros a b Ha Hb. destruct (sqa_route SZ FX g nf ef B cost a b Ha Hb) as (p & k & P & _). eauto.
  Qed.

  Lemma c81_all : (forall a e, on_board h v a -> at_edge a e -> 0 <= cost e) ->
    forall start, on_board h v start ->
    exists r, Returns (round None) (dijkstra_init veqb H (sg_visit_map g) start) r /\
      forall c, match r c with
                | Some x => on_board h v c /\ least start c x
                | None => ~ on_board h v c
                end.
  Proof.
    intros Hcost start Hs. destruct (sq_dijkstra Hcost None start Hs) as (r & R0 & R1 & R2).
    exists r. split; auto. intros c.
    pose proof (least_all edges next target cost nodes start None r R1 R2 eq_refl) as L.
    lapply L; [clear L; intros L|].
    - specialize (L c). destruct (r c).
      + destruct L as [L1 L2]. split; auto. apply sq_in_nodes; auto.
      + intros Hc. apply L. apply sq_in_nodes; auto.
    - intros d Hd. apply sqd_reach; auto. apply sq_in_nodes; auto.
  Qed.

  Lemma c81_goal : (forall a e, on_board h v a -> at_edge a e -> 0 <= cost e) ->
    forall start b, on_board h v start ->
    exists r, Returns (round (Some b)) (dijkstra_init veqb H (sg_visit_map g) start) r /\
      (forall c x, r c = Some x -> on_board h v c /\ exists p, Rt start p x c) /\
      (on_board h v b -> exists x, r b = Some x /\ least start b x) /\
      (forall c x, least start c x -> (forall y, least start b y -> x < y) -> r c = Some x).
  Proof.
    intros Hcost start b Hs. destruct (sq_dijkstra Hcost (Some b) start Hs) as (r & R0 & R1 & R2).
    exists r. split; auto.
    destruct (least_goal edges next target cost nodes start (Some b) r R1 R2 b eq_refl) as (L1 & L2 & L3).
    - intros Hb. apply sqd_reach; auto. apply sq_in_nodes; auto.
    - split; [|split; auto].
      + intros c x Hx. destruct (L1 c x Hx). split; auto. apply sq_in_nodes; auto.
      + intros Hb. apply L2. apply sq_in_nodes; auto.
  Qed.

  Lemma c81_distance :
    (forall a e, on_board h v a -> at_edge a e -> cost e = 1) ->
    forall start, on_board h v start ->
    exists r, Returns (round None) (dijkstra_init veqb H (sg_visit_map g) start) r /\
      (forall c, on_board h v c -> r c = Some (sq_distance S h v start c)) /\
      (forall c, ~ on_board h v c -> r c = None).
  Proof.
    intros HU start Hs.
    destruct c81_all with (start := start) as (r & R0 & R1); auto.
    { intros a e Ha He. rewrite (HU a e Ha He). lia. }
    exists r. split; auto. split.
    2:{ intros c Hc. specialize (R1 c). destruct (r c); tauto. }
    intros c Hc. specialize (R1 c). destruct (r c) as [x|]; [|tauto].
    destruct R1 as [_ [(p & P) Hm]]. f_equal.
    destruct (sqa_closer SZ FX ef (m := m) cost c Hc start) as (p' & k' & K1 & K2); [apply sq_in_nodes; auto|].
    assert (k' <= sq_distance S h v start c).
    { apply K2. intros a e Ha He. apply (HU a e); [apply sq_in_nodes; auto|].
      apply (sqa_at SZ FX g nf ef B); auto. }
    apply sqd_iff in K1; auto. specialize (Hm _ _ K1).
    apply sqd_iff in P; auto.
    pose proof (route_far tgt cost nodes out (sqa_in SZ FX ef) (fun a => sq_distance S h v a c)) as F.
    assert (sq_distance S h v start c <= sq_distance S h v c c + x); [|rewrite dist_zero in * by auto; lia].
    eapply F with (p := p); auto; [|apply sq_in_nodes; auto].
    intros a e Ha He. pose proof (proj1 (sq_in_nodes _) Ha) as Ha'.
    rewrite (HU a e Ha') by (apply (sqa_at SZ FX g nf ef B); auto). split; [|lia].
    destruct (sqa_target SZ FX ef (m := m) a e Ha He) as (_ & d & Hd).
    apply (dist_step a d (tgt e) c Ha' Hc Hd).
  Qed.
End Sq.
