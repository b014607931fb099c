(** * FloydMain: all prices of [LatticeGraph] and of [SquareGraph]. *)

From Coq Require Import Permutation.
From Verif Require Import Machine Store Axes Shapes Lattice SquareGraph Traverse Astar Spec
  SpecSquare Spec2 Spec4 Spec5 Spec6 Spec11 Spec13 Basics AxisProofs GeoProofs ShapeProofs StoreProofs
  GraphProofs RepProofs EdgeProofs VisitProofs Main1 Main2 DistProofs TraverseProofs AstarProofs
  SearchProofs SquareProofs SquareIter SquareMain SquareSearch AstarMain DijkstraMain HandshakeProofs
  Kruskal Spec7 KruskalMain QuirkProofs AnySearch AnySearchMain Follow ConnFault DoubleProofs PartsProofs SquareDemo
  Floyd Spec14 FloydProofs.
From Coq Require Import ZifyBool ZifyNat.

Lemma pair_eqb_eq : forall x y : Cell * Cell, pair_eqb veqb x y = true <-> x = y.
Proof.
  intros [a b] [c d]. unfold pair_eqb. cbn [fst snd]. rewrite andb_true_iff, !veqb_eq.
  split; [intros [-> ->]; auto|intros [= -> ->]; auto].
Qed.

(** ** Prices and routes *)

Section Routes.
  Context {C Ed It : Type} (edges : C -> outcome It) (next : It -> outcome (option Ed * It))
    (target : Ed -> outcome C) (cost : Ed -> Z) (tgt : Ed -> C) (out : C -> list Ed)
    (es : list (C * C * Z)) (nodes : list C)
    (IFF : forall a p k b, In a nodes -> Route edges next target cost a p k b <->
       GRoute tgt cost out a p k b)
    (IN : forall a e, In a nodes -> In e (out a) -> In (tgt e) nodes)
    (SAME : forall a b w, In a nodes ->
       (In (a, b, w) es <-> exists e, In e (out a) /\ tgt e = b /\ cost e = w)).

  Lemma way_route : forall a k b, In a nodes ->
    (Way es a k b <-> exists p, Route edges next target cost a p k b).
  Proof.
    intros a k b Ha. split.
    - intros HW. enough (exists p, GRoute tgt cost out a p k b) as (p & HP)
        by (exists p; apply IFF; auto).
      induction HW as [c|a b w k c Hi HW IH].
      + exists [c]. constructor.
      + apply SAME in Hi; auto. destruct Hi as (e & He & <- & <-).
        destruct IH as (p & HP); [apply (IN a e); auto|]. exists (a :: p). constructor; auto.
    - intros (p & HP). apply IFF in HP; auto. revert Ha.
      induction HP as [c|a e p k b He HP IH]; intros Ha; [apply way_here|].
      eapply way_step; [|apply IH; eapply IN; eauto]. apply SAME; eauto.
  Qed.

  Lemma price_least : forall hi a b x k, In a nodes -> PriceUpTo hi es a b x ->
    LeastCost edges next target cost a b k -> x = Z.min k hi.
  Proof.
    intros hi a b x k Ha (P1 & P2 & P3) [(p & L1) L2].
    assert (x <= k) by (apply P3; apply way_route; eauto).
    destruct (Z_lt_le_dec x hi) as [Hx|Hx]; [|lia].
    destruct (proj1 (way_route a x b Ha) (P2 Hx)) as (q & Q). specialize (L2 _ _ Q). lia.
  Qed.
End Routes.

(** ** [LatticeGraph] *)

Section Lat.
  Context {A D N E : Type} {m : mode} {s : Shape Cell A D} {G : Geometry A D}
    (STO : Stored s G) (g : LatticeGraph Cell A D N E) (nf : Cell -> N) (ef : Cell -> A -> E)
    (HB : Built m s G g nf ef) (lo hi : Z) (over : bool) (price : E -> Z).

  Notation refs := (spec_edge_references G ef).
  Notation from := (fun e : EdgeReference Cell E D => Ok (er_source e)).
  Notation target := (fun e : EdgeReference Cell E D => Ok (er_target e)).
  Notation cost := (fun e : EdgeReference Cell E D => price (er_weight e)).
  Notation ways := (ways_of (is_directed g) (priced price (map seen refs))).
  Notation run := (floyd_warshall (pair_eqb veqb) lo hi over (is_directed g) (node_count m g)
    (to_index m g) (from_index m g) (edge_references g) (edge_references_next m g) from target cost
    (node_identifiers g) (node_indices_next m (g_s g))).

  Lemma fl_few : Z.of_nat (length (geo_nodes G)) + 1 < 2 ^ 72.
  Proof. pose proof (stored_few STO). lia. Qed.

  Lemma c103_prices :
    (forall r, In r refs -> In (er_target r) (geo_nodes G)) ->
    lo <= 0 <= hi -> (forall r, In r refs -> 0 <= price (er_weight r) <= hi) ->
    (over = true -> OnePrice ways) ->
    exists r, run = Ok (Some r) /\ AllPrices hi ways (geo_nodes G) r.
  Proof.
    intros CL HL HP HO. destruct (c05 STO g nf ef HB) as (B1 & B2 & B3 & B4).
    assert (EW : ways = taken (is_directed g) cost refs er_source er_target).
    { unfold taken. f_equal. unfold priced. rewrite map_map. reflexivity. }
    rewrite EW in *.
    apply floyd_ok; auto; try lia.
    - exact pair_eqb_eq.
    - intros i c Hi. apply B4; auto.
    - intros i c Hi. apply B4; auto.
    - apply (c15_drains STO g nf ef HB).
    - apply (kl_length (m := m) STO ef).
    - apply (c06 STO g nf ef HB).
    - apply fl_few.
    - intros e He. apply (kl_ends (G := G) ef CL e He).
  Qed.

  Lemma fw_fault : (exists r, In r refs /\ ~ In (er_target r) (geo_nodes G)) -> run = Fail FPanic.
  Proof.
    intros HX. destruct (c05 STO g nf ef HB) as (B1 & B2 & B3 & B4).
    set (n := length (geo_nodes G)) in *.
    assert (IDX : forall c, In c (geo_nodes G) ->
      exists i, to_index m g c = Ok (Z.of_nat i) /\ (i < n)%nat).
    { intros c Hc. apply In_nth_error in Hc. destruct Hc as (i & Hi).
      exists i. split; [apply B4; auto|]. apply nth_error_Some. congruence. }
    destruct (first_bad _ (fun r => In (er_target r) (geo_nodes G))
      (fun r => in_dec cell_dec (er_target r) (geo_nodes G)) refs HX)
      as (l1 & r & l2 & El & Hr & Hl1).
    unfold floyd_warshall. rewrite B2. cbn [bind].
    rewrite (for_each_exact _ _ _ _ _ _ _ _ (c15_drains STO g nf ef HB)
      (kl_length (m := m) STO ef)).
    rewrite El, fold_outcome_app. rewrite Nat2Z.id.
    pose (body := fw_edge over (is_directed g) (to_index m g) from target cost).
    assert (FOLD : forall l d, (forall e, In e l -> In e refs /\ In (er_target e) (geo_nodes G)) ->
      Sq n d -> exists d', fold_outcome body l d = Ok d').
    { induction l as [|e l IH]; intros d Hl HS.
      - exists d. auto.
      - destruct (Hl e (or_introl eq_refl)) as [He Ht]. destruct (ref_ends ef e He) as [Hs _].
        destruct (IDX _ Hs) as (i & I1 & I2). destruct (IDX _ Ht) as (j & J1 & J2).
        cbn [fold_outcome]. unfold body at 1, fw_edge. cbn [bind]. rewrite I1, J1. cbn [bind].
        rewrite (get_ok n) by auto. cbn [bind].
        assert (HL : forall e, In e l -> In e refs /\ In (er_target e) (geo_nodes G))
          by (intros; apply Hl; right; auto).
        destruct (over || (price (er_weight e) <? at_ d i j)); [|cbn [bind]; apply IH; auto].
        destruct (set_ok n d i j (price (er_weight e)) HS I2 J2) as (d1 & E1 & S1 & _).
        rewrite E1. cbn [bind].
        destruct (is_directed g); [cbn [bind]; apply IH; auto|].
        destruct (set_ok n d1 j i (price (er_weight e)) S1 J2 I2) as (d2 & E2 & S2 & _).
        rewrite E2. cbn [bind]. apply IH; auto. }
    destruct (FOLD l1 (repeat (repeat hi n) n)) as (t' & F1).
    { intros e He. split; auto. rewrite El. apply in_or_app. auto. }
    { apply sq_repeat. }
    match goal with |- (let! t := (let! s' := ?x in _) in _) = _ =>
      replace x with (Ok t' : outcome Table) by (symmetry; exact F1) end.
    cbn [bind fold_outcome]. unfold fw_edge at 1. cbn [bind].
    assert (Hir : In r refs) by (rewrite El; apply in_or_app; right; left; auto).
    destruct (ref_ends ef r Hir) as [Hs (d & Hd)]. destruct (IDX _ Hs) as (i & I1 & I2).
    rewrite I1. cbn [bind].
    rewrite (c05_off_board STO g nf ef (er_target r) HB); auto.
    eapply step_locatable; eauto.
  Qed.
End Lat.

(** Every shape either keeps its edges on the board or has one that leads off it. *)
Lemma parts_closed : forall A D (s : Shape Cell A D) (G : Geometry A D) r, Parts s G r ->
  forall E (ef : Cell -> A -> E),
  match r with
  | Ok _ => forall r, In r (spec_edge_references G ef) -> In (er_target r) (geo_nodes G)
  | Fail _ => exists r, In r (spec_edge_references G ef) /\ ~ In (er_target r) (geo_nodes G)
  end.
Proof.
  assert (DB : forall w h E (ef : Cell -> AxisR -> E), fits w h ->
    forall r, In r (spec_edge_references (double_code_geometry w h) ef) ->
    In (er_target r) (geo_nodes (double_code_geometry w h))).
  { intros w h E ef F r Hr.
    assert (Hi : In (er_source r, er_target r) (pairs (G := double_code_geometry w h) ef))
      by (apply in_map_iff; eauto).
    destruct (er_source r) as [x y], (er_target r) as [x' y'].
    apply (double_edges F ef) in Hi. destruct Hi as (Ha & Hi). apply in_double in Ha.
    change (In (x', y') (board w h double_cell)). apply in_double. lia. }
  intros A D s G r HP. destruct HP as [A D s G WH|A D s G LK|b w h F W H C|w h F W H|h F];
    intros E ef.
  - eapply whole_closed; eauto.
  - apply leak_ref. apply (leaky_step _ _ _ _ LK).
  - apply leak_ref. apply q_leak; auto.
  - apply DB; auto.
  - apply DB; auto.
Qed.

Lemma c103_parts : forall A D (s : Shape Cell A D) (G : Geometry A D) r, Parts s G r ->
  Stored s G -> forall N E (m : mode) (g : LatticeGraph Cell A D N E) nf ef, Built m s G g nf ef ->
  forall lo hi over (price : E -> Z), lo <= 0 <= hi ->
  let ways := ways_of (is_directed g) (priced price (map seen (spec_edge_references G ef))) in
  (forall r, In r (spec_edge_references G ef) -> 0 <= price (er_weight r) <= hi) ->
  (over = true -> OnePrice ways) ->
  let run := floyd_warshall (pair_eqb veqb) lo hi over (is_directed g) (node_count m g)
    (to_index m g) (from_index m g) (edge_references g) (edge_references_next m g)
    (fun e => Ok (er_source e)) (fun e => Ok (er_target e)) (fun e => price (er_weight e))
    (node_identifiers g) (node_indices_next m (g_s g)) in
  match r with
  | Ok _ => exists t, run = Ok (Some t) /\ AllPrices hi ways (geo_nodes G) t
  | Fail f => run = Fail FPanic
  end.
Proof.
  intros A D s G r HP STO N E m g nf ef HB lo hi over price HL ways HW HO run.
  pose proof (parts_closed _ _ _ _ _ HP E ef) as HC. destruct r as [k|f].
  - eapply c103_prices; eauto.
  - eapply fw_fault; eauto.
Qed.

Lemma edges_source : forall A D E (G : Geometry A D) (ef : Cell -> A -> E) a e,
  In e (spec_edges G ef a) -> er_source e = a.
Proof.
  intros A D E G ef a e He. unfold spec_edges in He. apply in_flat_map in He.
  destruct He as (d & _ & He). destruct (geo_step G a d); [|destruct He].
  destruct (edge_name G a d c) as [[x y]|]; [|destruct He]. destruct He as [<-|[]]. auto.
Qed.
Arguments edges_source {A D E G}.

Section Sup.
  Context {A D N E : Type} {m : mode} {s : Shape Cell A D} {G : Geometry A D}
    (SUP : Supported s G) (g : LatticeGraph Cell A D N E) (nf : Cell -> N) (ef : Cell -> A -> E)
    (HB : Built m s G g nf ef) (price : E -> Z).
  Notation refs := (spec_edge_references G ef).
  Notation target := (fun e : EdgeReference Cell E D => Ok (er_target e)).
  Notation cost := (fun e : EdgeReference Cell E D => price (er_weight e)).
  Notation ways := (ways_of (is_directed g) (priced price (map seen refs))).

  Lemma sup_same : forall a b w, In a (geo_nodes G) ->
    (In (a, b, w) ways <-> exists e, In e (spec_edges G ef a) /\ er_target e = b /\ cost e = w).
  Proof.
    intros a b w Ha.
    assert (ED : is_directed g = ag_directed (geo_ax G)).
    { destruct (stored_refines _ _ _ _ m (st_supported _ _ _ _ SUP)) as (cell & RF).
      pose proof (RepProofs.built_rep RF _ _ _ HB) as [Hs _]. unfold is_directed. rewrite Hs.
      apply (ao_directed _ _ _ (rf_axis _ _ _ _ RF)). }
    pose proof (seen_twice SUP ef) as PM. rewrite <- ED in PM.
    assert (EW : forall x, In x ways <-> exists a b v, x = (a, b, price v) /\
      In (a, b, v) (map seen refs ++ if is_directed g then [] else map seen_back refs)).
    { intros x. unfold ways_of, both_ways, priced. destruct (is_directed g).
      - rewrite app_nil_r, in_map_iff. split.
        + intros ([[a0 b0] v] & <- & Hi). exists a0, b0, v. auto.
        + intros (a0 & b0 & v & -> & Hi). exists (a0, b0, v). auto.
      - rewrite in_app_iff. split.
        + intros [Hi|Hi].
          * apply in_map_iff in Hi. destruct Hi as ([[a0 b0] v] & <- & Hi). exists a0, b0, v.
            split; auto. apply in_or_app. auto.
          * rewrite !map_map in Hi. apply in_map_iff in Hi. destruct Hi as (r & <- & Hi). cbn [seen fst snd].
            exists (er_target r), (er_source r), (er_weight r). split; auto. apply in_or_app. right.
            apply in_map_iff. exists r. auto.
        + intros (a0 & b0 & v & -> & Hi). apply in_app_or in Hi. destruct Hi as [Hi|Hi].
          * left. apply in_map_iff. exists (a0, b0, v). auto.
          * right. apply in_map_iff in Hi. destruct Hi as (r & [= <- <- <-] & Hi).
            rewrite !map_map. apply in_map_iff. exists r. auto. }
    rewrite EW. split.
    - intros (a0 & b0 & v & [= <- <- ->] & Hi). eapply Permutation_in in Hi; [|apply Permutation_sym, PM].
      apply in_map_iff in Hi. destruct Hi as (e & Ee & Hi). apply in_flat_map in Hi.
      destruct Hi as (c & Hc & Hi). unfold seen in Ee. injection Ee as E1 E2 E3.
      pose proof (edges_source ef c e Hi) as Hc'.
      subst c. rewrite E1 in Hi. exists e. split; auto. split; auto. f_equal; auto.
    - intros (e & He & <- & <-). exists a, (er_target e), (er_weight e). split; auto.
      eapply Permutation_in; [apply PM|]. apply in_map_iff. exists e. split.
      + unfold seen. do 2 f_equal. eapply edges_source; eauto.
      + apply in_flat_map. eauto.
  Qed.

  Lemma c103_least : forall hi a b x k, In a (geo_nodes G) -> PriceUpTo hi ways a b x ->
    LeastCost (edges m g) (edges_next m g) target cost a b k -> x = Z.min k hi.
  Proof.
    intros hi a b x k Ha HP HL. eapply price_least with (nodes := geo_nodes G) (tgt := er_target); eauto.
    - intros a' p' k' b' Ha'. apply (lat_iff SUP g nf ef HB cost a' p' k' b' Ha').
    - apply (lat_in SUP ef).
    - apply sup_same.
  Qed.

  Lemma least_distance : forall dist, Distance s G dist ->
    (forall r, In r refs -> price (er_weight r) = 1) ->
    forall a b, In a (geo_nodes G) -> In b (geo_nodes G) ->
    LeastCost (edges m g) (edges_next m g) target cost a b (dist a b).
  Proof.
    intros dist HD HU a b Ha Hb. pose proof (distance_metric _ _ _ _ _ HD) as MT.
    assert (HC : forall a e, In a (geo_nodes G) -> In e (spec_edges G ef a) -> cost e = 1).
    { intros a' e Ha' He.
      assert (HI : In (a', er_target e, cost e) ways) by (apply sup_same; eauto).
      assert (P : forall x y z, In (x, y, z) (priced price (map seen refs)) -> z = 1).
      { intros x y z Hz. unfold priced in Hz. rewrite map_map in Hz. apply in_map_iff in Hz.
        destruct Hz as (r & [= <- <- <-] & Hr). auto. }
      unfold ways_of in HI. destruct (is_directed g); [eapply P; eauto|].
      apply in_app_or in HI. destruct HI as [HI|HI]; [eapply P; eauto|].
      apply in_map_iff in HI. destruct HI as ([[x y] z] & Ez & Hz). injection Ez as _ _ <-. eapply P; eauto. }
    destruct (lat_closer SUP ef cost b Hb dist MT a Ha) as (p' & k' & K1 & K2). specialize (K2 HC).
    assert (F : forall p k, Route (edges m g) (edges_next m g) target cost a p k b -> dist a b <= k).
    { intros p k P. apply (lat_iff SUP g nf ef HB cost) in P; auto.
      pose proof (route_far er_target cost (geo_nodes G) (spec_edges G ef) (lat_in SUP ef)
        (fun a => dist a b)) as F.
      assert (dist a b <= dist b b + k); [|rewrite (mt_zero MT) in *; lia].
      eapply F with (p := p); auto.
      intros a' e Ha' He. rewrite (HC a' e Ha' He). split; [|lia].
      destruct (proj1 (lat_target SUP ef a' (er_target e) Ha')) as (d & Hd); [eauto|].
      apply (mt_lip MT a' d); auto. }
    split; [|intros p k; apply F]. exists p'.
    assert (Rt : Route (edges m g) (edges_next m g) target cost a p' k' b)
      by (apply (lat_iff SUP g nf ef HB cost); auto).
    specialize (F _ _ Rt). replace (dist a b) with k' by lia. exact Rt.
  Qed.
End Sup.

(** ** [SquareGraph] *)

Section Sq.
  Context {N E : Type} {ix : IxType} {S : LoopShape} {m : mode} {h v : Z}
    (SZ : sq_size S h v) (FX : sq_index_fits ix h v).
  Context (g : SquareGraph N E ix S) (nf : NodeIndex -> N) (ef : EdgeIndex -> E)
    (B : SqBuilt m h v g nf ef) (price : E -> Z).
  Notation nodes := (sq_nodes h v).
  Notation all := (sq_all_edges S h v ef).
  Notation from := (sr_source (ix := ix) (S := S) (E := E) m).
  Notation target := (sr_target (ix := ix) (S := S) (E := E) m).
  Notation cost := (fun e : SqEdgeReference E => price (sr_weight e)).
  Notation ways := (both_ways (priced price (map plain_view all))).
  Notation run lo hi over := (floyd_warshall (pair_eqb veqb) lo hi over (sg_is_directed g)
    (Ok (sg_node_count g)) (sg_to_index m g) (sg_from_index g) (sg_edge_references g)
    (sg_edge_references_next m g) from target cost (sg_node_identifiers g)
    (sg_node_indices_next (ix := ix) m)).

  Lemma c104_prices : forall lo hi over, 1 <= v -> lo <= 0 <= hi ->
    (forall x, In x all -> 0 <= price (snd (plain_view x)) <= hi) ->
    (over = true -> OnePrice ways) ->
    exists r, run lo hi over = Ok (Some r) /\ AllPrices hi ways nodes r.
  Proof.
    intros lo hi over Hv HL HP HO.
    destruct (c46 SZ FX B) as (l & L1 & L2). destruct (ks_views ef l L2) as (V1 & V2).
    destruct (c43_order SZ B) as (O1 & O2 & O3). destruct (c43_identifiers SZ FX B Hv) as (I1 & _).
    destruct (c42 SZ FX B) as (C1 & C2 & C3 & C4).
    assert (LL : length l = length all).
    { apply (f_equal (@length _)) in L2. rewrite !map_length in L2. auto. }
    assert (EW : ways = taken (sg_is_directed g) cost l (sq_src (ix := ix) (S := S) (m := m))
      (sq_tgt (ix := ix) (S := S) (m := m))).
    { unfold taken, ways_of, sg_is_directed. f_equal. unfold priced. rewrite <- V1, map_map. reflexivity. }
    rewrite EW in *.
    apply floyd_ok; auto; try lia.
    - exact pair_eqb_eq.
    - rewrite C2. f_equal. symmetry. exact (sq_nodes_length SZ).
    - intros i c Hi. assert (Hc : on_board h v c) by (apply O2; eapply nth_error_In; eauto).
      destruct (C3 c Hc) as (j & J1 & J2 & J3). rewrite (O3 _ _ Hi) in J1. injection J1 as <-. auto.
    - rewrite LL. apply (ks_length SZ ef).
    - pose proof (sq_nodes_length SZ) as HN. change (Z.of_nat (@length NodeIndex nodes) + 1 < 2 ^ 72).
      rewrite HN. destruct SZ as (H1 & H2 & H3). clear - Hv H1 H3. nia.
    - intros e He. apply V2; auto.
    - intros e He. apply V2; auto.
    - intros e He. destruct (V2 e He) as (_ & _ & V3). eapply (ks_ends ef); exact V3.
    - intros e He. destruct (V2 e He) as (_ & _ & V3). apply in_map_iff in V3.
      destruct V3 as (x & X1 & X2). specialize (HP x X2). rewrite X1 in HP. exact HP.
  Qed.

  (** Without rows [node_identifiers] still yields nodes (C43), and the table is empty. *)
  Lemma c104_no_rows : forall lo hi over, v = 0 ->
    run lo hi over = if h <=? 1 then Ok (Some (fun _ => None)) else Fail FPanic.
  Proof.
    intros lo hi over Ev.
    destruct (c46 SZ FX B) as (l & L1 & L2).
    assert (EN : nodes = []).
    { destruct nodes eqn:En; auto. pose proof (sq_nodes_length SZ) as HN. rewrite En in HN.
      cbn [length] in HN. lia. }
    assert (El : l = []).
    { apply (f_equal (@length _)) in L2. rewrite !map_length in L2. unfold sq_all_edges in L2.
      rewrite EN in L2. cbn in L2. destruct l; [auto|discriminate]. }
    subst l.
    pose proof (c43_no_rows SZ FX B Ev) as I1.
    destruct (c42 SZ FX B) as (C1 & C2 & _).
    assert (Hh : 0 <= h <= 2 ^ 64) by (destruct SZ as (H1 & H2 & H3); nia).
    unfold floyd_warshall. rewrite C2, Ev, Z.mul_0_r. cbn [bind Z.to_nat repeat].
    rewrite (for_each_exact _ _ _ _ _ _ _ _ L1) by (cbn; lia). cbn [fold_outcome bind].
    rewrite (for_each_exact _ _ _ _ _ _ _ _ I1)
      by (unfold zrange; rewrite !map_length, seq_length; lia).
    destruct (Z.leb_spec h 1) as [H1|H1].
    - unfold zrange at 1. replace (Z.to_nat (h - 1)) with 0%nat by lia. reflexivity.
    - unfold zrange at 1. destruct (Z.to_nat (h - 1)) as [|k] eqn:Ek; [lia|].
      cbn [seq map fold_outcome]. unfold fw_node at 1.
      assert (ET : sg_to_index m g (1 + Z.of_nat 0, 0) = Ok 0).
      { destruct (counts g nf ef (SquareProofs.built_rep _ _ _ _ _ _ SZ B)) as (_ & K2 & _).
        unfold sg_to_index. rewrite K2, Ev. cbn [fst snd]. destruct m; reflexivity. }
      rewrite ET. reflexivity.
  Qed.

  Notation out := (sq_out (S := S) (h := h) (v := v) ef).
  Notation tgt := (sq_tgt (ix := ix) (S := S) (m := m)).
  Notation edges := (fun n => Ok (sg_edges g n)).
  Notation next := (sg_edges_next m g).

  Lemma sq_same : forall a b w, In a nodes ->
    (In (a, b, w) ways <-> exists e, In e (out a) /\ tgt e = b /\ cost e = w).
  Proof.
    intros a b w Ha. pose proof (proj1 (sq_in_nodes a) Ha) as Ha'.
    assert (EW : In (a, b, w) ways <-> exists x, plain_view x = (a, b, snd (plain_view x)) /\
      price (snd (plain_view x)) = w /\ In x (all ++ map view_back all)).
    { unfold both_ways, priced. rewrite in_app_iff. split.
      - intros [Hi|Hi]; rewrite ?map_map in Hi; apply in_map_iff in Hi; destruct Hi as ([[[i u] y] z] & Ex & Hi);
          cbn [plain_view fst snd] in Ex; injection Ex as <- <- <-.
        + exists (i, u, y, z). cbn [plain_view snd]. split; auto. split; auto. apply in_or_app; auto.
        + exists (i, u, z, y). cbn [plain_view snd]. split; auto. split; auto. apply in_or_app; right.
          apply in_map_iff. exists (i, u, y, z). auto.
      - intros ([[[i u] y] z] & Ex & Ew & Hi). cbn [plain_view snd] in Ex, Ew. injection Ex as -> ->.
        apply in_app_or in Hi. destruct Hi as [Hi|Hi].
        + left. rewrite map_map. apply in_map_iff. exists (i, u, a, b). cbn [plain_view fst snd].
          rewrite Ew. auto.
        + right. apply in_map_iff in Hi. destruct Hi as ([[[i' u'] y'] z'] & Ey & Hi).
          cbn [view_back] in Ey. injection Ey as -> -> -> ->. rewrite !map_map. apply in_map_iff.
          exists (i, u, b, a). cbn [plain_view fst snd]. rewrite Ew. auto. }
    rewrite EW. clear EW. pose proof (sq_seen_twice (S := S) (h := h) (v := v) ef) as PM.
    pose proof (view_edges (m := m) SZ FX ef a Ha') as V. split.
    - intros ([[[i u] y] z] & Ex & Ew & Hi). cbn [plain_view snd] in Ex, Ew. injection Ex as -> ->.
      eapply Permutation_in in Hi; [|apply Permutation_sym, PM]. apply in_flat_map in Hi.
      destruct Hi as (c & Hc & Hi). pose proof Hi as Hi2. apply in_edges_of in Hi2. destruct Hi2 as (d & Hd).
      unfold sq_edge_view in Hd. destruct (sq_neighbour S h v c d); [|discriminate].
      injection Hd as _ _ -> _. apply (in_map (@Ok (EdgeView E))) in Hi. rewrite <- V in Hi.
      apply in_map_iff in Hi. destruct Hi as (e & He & Hi). exists e. split; auto.
      unfold sq_view in He. destruct (from e) as [s0|]; [|discriminate]. cbn [bind] in He.
      unfold sq_tgt. destruct (target e) as [t0|]; [|discriminate]. cbn [bind] in He.
      injection He as _ E2 _ E4. split; auto. rewrite E2. auto.
    - intros (e & He & <- & <-). pose proof (in_map (sq_view ix S m) _ _ He) as Hv.
      unfold sq_out in Hv. rewrite V in Hv. apply in_map_iff in Hv. destruct Hv as (x & Hx & Hi).
      exists x. split; [|split].
      + pose proof Hi as Hi2. apply in_edges_of in Hi2. destruct Hi2 as (d & Hd).
        unfold sq_edge_view in Hd. destruct (sq_neighbour S h v a d) as [t|] eqn:Et; [|discriminate].
        injection Hd as <-. cbn [plain_view snd]. do 2 f_equal.
        unfold sq_view in Hx. destruct (from e); [|discriminate]. cbn [bind] in Hx.
        unfold sq_tgt. destruct (target e) as [t0|]; [|discriminate]. cbn [bind] in Hx.
        injection Hx. auto.
      + unfold sq_view in Hx. destruct (from e); [|discriminate]. cbn [bind] in Hx.
        destruct (target e) as [t0|]; [|discriminate]. cbn [bind] in Hx.
        injection Hx as ->. reflexivity.
      + eapply Permutation_in; [apply PM|]. apply in_flat_map. eauto.
  Qed.

  Lemma c104_least : forall hi a b x k, on_board h v a -> PriceUpTo hi ways a b x ->
    LeastCost edges next target cost a b k -> x = Z.min k hi.
  Proof.
    intros hi a b x k Ha HP HL. eapply price_least with (nodes := nodes) (tgt := tgt) (out := out); eauto.
    - intros a' p' k' b' Ha'. apply (sqd_iff SZ FX g nf ef B cost). apply sq_in_nodes; auto.
    - apply (sqa_in SZ FX ef).
    - apply sq_same.
    - apply sq_in_nodes; auto.
  Qed.

  Lemma sq_least_distance : (forall x, In x all -> price (snd (plain_view x)) = 1) ->
    forall a b, on_board h v a -> on_board h v b ->
    LeastCost edges next target cost a b (sq_distance S h v a b).
  Proof.
    intros HU a b Ha Hb.
    assert (HC : forall a e, In a nodes -> In e (out a) -> cost e = 1).
    { intros a' e Ha' He.
      assert (HI : In (a', tgt e, cost e) ways) by (apply sq_same; eauto).
      assert (P : forall x y z, In (x, y, z) (priced price (map plain_view all)) -> z = 1).
      { intros x y z Hz. unfold priced in Hz. rewrite map_map in Hz. apply in_map_iff in Hz.
        destruct Hz as (r & Er & Hr). injection Er as _ <-. auto. }
      apply in_app_or in HI. destruct HI as [HI|HI]; [eapply P; eauto|].
      apply in_map_iff in HI. destruct HI as ([[x y] z] & Ez & Hz). injection Ez as _ _ <-.
      eapply P; eauto. }
    assert (Ha' : In a nodes) by (apply sq_in_nodes; auto).
    destruct (sqa_closer SZ FX ef (m := m) cost b Hb a Ha') as (p' & k' & K1 & K2). specialize (K2 HC).
    assert (F : forall p k, Route edges next target cost a p k b -> sq_distance S h v a b <= k).
    { intros p k P. apply (sqd_iff SZ FX g nf ef B cost) in P; auto.
      pose proof (route_far tgt cost nodes out (sqa_in SZ FX ef) (fun a => sq_distance S h v a b)) as F.
      assert (sq_distance S h v a b <= sq_distance S h v b b + k);
        [|rewrite (dist_zero b Hb) in *; lia].
      eapply F with (p := p); auto.
      intros c e Hc He. pose proof (proj1 (sq_in_nodes _) Hc) as Hc'. rewrite (HC c e Hc He).
      split; [|lia]. destruct (sqa_target SZ FX ef (m := m) c e Hc He) as (_ & d & Hd).
      apply (dist_step c d (tgt e) b Hc' Hb Hd). }
    split; [|intros p k; apply F]. exists p'.
    assert (Rt : Route edges next target cost a p' k' b)
      by (apply (sqd_iff SZ FX g nf ef B cost); auto).
    specialize (F _ _ Rt). replace (sq_distance S h v a b) with k' by lia. exact Rt.
  Qed.
End Sq.

(** ** The two together *)

Lemma all_prices_in : forall (C : Type) hi es (nodes : list C) r, AllPrices hi es nodes r ->
  forall a b, In a nodes -> In b nodes -> exists x, r (a, b) = Some x /\ PriceUpTo hi es a b x.
Proof.
  intros C hi es nodes r H a b Ha Hb. specialize (H a b). destruct (r (a, b)) as [x|]; [|tauto].
  exists x. tauto.
Qed.

Lemma one_ways : forall (C E : Type) (price : E -> Z) (l : list (C * C * E)) d,
  (forall x, In x l -> price (snd x) = 1) -> OnePrice (ways_of d (priced price l)).
Proof.
  intros C E price l d H.
  assert (P : forall a b w, In (a, b, w) (priced price l) -> w = 1).
  { intros a b w Hi. apply in_map_iff in Hi. destruct Hi as (x & Ex & Hi). injection Ex as _ <-. auto. }
  assert (Q : forall a b w, In (a, b, w) (ways_of d (priced price l)) -> w = 1).
  { intros a b w Hi. destruct d; [eapply P; eauto|]. apply in_app_or in Hi.
    destruct Hi as [Hi|Hi]; [eapply P; eauto|].
    apply in_map_iff in Hi. destruct Hi as ([[x y] z] & Ez & Hz). injection Ez as _ _ <-. eapply P; eauto. }
  intros a b w w' H1 H2. rewrite (Q _ _ _ H1), (Q _ _ _ H2). auto.
Qed.

Section LatBoth.
  Context {A D N E : Type} {m : mode} {s : Shape Cell A D} {G : Geometry A D}
    (SUP : Supported s G) (g : LatticeGraph Cell A D N E) (nf : Cell -> N) (ef : Cell -> A -> E)
    (HB : Built m s G g nf ef) (lo hi : Z) (over : bool) (price : E -> Z) (HL : lo <= 0 <= hi).
  Notation refs := (spec_edge_references G ef).
  Notation target := (fun e : EdgeReference Cell E D => Ok (er_target e)).
  Notation cost := (fun e : EdgeReference Cell E D => price (er_weight e)).
  Notation ways := (ways_of (is_directed g) (priced price (map seen refs))).
  Notation run := (floyd_warshall (pair_eqb veqb) lo hi over (is_directed g) (node_count m g)
    (to_index m g) (from_index m g) (edge_references g) (edge_references_next m g)
    (fun e => Ok (er_source e)) target cost (node_identifiers g) (node_indices_next m (g_s g))).

  Lemma c103_dijkstra : (forall r, In r refs -> 0 <= price (er_weight r) <= hi) ->
    (over = true -> OnePrice ways) ->
    exists r, run = Ok (Some r) /\ forall a b k, In a (geo_nodes G) -> In b (geo_nodes G) ->
      LeastCost (edges m g) (edges_next m g) target cost a b k -> r (a, b) = Some (Z.min k hi).
  Proof.
    intros HP HO.
    destruct (c103_prices (st_supported _ _ _ _ SUP) g nf ef HB lo hi over price
      (sup_closed SUP E ef) HL HP HO) as (r & R1 & R2).
    exists r. split; auto. intros a b k Ha Hb HK.
    destruct (all_prices_in _ _ _ _ _ R2 a b Ha Hb) as (x & X1 & X2). rewrite X1. f_equal.
    exact (c103_least SUP g nf ef HB price hi a b x k Ha X2 HK).
  Qed.

  Lemma c103_distance : forall dist, Distance s G dist -> 1 <= hi ->
    (forall r, In r refs -> price (er_weight r) = 1) ->
    exists r, run = Ok (Some r) /\ forall a b, In a (geo_nodes G) -> In b (geo_nodes G) ->
      r (a, b) = Some (Z.min (dist a b) hi).
  Proof.
    intros dist HD H1 HU.
    destruct c103_dijkstra as (r & R1 & R2).
    - intros r Hr. rewrite (HU r Hr). lia.
    - intros _. apply one_ways. intros x Hx. apply in_map_iff in Hx. destruct Hx as (e & <- & He). apply HU; auto.
    - exists r. split; auto. intros a b Ha Hb. apply R2; auto.
      apply (least_distance SUP g nf ef HB price dist HD HU); auto.
  Qed.
End LatBoth.

Section SqBoth.
  Context {N E : Type} {ix : IxType} {S : LoopShape} {m : mode} {h v : Z}
    (SZ : sq_size S h v) (FX : sq_index_fits ix h v).
  Context (g : SquareGraph N E ix S) (nf : NodeIndex -> N) (ef : EdgeIndex -> E)
    (B : SqBuilt m h v g nf ef) (lo hi : Z) (over : bool) (price : E -> Z) (HL : lo <= 0 <= hi)
    (HV : 1 <= v).
  Notation all := (sq_all_edges S h v ef).
  Notation target := (sr_target (ix := ix) (S := S) (E := E) m).
  Notation cost := (fun e : SqEdgeReference E => price (sr_weight e)).
  Notation ways := (both_ways (priced price (map plain_view all))).
  Notation run := (floyd_warshall (pair_eqb veqb) lo hi over (sg_is_directed g)
    (Ok (sg_node_count g)) (sg_to_index m g) (sg_from_index g) (sg_edge_references g)
    (sg_edge_references_next m g) (sr_source (ix := ix) (S := S) m) target cost
    (sg_node_identifiers g) (sg_node_indices_next (ix := ix) m)).

  Lemma c104_dijkstra : (forall x, In x all -> 0 <= price (snd (plain_view x)) <= hi) ->
    (over = true -> OnePrice ways) ->
    exists r, run = Ok (Some r) /\ forall a b k, on_board h v a -> on_board h v b ->
      LeastCost (fun n => Ok (sg_edges g n)) (sg_edges_next m g) target cost a b k ->
      r (a, b) = Some (Z.min k hi).
  Proof.
    intros HP HO. destruct (c104_prices SZ FX g nf ef B price lo hi over HV HL HP HO) as (r & R1 & R2).
    exists r. split; auto. intros a b k Ha Hb HK.
    destruct (all_prices_in _ _ _ _ _ R2 a b (proj2 (sq_in_nodes a) Ha) (proj2 (sq_in_nodes b) Hb))
      as (x & X1 & X2).
    rewrite X1. f_equal. exact (c104_least SZ FX g nf ef B price hi a b x k Ha X2 HK).
  Qed.

  Lemma c104_distance : 1 <= hi -> (forall x, In x all -> price (snd (plain_view x)) = 1) ->
    exists r, run = Ok (Some r) /\ forall a b, on_board h v a -> on_board h v b ->
      r (a, b) = Some (Z.min (sq_distance S h v a b) hi).
  Proof.
    intros H1 HU. destruct c104_dijkstra as (r & R1 & R2).
    - intros x Hx. rewrite (HU x Hx). lia.
    - intros _. apply (one_ways _ _ price (map plain_view all) false). intros x Hx.
      apply in_map_iff in Hx. destruct Hx as (e & <- & He). auto.
    - exists r. split; auto. intros a b Ha Hb. apply R2; auto.
      apply (sq_least_distance SZ FX g nf ef B price HU); auto.
  Qed.
End SqBoth.

Lemma c104_refuted : exists (g : SquareGraph Z Z IxU32 VerticalLoop) nf ef,
  sq_size VerticalLoop 3 0 /\ sq_index_fits IxU32 3 0 /\ SqBuilt Debug 3 0 g nf ef /\
  floyd_warshall (pair_eqb veqb) 0 255 false (sg_is_directed g) (Ok (sg_node_count g))
    (sg_to_index Debug g) (sg_from_index g) (sg_edge_references g)
    (sg_edge_references_next Debug g) (sr_source (ix := IxU32) (S := VerticalLoop) Debug)
    (sr_target (ix := IxU32) (S := VerticalLoop) Debug) (fun e => sr_weight e)
    (sg_node_identifiers g) (sg_node_indices_next (ix := IxU32) Debug) = Fail FPanic.
Proof.
  exists (sqd IxU32 VerticalLoop Debug 3 0), sq_node, sq_edge.
  split; [sq_size|]. split; [index_fits|]. split; [apply sqd_built; sq_size|]. vm_compute. reflexivity.
Qed.
