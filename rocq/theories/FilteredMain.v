(** * FilteredMain: filtered views of [LatticeGraph] and of [SquareGraph] (C117-C120). *)

From Verif Require Import Machine Store Axes Shapes Lattice SquareGraph Traverse Clients Astar
  Dijkstra Filtered Spec SpecSquare Spec4 Spec6 Spec11 Spec19 Spec21 Basics AxisProofs GeoProofs
  ShapeProofs StoreProofs GraphProofs RepProofs EdgeProofs VisitProofs Main1 DistProofs TraverseProofs AnySearch AstarProofs
  SearchProofs SquareProofs SquareIter SquareMain SquareSearch ClientsProofs ClientsMain
  AnySearchMain AstarMain DijkstraProofs DijkstraMain CustomProofs CustomMain FilteredProofs.
From Coq Require Import ZifyBool ZifyNat.

(** ** [LatticeGraph], nodes and neighbours *)

(** What the two kinds of shapes have in common. *)
Lemma walkable_facts : forall A D N E m (s : Shape Cell A D) G, Walkable m s G ->
  forall (g : LatticeGraph Cell A D N E) nf ef, Built m s G g nf ef ->
  (exists cell, Refines m s G cell) /\
  (forall c, In c (geo_nodes G) -> Drains (neighbors_next m g c) (neighbors g c) (spec_neighbors G c)) /\
  (forall c, Z.of_nat (length (spec_neighbors G c)) + 1 < 2 ^ 72) /\
  (forall c x, In c (geo_nodes G) -> In x (spec_neighbors G c) -> ~ In x (geo_nodes G) -> forall vm,
     vm_visit m (g_s g) vm x = Ok (false, vm) /\ vm_is_visited m (g_s g) vm x = Ok false) /\
  Drains (node_indices_next m (g_s g)) (node_identifiers g) (geo_nodes G).
Proof.
  intros A D N E m s G [STO|axes fwd opp cell step coord SC EG] g nf ef HB.
  - split; [exact (stored_refines _ _ _ _ m STO)|]. split; [exact (any_nb STO g nf ef HB)|].
    split; [exact (fun c => degree_any _ _ _ _ c STO)|]. split; [exact (any_off STO g nf ef HB)|].
    exact (c06 STO g nf ef HB).
  - subst G. split; [exists cell; exact (contract_refines SC)|]. split; [exact (y_nb SC g nf ef HB)|].
    split; [exact (y_degree SC)|]. split; [exact (y_off SC g)|].
    exact (x_c06 (contract_refines SC) (contract_regular SC) g nf ef HB).
Qed.

Lemma refines_few : forall A D m (s : Shape Cell A D) G cell, Refines m s G cell ->
  Z.of_nat (length (geo_nodes G)) + 1 < 2 ^ 72.
Proof.
  intros A D m s G cell RF. rewrite (rf_nodes _ _ _ _ RF).
  pose proof (fits_bounds _ _ (rf_fits _ _ _ _ RF)) as B. rewrite IMAX1_val in B.
  rewrite board_length by lia. change (2 ^ 72) with 4722366482869645213696. lia.
Qed.

Section Walk.
  Context {A D N E : Type} {m : mode} {s : Shape Cell A D} {G : Geometry A D}
    (WA : Walkable m s G) (g : LatticeGraph Cell A D N E) (nf : Cell -> N) (ef : Cell -> A -> E)
    (HB : Built m s G g nf ef) (keep : Cell -> bool).
  Notation nb := (nf_neighbors keep (neighbors g)).
  Notation next := (nf_neighbors_next keep (neighbors_next m g)).
  Notation inside := (Reached (neighbors g) (neighbors_next m g) (filter keep (geo_nodes G))).

  Lemma c117_neighbors : forall c l, In c (geo_nodes G) ->
    Drains (neighbors_next m g c) (neighbors g c) l ->
    Drains (next c) (nb c) (if keep c then filter keep l else []).
  Proof using WA HB.
    intros c l Hc HD. destruct (walkable_facts _ _ _ _ _ _ _ WA g nf ef HB) as (_ & NB & DEG & _).
    rewrite (Drains_det _ _ _ _ HD (NB c Hc)).
    exact (kept_drains (neighbors g) (neighbors_next m g) (geo_nodes G) (spec_neighbors G) NB
      (fun c _ => DEG c) keep c Hc).
  Qed.

  Lemma c117_nodes :
    Drains (nf_nodes_next keep (node_indices_next m (g_s g))) (node_identifiers g)
      (filter keep (geo_nodes G)).
  Proof using WA HB.
    destruct (walkable_facts _ _ _ _ _ _ _ WA g nf ef HB) as ((cell & RF) & _ & _ & _ & ND).
    pose proof (refines_few _ _ _ _ _ _ RF) as HL.
    apply (find_drains (node_indices_next m (g_s g)) (fun c => Ok (keep c)) keep); auto. lia.
  Qed.

  Lemma c117_bfs : forall start, In start (geo_nodes G) ->
    exists it l, bfs_new (vm_visit m (g_s g)) (visit_map g) start = Ok it /\
      Drains (bfs_next nb next (vm_visit m (g_s g))) it l /\
      hd_error l = Some start /\ NoDup l /\
      (keep start = true ->
        (forall c, In c l <-> exists n, inside start n c) /\
        forall l1 a l2 b l3 n, l = l1 ++ a :: l2 ++ b :: l3 -> inside start n b ->
          exists k, (k <= n)%nat /\ inside start k a) /\
      (keep start = false -> l = [start]).
  Proof using WA HB.
    intros start Hs. destruct (walkable_facts _ _ _ _ _ _ _ WA g nf ef HB)
      as ((cell & RF) & NB & DEG & OFF & _). pose proof (RepProofs.built_rep RF _ _ _ HB) as [Hgs _].
    exact (kept_bfs (neighbors g) (neighbors_next m g) (vm_visit m (g_s g)) (vm_is_visited m (g_s g))
      cell_dec (geo_nodes G) (spec_neighbors G) (VMrep (s := s) (G := G) (cell := cell)) NB
      (fun c _ => DEG c) keep OFF (vr_visit g nf ef HB cell RF) (vr_visited g nf ef HB cell RF)
      (vr_ext cell) (visit_map g) (visit_map_rep RF g Hgs) start Hs).
  Qed.

  Lemma c117_dfs : forall start, In start (geo_nodes G) ->
    exists l, Drains (dfs_next nb next (vm_visit m (g_s g)) (vm_is_visited m (g_s g)))
        (dfs_new (visit_map g) start) l /\
      hd_error l = Some start /\ NoDup l /\
      (keep start = true -> forall c, In c l <-> exists n, inside start n c) /\
      (keep start = false -> l = [start]).
  Proof using WA HB.
    intros start Hs. destruct (walkable_facts _ _ _ _ _ _ _ WA g nf ef HB)
      as ((cell & RF) & NB & DEG & OFF & _). pose proof (RepProofs.built_rep RF _ _ _ HB) as [Hgs _].
    exact (kept_dfs (neighbors g) (neighbors_next m g) (vm_visit m (g_s g)) (vm_is_visited m (g_s g))
      cell_dec (geo_nodes G) (spec_neighbors G) (VMrep (s := s) (G := G) (cell := cell)) NB
      (fun c _ => DEG c) keep OFF (vr_visit g nf ef HB cell RF) (vr_visited g nf ef HB cell RF)
      (vr_ext cell) (visit_map g) (visit_map_rep RF g Hgs) start Hs).
  Qed.

  Lemma c117_path : forall from to, In from (geo_nodes G) -> keep from = true ->
    forall eqb : Cell -> Cell -> bool, (forall a b, eqb a b = true <-> a = b) ->
    exists b, has_path_connecting nb next (vm_visit m (g_s g)) (vm_is_visited m (g_s g)) eqb
        (visit_map g) from to = Ok b /\
      (b = true <-> exists n, inside from n to).
  Proof using WA HB.
    intros from to Hf Hk eqb Heq. destruct (walkable_facts _ _ _ _ _ _ _ WA g nf ef HB)
      as ((cell & RF) & NB & DEG & OFF & _). pose proof (RepProofs.built_rep RF _ _ _ HB) as [Hgs _].
    exact (kept_path (neighbors g) (neighbors_next m g) (vm_visit m (g_s g)) (vm_is_visited m (g_s g))
      cell_dec (geo_nodes G) (spec_neighbors G) (VMrep (s := s) (G := G) (cell := cell)) NB
      (fun c _ => DEG c) keep OFF (vr_visit g nf ef HB cell RF) (vr_visited g nf ef HB cell RF)
      (vr_ext cell) (visit_map g) (visit_map_rep RF g Hgs) from Hf (refines_few _ _ _ _ _ _ RF)
      eqb Heq Hk to).
  Qed.
End Walk.

(** ** [LatticeGraph], edges *)

Lemma sound_facts : forall A D m (s : Shape Cell A D) G, Sound m s G ->
  (exists cell, Refines m s G cell) /\ Regular s G /\
  (forall c, Z.of_nat (length (spec_neighbors G c)) + 1 < 2 ^ 72).
Proof.
  intros A D m s G [SUP|axes fwd opp cell step coord SC EG].
  - split; [exact (supported_refines _ _ _ _ m SUP)|]. split; [exact (supported_regular _ _ _ _ SUP)|].
    exact (SearchProofs.degree_few SUP).
  - subst G. split; [exists cell; exact (contract_refines SC)|].
    split; [exact (contract_regular SC)|exact (y_degree SC)].
Qed.

Section Lat.
  Context {A D N E : Type} {m : mode} {s : Shape Cell A D} {G : Geometry A D}
    (SO : Sound m s G) (g : LatticeGraph Cell A D N E) (nf : Cell -> N) (ef : Cell -> A -> E)
    (HB : Built m s G g nf ef).
  Notation nodes := (geo_nodes G).
  Notation target := (fun e : EdgeReference Cell E D => Ok (er_target e)).
  Notation out := (spec_edges G ef).

  Lemma f_edges : forall c, In c nodes ->
    exists it, edges m g c = Ok it /\ Drains (edges_next m g) it (out c).
  Proof using SO HB.
    intros c Hc. destruct (sound_facts _ _ _ _ _ SO) as ((cell & RF) & RG & _).
    exact (x_c12 RF RG g nf ef c HB Hc).
  Qed.
  Lemma f_deg : forall c, In c nodes -> Z.of_nat (length (out c)) + 1 < 2 ^ 72.
  Proof using SO.
    clear - SO. intros c Hc. destruct (sound_facts _ _ _ _ _ SO) as ((cell & RF) & RG & DEG).
    rewrite <- (map_length (@er_target Cell E D)).
    pose proof (x_spec_edges_targets RF RG ef c Hc) as HT. rewrite HT. apply DEG.
  Qed.
  Lemma f_in : forall c e, In c nodes -> In e (out c) -> In (er_target e) nodes.
  Proof using SO.
    clear - SO. intros c e Hc He. destruct (sound_facts _ _ _ _ _ SO) as ((cell & RF) & RG & DEG).
    apply (x_in_spec_edges RF RG) in He.
    destruct He as (d & c' & x & a & Hd & _ & ->). exact (rg_in RG _ _ _ Hd).
  Qed.
  Lemma f_tgt : forall c (e : EdgeReference Cell E D), In c nodes -> In e (out c) ->
    target e = Ok (er_target e).
  Proof. reflexivity. Qed.
  Lemma f_size : Z.of_nat (length nodes) < 2 ^ 72.
  Proof using SO.
    clear - SO. destruct (sound_facts _ _ _ _ _ SO) as ((cell & RF) & _).
    pose proof (refines_few _ _ _ _ _ _ RF). lia.
  Qed.

  (** *** Nodes *)

  Section Keep.
    Context (keep : Cell -> bool).
    Notation fedges := (nf_edges keep (edges m g)).
    Notation fnext := (nf_edges_next keep (edges_next m g) target).

    Lemma c118_edges : forall c it l, In c nodes -> edges m g c = Ok it ->
      Drains (edges_next m g) it l ->
      exists it', fedges c = Ok it' /\
        Drains fnext it' (if keep c then filter (fun e => keep (er_target e)) l else []).
    Proof using SO HB.
      intros c it l Hc He HD. destruct (f_edges c Hc) as (it0 & E0 & D0).
      assert (it0 = it) by congruence. subst it0. rewrite (Drains_det _ _ _ _ HD D0).
      exact (kept_edges (edges m g) (edges_next m g) target er_target nodes out f_edges f_deg f_tgt
        keep c Hc).
    Qed.

    Context (H : HeapOps Cell) (HH : HeapOK H) (cost : EdgeReference Cell E D -> Z)
      (start : Cell) (Hs : In start nodes).
    Notation inside := (Inside (edges m g) (edges_next m g) target cost keep).
    Notation round goal := (dijkstra_round veqb H fedges fnext target cost
      (vm_visit m (g_s g)) (vm_is_visited m (g_s g)) goal).
    Context (Hcost : forall a e, In a nodes -> EdgeAt (edges m g) (edges_next m g) a e ->
      keep a = true -> keep (er_target e) = true -> 0 <= cost e).

    Lemma c118_dijkstra : keep start = true -> forall goal,
      exists r, Returns (round goal) (dijkstra_init veqb H (visit_map g) start) r /\
        (goal = None -> least_ways (inside start) r) /\
        forall b, goal = Some b ->
          match r b with
          | Some x => (exists p, inside start p x b) /\ forall p k, inside start p k b -> x <= k
          | None => forall p k, ~ inside start p k b
          end.
    Proof using SO HB HH Hs Hcost.
      intros Hk. destruct (sound_facts _ _ _ _ _ SO) as ((cell & RF) & _).
      pose proof (RepProofs.built_rep RF _ _ _ HB) as [Hgs _].
      exact (kept_dijkstra veqb H (edges m g) (edges_next m g) target er_target cost
        (vm_visit m (g_s g)) (vm_is_visited m (g_s g)) veqb_eq HH nodes out
        (VMrep (s := s) (G := G) (cell := cell)) f_edges f_deg f_tgt f_in
        (vr_visit g nf ef HB cell RF) (vr_visited g nf ef HB cell RF) (visit_map g)
        (visit_map_rep RF g Hgs) start Hs keep Hcost Hk).
    Qed.

    Lemma c118_blocked : keep start = false ->
      exists r, Returns (round None) (dijkstra_init veqb H (visit_map g) start) r /\
        forall c, r c = if veqb c start then Some 0 else None.
    Proof using SO HB HH Hs Hcost.
      intros Hk. destruct (sound_facts _ _ _ _ _ SO) as ((cell & RF) & _).
      pose proof (RepProofs.built_rep RF _ _ _ HB) as [Hgs _].
      exact (shut_dijkstra veqb H (edges m g) (edges_next m g) target er_target cost
        (vm_visit m (g_s g)) (vm_is_visited m (g_s g)) veqb_eq HH nodes out
        (VMrep (s := s) (G := G) (cell := cell)) f_edges f_deg f_tgt f_in
        (vr_visit g nf ef HB cell RF) (vr_visited g nf ef HB cell RF) (visit_map g)
        (visit_map_rep RF g Hgs) start Hs keep Hcost Hk).
    Qed.

    Lemma c118_astar : keep start = true -> forall est goal,
      (forall n, In n nodes -> goal n = true -> 0 <= est n) ->
      (forall n p k c, In n nodes -> goal c = true -> inside n p k c -> est n <= k) ->
      exists r, Returns (astar_round veqb H fedges fnext target cost est goal)
          (astar_init veqb H est start) r /\
        cheapest_way (inside start) goal r.
    Proof using SO HB HH Hs Hcost.
      intros Hk.
      exact (kept_astar veqb H (edges m g) (edges_next m g) target er_target cost
        veqb_eq HH nodes out f_edges f_deg f_size f_tgt f_in start Hs keep Hcost Hk).
    Qed.
  End Keep.

  (** *** Edges *)

  Section Pass.
    Context (pass : EdgeReference Cell E D -> bool).
    Notation pnext := (ef_edges_next pass (edges_next m g)).
    Notation pnb := (ef_neighbors (edges m g)).
    Notation pnbn := (ef_neighbors_next pass (edges_next m g) target).

    Lemma c119_lists : forall c it l, In c nodes -> edges m g c = Ok it ->
      Drains (edges_next m g) it l ->
      Drains pnext it (filter pass l) /\ Drains (pnbn c) (pnb c) (map er_target (filter pass l)).
    Proof using SO HB.
      intros c it l Hc He HD. destruct (f_edges c Hc) as (it0 & E0 & D0).
      assert (it0 = it) by congruence. subst it0. rewrite (Drains_det _ _ _ _ HD D0). split.
      - destruct (passed_edges (edges m g) (edges_next m g) nodes out f_edges f_deg pass c Hc)
          as (it1 & E1 & D1). assert (it1 = it) by congruence. subst it1. exact D1.
      - exact (passed_nb (edges m g) (edges_next m g) target er_target nodes out f_edges f_deg f_tgt
          pass c Hc).
    Qed.

    Context (cost : EdgeReference Cell E D -> Z).
    Notation over := (Along (edges m g) (edges_next m g) target cost pass).

    Lemma c119_bfs : forall start, In start nodes ->
      exists it l, bfs_new (vm_visit m (g_s g)) (visit_map g) start = Ok it /\
        Drains (bfs_next pnb pnbn (vm_visit m (g_s g))) it l /\
        hd_error l = Some start /\ NoDup l /\
        (forall c, In c l <-> exists p k, over start p k c) /\
        forall l1 a l2 b l3 p k, l = l1 ++ a :: l2 ++ b :: l3 -> over start p k b ->
          exists p' k', (length p' <= length p)%nat /\ over start p' k' a.
    Proof using SO HB.
      intros start Hs. destruct (sound_facts _ _ _ _ _ SO) as ((cell & RF) & _).
      pose proof (RepProofs.built_rep RF _ _ _ HB) as [Hgs _].
      exact (passed_bfs (edges m g) (edges_next m g) target er_target cost
        (vm_visit m (g_s g)) (vm_is_visited m (g_s g)) nodes out
        (VMrep (s := s) (G := G) (cell := cell)) f_edges f_deg f_tgt f_in
        (vr_visit g nf ef HB cell RF) (vr_visited g nf ef HB cell RF) (visit_map g)
        (visit_map_rep RF g Hgs) start Hs pass cell_dec (vr_ext cell)).
    Qed.

    Lemma c119_dfs : forall start, In start nodes ->
      exists l, Drains (dfs_next pnb pnbn (vm_visit m (g_s g)) (vm_is_visited m (g_s g)))
          (dfs_new (visit_map g) start) l /\
        hd_error l = Some start /\ NoDup l /\
        (forall c, In c l <-> exists p k, over start p k c).
    Proof using SO HB.
      intros start Hs. destruct (sound_facts _ _ _ _ _ SO) as ((cell & RF) & _).
      pose proof (RepProofs.built_rep RF _ _ _ HB) as [Hgs _].
      exact (passed_dfs (edges m g) (edges_next m g) target er_target cost
        (vm_visit m (g_s g)) (vm_is_visited m (g_s g)) nodes out
        (VMrep (s := s) (G := G) (cell := cell)) f_edges f_deg f_tgt f_in
        (vr_visit g nf ef HB cell RF) (vr_visited g nf ef HB cell RF) (visit_map g)
        (visit_map_rep RF g Hgs) start Hs pass cell_dec (vr_ext cell)).
    Qed.

    Context (H : HeapOps Cell) (HH : HeapOK H) (start : Cell) (Hs : In start nodes)
      (Hcost : forall a e, In a nodes -> EdgeAt (edges m g) (edges_next m g) a e ->
         pass e = true -> 0 <= cost e).

    Lemma c119_dijkstra : forall goal,
      exists r, Returns (dijkstra_round veqb H (edges m g) pnext target cost
          (vm_visit m (g_s g)) (vm_is_visited m (g_s g)) goal)
          (dijkstra_init veqb H (visit_map g) start) r /\
        (goal = None -> least_ways (over start) r) /\
        forall b, goal = Some b ->
          match r b with
          | Some x => (exists p, over start p x b) /\ forall p k, over start p k b -> x <= k
          | None => forall p k, ~ over start p k b
          end.
    Proof using SO HB HH Hs Hcost.
      destruct (sound_facts _ _ _ _ _ SO) as ((cell & RF) & _).
      pose proof (RepProofs.built_rep RF _ _ _ HB) as [Hgs _].
      exact (passed_dijkstra veqb H (edges m g) (edges_next m g) target er_target cost
        (vm_visit m (g_s g)) (vm_is_visited m (g_s g)) veqb_eq HH nodes out
        (VMrep (s := s) (G := G) (cell := cell)) f_edges f_deg f_tgt f_in
        (vr_visit g nf ef HB cell RF) (vr_visited g nf ef HB cell RF) (visit_map g)
        (visit_map_rep RF g Hgs) start Hs pass Hcost).
    Qed.

    Lemma c119_astar : forall est goal,
      (forall n, In n nodes -> goal n = true -> 0 <= est n) ->
      (forall n p k c, In n nodes -> goal c = true -> over n p k c -> est n <= k) ->
      exists r, Returns (astar_round veqb H (edges m g) pnext target cost est goal)
          (astar_init veqb H est start) r /\
        cheapest_way (over start) goal r.
    Proof using SO HB HH Hs Hcost.
      exact (passed_astar veqb H (edges m g) (edges_next m g) target er_target cost
        veqb_eq HH nodes out f_edges f_deg f_size f_tgt f_in start Hs pass Hcost).
    Qed.
  End Pass.

  (** *** There and back *)

  Section Weight.
    Context (ok : E -> bool) (price : E -> Z) (UD : ag_directed (geo_ax G) = false).
    Notation pass := (fun e : EdgeReference Cell E D => ok (er_weight e)).
    Notation cost := (fun e : EdgeReference Cell E D => price (er_weight e)).
    Notation over := (Along (edges m g) (edges_next m g) target cost pass).

    Lemma over_snoc : forall a p k b, over a p k b -> forall e t,
      EdgeAt (edges m g) (edges_next m g) b e -> pass e = true -> er_target e = t ->
      over a (p ++ [t]) (k + cost e) t.
    Proof.
      clear. intros a p k b HO. induction HO as [c|a e' t' p k b E1 E2 E3 HO IH]; intros e t He Hp <-.
      - cbn [app]. replace (0 + cost e) with (cost e + 0) by lia.
        refine (along_step (edges m g) (edges_next m g) target cost pass c e _ _ _ _ He Hp eq_refl _).
        constructor.
      - cbn [app]. rewrite <- Z.add_assoc.
        exact (along_step (edges m g) (edges_next m g) target cost pass a e' t' _ _ _ E1 E2 E3
          (IH e _ He Hp eq_refl)).
    Qed.

    Lemma c119_back : forall a p k b, In a nodes -> over a p k b -> over b (rev p) k a.
    Proof using SO HB UD.
      intros a p k b Ha HO. revert Ha.
      induction HO as [c|a e t p k b E1 E2 E3 HO IH]; intros Ha.
      - cbn. constructor.
      - destruct (sound_facts _ _ _ _ _ SO) as ((cell & RF) & RG & _).
        destruct E1 as (it & l & I1 & I2 & I3). injection E3 as <-.
        destruct (x_c13 RF RG g nf ef a e it l HB Ha UD I1 I2 I3)
          as (it' & l' & e' & J1 & J2 & J3 & J4 & J5 & J6 & _).
        assert (Ho : In e (out a)).
        { destruct (f_edges a Ha) as (it0 & E0 & D0). assert (it0 = it) by congruence. subst it0.
          rewrite (Drains_det _ _ _ _ D0 I2). exact I3. }
        pose proof (f_in a e Ha Ho) as Ht. specialize (IH Ht). cbn [rev].
        assert (Hsrc : er_source e = a).
        { apply (x_in_spec_edges RF RG) in Ho.
          destruct Ho as (d & c' & x & ax & _ & _ & ->). reflexivity. }
        rewrite Z.add_comm, <- J6. eapply over_snoc; [exact IH| | |congruence].
        + exists it', l'. auto.
        + cbn beta. rewrite J6. exact E2.
    Qed.
  End Weight.
End Lat.

(** The distance of the lattice does not exceed what a way round the obstacles costs. *)
Lemma c118_distance : forall (A D N E : Type) (m : mode) (s : Shape Cell A D) (G : Geometry A D),
  Supported s G -> forall dist, Distance s G dist ->
  forall (g : LatticeGraph Cell A D N E) nf ef, Built m s G g nf ef ->
  forall H, HeapOK H -> forall keep cost,
  let target := fun e : EdgeReference Cell E D => Ok (er_target e) in
  (forall a e, In a (geo_nodes G) -> EdgeAt (edges m g) (edges_next m g) a e -> 1 <= cost e) ->
  forall start b, In start (geo_nodes G) -> In b (geo_nodes G) -> keep start = true ->
  let est := fun c => dist c b in
  let goal := fun c => veqb c b in
  exists r,
    Returns (astar_round veqb H (nf_edges keep (edges m g))
        (nf_edges_next keep (edges_next m g) target) target cost est goal)
      (astar_init veqb H est start) r /\
    cheapest_way (Inside (edges m g) (edges_next m g) target cost keep start) goal r.
Proof.
  intros A D N E m s G SUP dist HD g nf ef HB H HH keep cost target Hcost start b Hs Hb Hk est goal.
  pose proof (distance_metric _ _ _ _ _ HD) as MT.
  apply (c118_astar (sound_crate m s G SUP) g nf ef HB keep H HH cost start Hs); auto.
  - intros a e Ha He _ _. specialize (Hcost a e Ha He). lia.
  - intros n _ Hg. apply veqb_eq in Hg. subst n. unfold est. rewrite (mt_zero MT). lia.
  - intros n p k c Hn Hg [HR _]. apply veqb_eq in Hg. subst c.
    apply (route_iff (edges m g) (edges_next m g) target er_target cost (geo_nodes G) (spec_edges G ef)
      (lat_edges SUP g nf ef HB) (f_tgt ef) (lat_in SUP ef)) in HR; auto.
    pose proof (route_far er_target cost (geo_nodes G) (spec_edges G ef) (lat_in SUP ef)
      (fun a => dist a b)) as F.
    unfold est. rewrite <- (Z.add_0_l k), <- (mt_zero MT b). apply F with (p := p) (a := n); auto.
    intros a e Ha He. split; [|apply (Hcost a e Ha); apply (lat_at SUP g nf ef HB); auto].
    destruct (proj1 (lat_target SUP ef a (er_target e) Ha)) as (d & Hd); [eauto|].
    apply (mt_lip MT a d); auto.
Qed.

(** ** [SquareGraph] *)

Section Sq.
  Context {N E : Type} {ix : IxType} {S : LoopShape} {m : mode} {h v : Z}
    (SZ : sq_size S h v) (FX : sq_index_fits ix h v)
    (g : SquareGraph N E ix S) (nf : NodeIndex -> N) (ef : EdgeIndex -> E)
    (B : SqBuilt m h v g nf ef).
  Notation nodes := (sq_nodes h v).
  Notation nbn := (fun _ : NodeIndex => sg_neighbors_next (ix := ix) (S := S) m).
  Notation edges := (fun n => Ok (sg_edges g n)).
  Notation next := (sg_edges_next m g).
  Notation target := (sr_target (ix := ix) (S := S) (E := E) m).
  Notation out := (sq_out (S := S) (h := h) (v := v) ef).
  Notation tgt := (sq_tgt (ix := ix) (S := S) (m := m)).

  Lemma s_deg : forall c, In c nodes -> Z.of_nat (length (sq_neighbours S h v c)) + 1 < 2 ^ 72.
  Proof. clear. intros c Hc. pose proof (sqc_deg (S := S) c Hc). lia. Qed.
  Lemma s_off : forall c x, In c nodes -> In x (sq_neighbours S h v c) -> ~ In x nodes ->
    forall vm, svm_visit vm x = Ok (false, vm) /\ svm_is_visited vm x = Ok false.
  Proof. clear. intros c x Hc Hx Hn. exfalso. apply Hn. eapply sqc_in; eauto. Qed.
  Lemma s_tgt : forall c e, In c nodes -> In e (out c) -> target e = Ok (tgt e).
  Proof using SZ FX. clear - SZ FX. intros c e Hc He. apply (sqa_target SZ FX ef c e Hc He). Qed.
  Lemma s_many : Z.of_nat (length nodes) + 1 < 2 ^ 72.
  Proof using SZ. clear - SZ. pose proof (sq_nodes_few SZ). lia. Qed.

  Section Keep.
    Context (keep : NodeIndex -> bool).
    Notation nb := (nf_neighbors keep (sg_neighbors g)).
    Notation fnbn := (nf_neighbors_next keep nbn).
    Notation fedges := (nf_edges keep edges).
    Notation fnext := (nf_edges_next keep next target).
    Notation walk := (Reached (sg_neighbors g) nbn (filter keep nodes)).

    Lemma c120_neighbors : forall n l, on_board h v n -> Drains (nbn n) (sg_neighbors g n) l ->
      Drains (fnbn n) (nb n) (if keep n then filter keep l else []).
    Proof using SZ FX B.
      intros c l Hc HD. apply sq_in_nodes in Hc.
      rewrite (Drains_det _ _ _ _ HD (sqc_nb SZ FX g nf ef B c Hc)).
      exact (kept_drains (sg_neighbors g) nbn nodes (sq_neighbours S h v) (sqc_nb SZ FX g nf ef B)
        s_deg keep c Hc).
    Qed.

    Lemma c120_edges : forall n l, on_board h v n -> Drains next (sg_edges g n) l ->
      exists it, fedges n = Ok it /\
        Drains fnext it (if keep n then
          filter (fun e => match target e with Ok t => keep t | Fail _ => false end) l else []).
    Proof using SZ FX B.
      intros c l Hc HD. apply sq_in_nodes in Hc.
      destruct (sqa_edges SZ FX g nf ef B c Hc) as (it0 & E0 & D0). injection E0 as <-.
      rewrite (Drains_det _ _ _ _ HD D0).
      destruct (kept_edges edges next target tgt nodes out (sqa_edges SZ FX g nf ef B)
        (sqa_degree ef) s_tgt keep c Hc) as (it & E1 & D1).
      exists it. split; [exact E1|]. unfold kept_out in D1. destruct (keep c); [|exact D1].
      rewrite (filter_ext_in _ (fun e => keep (tgt e))); [exact D1|].
      intros e He. rewrite (s_tgt c e Hc He). reflexivity.
    Qed.

    Lemma c120_nodes : 1 <= v ->
      Drains (nf_nodes_next keep (sg_node_indices_next (ix := ix) m)) (sg_node_identifiers g)
        (filter keep nodes).
    Proof using SZ FX B.
      intros Hv. pose proof s_many as HL.
      apply (find_drains (sg_node_indices_next (ix := ix) m) (fun c => Ok (keep c)) keep); auto; [|lia].
      exact (proj1 (c43_identifiers SZ FX B Hv)).
    Qed.

    Lemma c120_bfs : forall start, on_board h v start ->
      exists it l, bfs_new svm_visit (sg_visit_map g) start = Ok it /\
        Drains (bfs_next nb fnbn svm_visit) it l /\
        hd_error l = Some start /\ NoDup l /\
        (keep start = true ->
          (forall c, In c l <-> exists n, walk start n c) /\
          forall l1 a l2 b l3 n, l = l1 ++ a :: l2 ++ b :: l3 -> walk start n b ->
            exists k, (k <= n)%nat /\ walk start k a) /\
        (keep start = false -> l = [start]).
    Proof using SZ FX B.
      intros start Hs. apply sq_in_nodes in Hs.
      exact (kept_bfs (sg_neighbors g) nbn svm_visit svm_is_visited cell_dec nodes
        (sq_neighbours S h v) (SVM (h := h) (v := v)) (sqc_nb SZ FX g nf ef B) s_deg keep s_off
        (svr_visit (g := g)) (svr_visited (g := g)) svr_ext (sg_visit_map g) (svm_fresh SZ B) start Hs).
    Qed.

    Lemma c120_dfs : forall start, on_board h v start ->
      exists l, Drains (dfs_next nb fnbn svm_visit svm_is_visited) (dfs_new (sg_visit_map g) start) l /\
        hd_error l = Some start /\ NoDup l /\
        (keep start = true -> forall c, In c l <-> exists n, walk start n c) /\
        (keep start = false -> l = [start]).
    Proof using SZ FX B.
      intros start Hs. apply sq_in_nodes in Hs.
      exact (kept_dfs (sg_neighbors g) nbn svm_visit svm_is_visited cell_dec nodes
        (sq_neighbours S h v) (SVM (h := h) (v := v)) (sqc_nb SZ FX g nf ef B) s_deg keep s_off
        (svr_visit (g := g)) (svr_visited (g := g)) svr_ext (sg_visit_map g) (svm_fresh SZ B) start Hs).
    Qed.

    Lemma c120_path : forall from to, on_board h v from -> keep from = true ->
      forall eqb : NodeIndex -> NodeIndex -> bool, (forall a b, eqb a b = true <-> a = b) ->
      exists b, has_path_connecting nb fnbn svm_visit svm_is_visited eqb (sg_visit_map g) from to = Ok b /\
        (b = true <-> exists n, walk from n to).
    Proof using SZ FX B.
      intros from to Hs Hk eqb Heq. apply sq_in_nodes in Hs.
      exact (kept_path (sg_neighbors g) nbn svm_visit svm_is_visited cell_dec nodes
        (sq_neighbours S h v) (SVM (h := h) (v := v)) (sqc_nb SZ FX g nf ef B) s_deg keep s_off
        (svr_visit (g := g)) (svr_visited (g := g)) svr_ext (sg_visit_map g) (svm_fresh SZ B) from Hs
        s_many eqb Heq Hk to).
    Qed.

    Context (H : HeapOps NodeIndex) (HH : HeapOK H) (cost : SqEdgeReference E -> Z)
      (start : NodeIndex) (Hs : on_board h v start).
    Notation inside := (Inside edges next target cost keep).
    Notation round goal := (dijkstra_round veqb H fedges fnext target cost svm_visit svm_is_visited goal).
    Context (Hcost : forall a e t, on_board h v a -> EdgeAt edges next a e -> target e = Ok t ->
      keep a = true -> keep t = true -> 0 <= cost e).

    Lemma s_cost : forall a e, In a nodes -> EdgeAt edges next a e -> keep a = true ->
      keep (tgt e) = true -> 0 <= cost e.
    Proof using SZ FX B Hcost.
      intros a e Ha He Hk Ht.
      pose proof (proj1 (at_out edges next nodes out (sqa_edges SZ FX g nf ef B) a e Ha) He) as Ho.
      apply (Hcost a e (tgt e)); auto; [apply sq_in_nodes; auto|exact (s_tgt a e Ha Ho)].
    Qed.

    Lemma c120_dijkstra : keep start = true -> forall goal,
      exists r, Returns (round goal) (dijkstra_init veqb H (sg_visit_map g) start) r /\
        (goal = None -> least_ways (inside start) r) /\
        forall b, goal = Some b ->
          match r b with
          | Some x => (exists p, inside start p x b) /\ forall p k, inside start p k b -> x <= k
          | None => forall p k, ~ inside start p k b
          end.
    Proof using SZ FX B HH Hs Hcost.
      intros Hk. pose proof (proj2 (sq_in_nodes _) Hs) as Hs'.
      exact (kept_dijkstra veqb H edges next target tgt cost svm_visit svm_is_visited veqb_eq HH nodes out
        (SVM (h := h) (v := v)) (sqa_edges SZ FX g nf ef B) (sqa_degree ef) s_tgt (sqa_in SZ FX ef)
        (svr_visit (g := g)) (svr_visited (g := g)) (sg_visit_map g) (svm_fresh SZ B) start Hs' keep
        s_cost Hk).
    Qed.

    Lemma c120_blocked : keep start = false ->
      exists r, Returns (round None) (dijkstra_init veqb H (sg_visit_map g) start) r /\
        forall c, r c = if veqb c start then Some 0 else None.
    Proof using SZ FX B HH Hs Hcost.
      intros Hk. pose proof (proj2 (sq_in_nodes _) Hs) as Hs'.
      exact (shut_dijkstra veqb H edges next target tgt cost svm_visit svm_is_visited veqb_eq HH nodes out
        (SVM (h := h) (v := v)) (sqa_edges SZ FX g nf ef B) (sqa_degree ef) s_tgt (sqa_in SZ FX ef)
        (svr_visit (g := g)) (svr_visited (g := g)) (sg_visit_map g) (svm_fresh SZ B) start Hs' keep
        s_cost Hk).
    Qed.

    Lemma c120_astar : keep start = true -> forall est goal,
      (forall n, on_board h v n -> goal n = true -> 0 <= est n) ->
      (forall n p k c, on_board h v n -> goal c = true -> inside n p k c -> est n <= k) ->
      exists r, Returns (astar_round veqb H fedges fnext target cost est goal)
          (astar_init veqb H est start) r /\
        cheapest_way (inside start) goal r.
    Proof using SZ FX B HH Hs Hcost.
      intros Hk est goal H1 H2. pose proof (proj2 (sq_in_nodes _) Hs) as Hs'.
      apply (kept_astar veqb H edges next target tgt cost veqb_eq HH nodes out
        (sqa_edges SZ FX g nf ef B) (sqa_degree ef) (sqa_size SZ) s_tgt (sqa_in SZ FX ef)
        start Hs' keep s_cost Hk).
      - intros n Hn. apply H1, sq_in_nodes, Hn.
      - intros n p k c Hn. apply H2, sq_in_nodes, Hn.
    Qed.
  End Keep.

  Section Pass.
    Context (pass : SqEdgeReference E -> bool).
    Notation pnext := (ef_edges_next pass next).
    Notation pnb := (ef_neighbors edges).
    Notation pnbn := (ef_neighbors_next pass next target).

    Lemma c121_lists : forall n l, on_board h v n -> Drains next (sg_edges g n) l ->
      Drains pnext (sg_edges g n) (filter pass l) /\
      exists lt, map target (filter pass l) = map Ok lt /\ Drains (pnbn n) (pnb n) lt.
    Proof using SZ FX B.
      intros c l Hc HD. apply sq_in_nodes in Hc.
      destruct (sqa_edges SZ FX g nf ef B c Hc) as (it0 & E0 & D0). injection E0 as <-.
      rewrite (Drains_det _ _ _ _ HD D0). split.
      - destruct (passed_edges edges next nodes out (sqa_edges SZ FX g nf ef B) (sqa_degree ef) pass c Hc)
          as (it1 & E1 & D1). injection E1 as <-. exact D1.
      - exists (map tgt (filter pass (out c))). split.
        + rewrite map_map. apply map_ext_in. intros e He. apply filter_In in He.
          exact (s_tgt c e Hc (proj1 He)).
        + exact (passed_nb edges next target tgt nodes out (sqa_edges SZ FX g nf ef B) (sqa_degree ef)
            s_tgt pass c Hc).
    Qed.

    Context (cost : SqEdgeReference E -> Z).
    Notation over := (Along edges next target cost pass).

    Lemma c121_bfs : forall start, on_board h v start ->
      exists it l, bfs_new svm_visit (sg_visit_map g) start = Ok it /\
        Drains (bfs_next pnb pnbn svm_visit) it l /\
        hd_error l = Some start /\ NoDup l /\
        (forall c, In c l <-> exists p k, over start p k c) /\
        forall l1 a l2 b l3 p k, l = l1 ++ a :: l2 ++ b :: l3 -> over start p k b ->
          exists p' k', (length p' <= length p)%nat /\ over start p' k' a.
    Proof using SZ FX B.
      intros start Hs. apply sq_in_nodes in Hs.
      exact (passed_bfs edges next target tgt cost svm_visit svm_is_visited nodes out
        (SVM (h := h) (v := v)) (sqa_edges SZ FX g nf ef B) (sqa_degree ef) s_tgt (sqa_in SZ FX ef)
        (svr_visit (g := g)) (svr_visited (g := g)) (sg_visit_map g) (svm_fresh SZ B) start Hs pass
        cell_dec svr_ext).
    Qed.

    Lemma c121_dfs : forall start, on_board h v start ->
      exists l, Drains (dfs_next pnb pnbn svm_visit svm_is_visited) (dfs_new (sg_visit_map g) start) l /\
        hd_error l = Some start /\ NoDup l /\
        (forall c, In c l <-> exists p k, over start p k c).
    Proof using SZ FX B.
      intros start Hs. apply sq_in_nodes in Hs.
      exact (passed_dfs edges next target tgt cost svm_visit svm_is_visited nodes out
        (SVM (h := h) (v := v)) (sqa_edges SZ FX g nf ef B) (sqa_degree ef) s_tgt (sqa_in SZ FX ef)
        (svr_visit (g := g)) (svr_visited (g := g)) (sg_visit_map g) (svm_fresh SZ B) start Hs pass
        cell_dec svr_ext).
    Qed.

    Context (H : HeapOps NodeIndex) (HH : HeapOK H) (start : NodeIndex) (Hs : on_board h v start)
      (Hcost : forall a e, on_board h v a -> EdgeAt edges next a e -> pass e = true -> 0 <= cost e).

    Lemma s_pcost : forall a e, In a nodes -> EdgeAt edges next a e -> pass e = true -> 0 <= cost e.
    Proof using Hcost. clear - Hcost. intros a e Ha. apply Hcost. apply sq_in_nodes. exact Ha. Qed.

    Lemma c121_dijkstra : forall goal,
      exists r, Returns (dijkstra_round veqb H edges pnext target cost svm_visit svm_is_visited goal)
          (dijkstra_init veqb H (sg_visit_map g) start) r /\
        (goal = None -> least_ways (over start) r) /\
        forall b, goal = Some b ->
          match r b with
          | Some x => (exists p, over start p x b) /\ forall p k, over start p k b -> x <= k
          | None => forall p k, ~ over start p k b
          end.
    Proof using SZ FX B HH Hs Hcost.
      pose proof (proj2 (sq_in_nodes _) Hs) as Hs'.
      exact (passed_dijkstra veqb H edges next target tgt cost svm_visit svm_is_visited veqb_eq HH nodes
        out (SVM (h := h) (v := v)) (sqa_edges SZ FX g nf ef B) (sqa_degree ef) s_tgt (sqa_in SZ FX ef)
        (svr_visit (g := g)) (svr_visited (g := g)) (sg_visit_map g) (svm_fresh SZ B) start Hs' pass
        s_pcost).
    Qed.

    Lemma c121_astar : forall est goal,
      (forall n, on_board h v n -> goal n = true -> 0 <= est n) ->
      (forall n p k c, on_board h v n -> goal c = true -> over n p k c -> est n <= k) ->
      exists r, Returns (astar_round veqb H edges pnext target cost est goal)
          (astar_init veqb H est start) r /\
        cheapest_way (over start) goal r.
    Proof using SZ FX B HH Hs Hcost.
      intros est goal H1 H2. pose proof (proj2 (sq_in_nodes _) Hs) as Hs'.
      apply (passed_astar veqb H edges next target tgt cost veqb_eq HH nodes out
        (sqa_edges SZ FX g nf ef B) (sqa_degree ef) (sqa_size SZ) s_tgt (sqa_in SZ FX ef)
        start Hs' pass s_pcost).
      - intros n Hn. apply H1, sq_in_nodes, Hn.
      - intros n p k c Hn. apply H2, sq_in_nodes, Hn.
    Qed.
  End Pass.

  (** The edge seen from its other end has the same name and the same weight. *)
  Section Name.
    Context (ok : EdgeIndex -> E -> bool) (price : EdgeIndex -> E -> Z).
    Notation pass := (fun e : SqEdgeReference E => ok (sr_id e) (sr_weight e)).
    Notation cost := (fun e : SqEdgeReference E => price (sr_id e) (sr_weight e)).
    Notation over := (Along edges next target cost pass).

    Lemma s_back : forall a e, In a nodes -> In e (out a) ->
      exists e', In e' (out (tgt e)) /\ tgt e' = a /\ sr_id e' = sr_id e /\ sr_weight e' = sr_weight e.
    Proof using SZ FX.
      clear - SZ FX. intros a e Ha He. pose proof (proj1 (sq_in_nodes _) Ha) as Ha'.
      pose proof (in_map (sq_view ix S m) _ _ He) as Hv.
      unfold sq_out in Hv. rewrite (view_edges SZ FX ef a Ha') in Hv. apply in_map_iff in Hv.
      destruct Hv as ([[[id w] s0] t0] & Hx & Hi).
      assert (Hsrc : s0 = a).
      { apply in_edges_of in Hi. destruct Hi as (d & Hd). unfold sq_edge_view in Hd.
        destruct (sq_neighbour S h v a d); [|discriminate]. injection Hd as _ _ <- _. reflexivity. }
      subst s0. destruct (c45_back a id w t0 Ha' Hi) as (Ht & Hb).
      unfold sq_view in Hx. destruct (sr_source m e) as [s1|]; [|discriminate]. cbn [bind] in Hx.
      rewrite (s_tgt a e Ha He) in Hx. cbn [bind] in Hx. injection Hx as X1 X2 _ X4. subst t0.
      apply (in_map (@Ok (EdgeView E))) in Hb.
      pose proof (view_edges (m := m) SZ FX ef (tgt e) Ht) as V. rewrite <- V in Hb.
      apply in_map_iff in Hb. destruct Hb as (e' & He' & Hin). exists e'. split; [exact Hin|].
      unfold sq_view in He'. destruct (sr_source m e') as [s2|]; [|discriminate]. cbn [bind] in He'.
      assert (Hin' : In e' (out (tgt e))) by exact Hin.
      rewrite (s_tgt (tgt e) e' (proj2 (sq_in_nodes _) Ht) Hin') in He'. cbn [bind] in He'.
      injection He' as Y1 Y2 _ Y4. split; [congruence|]. split; congruence.
    Qed.

    Lemma sover_snoc : forall a p k b, over a p k b -> forall e t,
      EdgeAt edges next b e -> pass e = true -> target e = Ok t ->
      over a (p ++ [t]) (k + cost e) t.
    Proof.
      clear. intros a p k b HO. induction HO as [c|a e' t' p k b E1 E2 E3 HO IH]; intros e t He Hp Ht.
      - cbn [app]. replace (0 + cost e) with (cost e + 0) by lia.
        refine (along_step edges next target cost pass c e t _ _ _ He Hp Ht _). constructor.
      - cbn [app]. rewrite <- Z.add_assoc.
        exact (along_step edges next target cost pass a e' t' _ _ _ E1 E2 E3 (IH e _ He Hp Ht)).
    Qed.

    Lemma c121_back : forall a p k b, on_board h v a -> over a p k b -> over b (rev p) k a.
    Proof using SZ FX B.
      intros a p k b Ha HO. revert Ha.
      induction HO as [c|a e t p k b E1 E2 E3 HO IH]; intros Ha.
      - cbn. constructor.
      - apply sq_in_nodes in Ha.
        pose proof (proj1 (at_out edges next nodes out (sqa_edges SZ FX g nf ef B) a e Ha) E1) as Ho.
        rewrite (s_tgt a e Ha Ho) in E3. injection E3 as <-.
        pose proof (sqa_in (m := m) SZ FX ef a e Ha Ho) as Ht.
        destruct (s_back a e Ha Ho) as (e' & J1 & J2 & J3 & J4).
        specialize (IH (proj1 (sq_in_nodes _) Ht)). cbn [rev].
        replace (cost e + k) with (k + cost e') by (rewrite J3, J4; lia).
        eapply sover_snoc; [exact IH| | |].
        + apply (at_out edges next nodes out (sqa_edges SZ FX g nf ef B)); auto.
        + cbn beta. rewrite J3, J4. exact E2.
        + rewrite <- J2 at 1. exact (s_tgt _ e' Ht J1).
    Qed.
  End Name.
End Sq.

Lemma c120_distance : forall (N E : Type) (ix : IxType) (S : LoopShape) (m : mode) (h v : Z),
  sq_size S h v -> sq_index_fits ix h v ->
  forall (g : SquareGraph N E ix S) nf ef, SqBuilt m h v g nf ef ->
  forall H, HeapOK H -> forall keep cost,
  let edges := fun n => Ok (sg_edges g n) in
  let target := sr_target (ix := ix) (S := S) m in
  (forall a e, on_board h v a -> EdgeAt edges (sg_edges_next m g) a e -> 1 <= cost e) ->
  forall start b, on_board h v start -> on_board h v b -> keep start = true ->
  forall est, (forall c, on_board h v c -> est c <= sq_distance S h v c b) -> 0 <= est b ->
  let goal := fun c => veqb c b in
  exists r,
    Returns (astar_round veqb H (nf_edges keep edges)
        (nf_edges_next keep (sg_edges_next m g) target) target cost est goal)
      (astar_init veqb H est start) r /\
    cheapest_way (Inside edges (sg_edges_next m g) target cost keep start) goal r.
Proof.
  intros N E ix S m h v SZ FX g nf ef B H HH keep cost edges target Hcost start b Hs Hb Hk est He1 He2 goal.
  apply (c120_astar SZ FX g nf ef B keep H HH cost start Hs); auto.
  - intros a e t Ha He _ _ _. specialize (Hcost a e Ha He). lia.
  - intros n _ Hg. apply veqb_eq in Hg. subst n. exact He2.
  - intros n p k c Hn Hg [HR _]. apply veqb_eq in Hg. subst c.
    pose proof (sqa_far SZ FX g nf ef B cost Hcost b Hb n p k Hn HR). specialize (He1 n Hn). lia.
Qed.

(** An edge of [LatticeGraph] seen from where it ends has the name of another place. *)
Lemma c119_id : forall (A D N E : Type) (m : mode) (s : Shape Cell A D) (G : Geometry A D),
  Supported s G -> ag_directed (geo_ax G) = false ->
  forall (g : LatticeGraph Cell A D N E) nf ef, Built m s G g nf ef ->
  forall c a t, In c (geo_nodes G) -> geo_step G c (ag_fwd (geo_ax G) a) = Some t -> t <> c ->
  forall pass, (forall e, pass e = false <-> er_id m s e = Ok (c, a)) ->
  exists e e',
    EdgeAt (edges m g) (edges_next m g) c e /\ er_target e = t /\ er_id m s e = Ok (c, a) /\
    pass e = false /\
    EdgeAt (edges m g) (edges_next m g) t e' /\ er_target e' = c /\ er_weight e' = er_weight e /\
    pass e' = true.
Proof.
  intros A D N E m s G SUP UD g nf ef HB c a t Hc Hst Hne pass Hpass.
  pose proof (st_supported _ _ _ _ SUP) as STO.
  destruct (c12 (m := m) (tr_supported _ _ _ _ SUP) g nf ef c HB Hc) as (it & E1 & D1).
  refine_shape m SUP.
  destruct (EdgeProofs.edge_name_exists RF (regular_readable _ _ _ _ RG) c _ t Hc Hst) as (x & a' & En & _).
  set (e := mkEdgeRef c t (ef x a') (ag_fwd (geo_ax G) a)).
  assert (He : In e (spec_edges G ef c)).
  { apply (in_spec_edges STO). exists (ag_fwd (geo_ax G) a), t, x, a'. auto. }
  destruct (c13 SUP g nf ef c e it _ HB Hc UD E1 D1 He)
    as (it' & l' & e' & F1 & F2 & F3 & F4 & F5 & F6 & F7).
  assert (Hid : er_id m s e = Ok (c, a)) by (apply (er_id_ok STO); reflexivity).
  exists e, e'. split; [exists it, (spec_edges G ef c); auto|]. split; [reflexivity|].
  split; [exact Hid|]. split; [apply Hpass; exact Hid|].
  split; [exists it', l'; auto|]. split; [exact F5|]. split; [exact F6|].
  apply not_false_iff_true. intros Hf. apply Hpass in Hf.
  unfold er_id in Hf. destruct (ax_from_direction (sh_axis s) m (er_direction e')); [|discriminate].
  cbn [bind] in Hf. injection Hf as Hsrc _. rewrite F4 in Hsrc. exact (Hne Hsrc).
Qed.
