(** * AdaptorsMain: searches over reversed and undirected views (C122, C123). *)

From Verif Require Import Machine Store Axes Shapes Lattice Traverse Clients Astar
  Dijkstra Adaptors Spec Spec4 Spec6 Spec11 Spec19 Spec21 Spec22 Basics AxisProofs GeoProofs
  ShapeProofs StoreProofs GraphProofs RepProofs IterProofs EdgeProofs VisitProofs Main1 TraverseProofs
  AnySearch AstarProofs SearchProofs ClientsProofs ClientsMain AnySearchMain AstarMain
  DijkstraProofs DijkstraMain CustomProofs CustomMain FilteredProofs FilteredMain.
From Coq Require Import ZifyBool ZifyNat Permutation.

(** ** [chain] *)

Section Chain.
  Context {I1 I2 X : Type} (next1 : I1 -> outcome (option X * I1))
    (next2 : I2 -> outcome (option X * I2)).

  Lemma chain_second : forall i2 l, Drains next2 i2 l -> Drains (chain_next next1 next2) (None, i2) l.
  Proof.
    intros i2 l (a & b & HC & HN & HF). exists (None, a), (None, b). split; [|split].
    - induction HC as [|i x i1 l i3 H HC IH]; [constructor|].
      econstructor; [|apply IH; auto]. unfold chain_next. cbn [fst snd]. rewrite H. reflexivity.
    - unfold chain_next. cbn [fst snd]. rewrite HN. reflexivity.
    - unfold chain_next. cbn [fst snd]. rewrite HF. reflexivity.
  Qed.

  Lemma chain_drains : forall i1 i2 l1 l2, Drains next1 i1 l1 -> Drains next2 i2 l2 ->
    Drains (chain_next next1 next2) (Some i1, i2) (l1 ++ l2).
  Proof.
    intros i1 i2 l1 l2 (a & b & HC & HN & _) H2.
    induction HC as [i|i x i' l i3 H HC IH].
    - destruct (chain_second _ _ H2) as (c & d & C1 & C2 & C3). cbn [app].
      assert (Same : chain_next next1 next2 (Some i, i2) = chain_next next1 next2 (None, i2)).
      { unfold chain_next at 1. cbn [fst snd]. rewrite HN. reflexivity. }
      inversion C1 as [st E1 E2 E3|st x st1 l st2 E1 E2 E3 E4 E5]; subst.
      + exists (Some i, i2), d. split; [constructor|]. rewrite Same. auto.
      + exists c, d. split; auto. econstructor; [|exact E2]. rewrite Same. exact E1.
    - destruct (IH HN) as (c & d & C1 & C2 & C3). exists c, d. split; auto. cbn [app].
      econstructor; [|exact C1]. unfold chain_next. cbn [fst snd]. rewrite H. reflexivity.
  Qed.
End Chain.

Lemma maybe_drains : forall Ed Ie (next : Ie -> outcome (option Ed * Ie)) b it l, Drains next it l ->
  Drains (maybe_next next b) it (map (fun e => (e, b)) l).
Proof.
  intros Ed Ie next b it l (i1 & i2 & HC & HN & HF). exists i1, i2. split; [|split].
  - induction HC as [|i x i' l i3 H HC IH]; cbn [map]; [constructor|].
    econstructor; [|apply IH; auto]. unfold maybe_next. rewrite H. reflexivity.
  - unfold maybe_next. rewrite HN. reflexivity.
  - unfold maybe_next. rewrite HF. reflexivity.
Qed.

Lemma groute_snoc : forall C Ed (target : Ed -> C) (cost : Ed -> Z) (out : C -> list Ed) a l k b,
  GRoute target cost out a l k b -> forall e, In e (out b) ->
  GRoute target cost out a (l ++ [target e]) (k + cost e) (target e).
Proof.
  intros C Ed target cost out a l k b HR. induction HR as [c|a e' l k b He' HR IH]; intros e He.
  - replace (0 + cost e) with (cost e + 0) by lia. cbn [app]. constructor; auto. constructor.
  - cbn [app]. rewrite <- Z.add_assoc. constructor; auto.
Qed.

Lemma nbs_le_dirs : forall A D (G : Geometry A D) c,
  (length (spec_neighbors G c) <= length (ag_dirs (geo_ax G)))%nat.
Proof.
  intros A D G c. unfold spec_neighbors.
  induction (ag_dirs (geo_ax G)) as [|d l IH]; cbn [flat_map length]; auto.
  rewrite app_length. destruct (geo_step G c d); cbn [length]; lia.
Qed.

Lemma contract_dirs : forall A D m (s : Shape Cell A D) axes fwd opp cell step coord,
  ShapeContract m s axes fwd opp cell step coord ->
  Z.of_nat (length (ag_dirs (geo_ax (contract_geometry s axes fwd opp cell step coord)))) < 2 ^ 64.
Proof.
  intros A D m s axes fwd opp cell step coord SC. pose proof (shc_axis _ _ _ _ _ _ _ _ SC) as AC.
  pose proof (axc_size _ _ _ _ _ AC) as H. rewrite (axc_dcount _ _ _ _ _ AC) in H. exact H.
Qed.

Lemma sound_dirs : forall A D m (s : Shape Cell A D) G, Sound m s G ->
  Z.of_nat (length (ag_dirs (geo_ax G))) < 2 ^ 64.
Proof.
  intros A D m s G [SUP|axes fwd opp cell step coord SC ->].
  - pose proof (dirs_few SUP). lia.
  - exact (contract_dirs _ _ _ _ _ _ _ _ _ _ SC).
Qed.

Lemma sound_walk : forall A D m (s : Shape Cell A D) G, Sound m s G -> Walkable m s G.
Proof.
  intros A D m s G [SUP|axes fwd opp cell step coord SC EG].
  - apply walk_crate, st_supported. exact SUP.
  - eapply walk_user; eauto.
Qed.

Lemma pop_one : forall C (H : HeapOps C), HeapOK H -> forall start,
  heap_pop H (heap_push H (0, start) []) = Some ((0, start), []).
Proof.
  intros C H [HP HQ] start. specialize (HP (0, start) []). specialize (HQ (heap_push H (0, start) [])).
  destruct (heap_pop H (heap_push H (0, start) [])) as [[x q]|].
  - destruct HQ as [HQ _]. rewrite HP in HQ. apply Permutation_length_1_inv in HQ.
    injection HQ as -> ->. reflexivity.
  - rewrite HQ in HP. apply Permutation_nil in HP. discriminate.
Qed.

(** ** Edges that arrive *)

Section Lat.
  Context {A D N E : Type} {m : mode} {s : Shape Cell A D} {G : Geometry A D}
    (SO : Sound m s G) (g : LatticeGraph Cell A D N E) (nf : Cell -> N) (ef : Cell -> A -> E)
    (HB : Built m s G g nf ef).
  Notation nodes := (geo_nodes G).
  Notation target := (fun e : EdgeReference Cell E D => Ok (er_target e)).
  Notation source := (fun e : EdgeReference Cell E D => Ok (er_source e)).
  Notation out := (spec_edges G ef).
  Notation inc := (spec_incoming G ef).
  Notation redges := (rv_edges (edges_directed m g)).
  Notation uedges := (un_edges (edges_directed m g)).
  Notation unext := (un_edges_next (edges_next m g)).

  (** [Incoming] and [Outgoing] *)
  Lemma r_out : forall c, In c nodes ->
    exists it, edges_directed m g c Outgoing = Ok it /\ Drains (edges_next m g) it (out c).
  Proof using SO HB.
    intros c Hc. destruct (sound_facts _ _ _ _ _ SO) as ((cell & RF) & RG & _).
    pose proof (built_rep RF _ _ _ HB) as HR.
    destruct (edges_outgoing_pos RF (regular_readable _ _ _ _ RG) g nf ef c (PetMarker Outgoing)
      HR Hc eq_refl eq_refl) as (o & it & H1 & H2 & H3).
    exists it. split; auto. eapply IterInv_drains; eauto.
  Qed.

  Lemma in_inc : forall c r, In c nodes ->
    In r (inc c) <-> exists d c' d' x a, geo_step G c d = Some c' /\ opposite (geo_ax G) d d' /\
      geo_step G c' d' = Some c /\ edge_name G c' d' c = Some (x, a) /\ r = mkEdgeRef c' c (ef x a) d.
  Proof using SO.
    intros c r Hc. destruct (sound_facts _ _ _ _ _ SO) as ((cell & RF) & RG & _).
    unfold spec_incoming. rewrite in_flat_map. split.
    - intros (d & _ & H). destruct (geo_step G c d) as [c'|] eqn:Es; [|destruct H].
      destruct (x_step_back RF RG c c' d Hc Es) as (d' & Ho & Hb).
      rewrite (find_opposite RF d d' Ho) in H.
      destruct (edge_name G c' d' c) as [[x a]|] eqn:En; [|destruct H].
      destruct H as [<-|[]]. exists d, c', d', x, a. repeat split; auto.
    - intros (d & c' & d' & x & a & Es & Ho & Hb & En & ->). exists d. split.
      + apply (all_dirs_in (rf_axis _ _ _ _ RF)).
      + rewrite Es, (find_opposite RF d d' Ho), En. left. reflexivity.
  Qed.

  (** The edges that arrive at [b] are those that leave some [a] for [b]. *)
  Lemma inc_out : forall b r, In b nodes -> In r (inc b) ->
    er_target r = b /\ In (er_source r) nodes /\
    exists e, In e (out (er_source r)) /\ er_target e = b /\ er_source e = er_source r /\
      er_weight e = er_weight r.
  Proof using SO.
    intros b r Hb Hr. destruct (sound_facts _ _ _ _ _ SO) as ((cell & RF) & RG & _).
    apply (in_inc b r Hb) in Hr. destruct Hr as (d & c' & d' & x & a & Es & Ho & Hs & En & ->).
    cbn [er_target er_source er_weight]. split; auto. split; [exact (rg_in RG _ _ _ Es)|].
    exists (mkEdgeRef c' b (ef x a) d'). split; auto. apply (x_in_spec_edges RF RG).
    exists d', b, x, a. auto.
  Qed.

  Lemma out_inc : forall a e, In a nodes -> In e (out a) ->
    er_source e = a /\
    exists r, In r (inc (er_target e)) /\ er_source r = a /\ er_target r = er_target e /\
      er_weight r = er_weight e.
  Proof using SO.
    intros a e Ha He. destruct (sound_facts _ _ _ _ _ SO) as ((cell & RF) & RG & _).
    apply (x_in_spec_edges RF RG) in He. destruct He as (d & c' & x & ax & Es & En & ->).
    cbn [er_target er_source er_weight]. split; auto.
    destruct (x_step_back RF RG a c' d Ha Es) as (d' & Ho & Hs).
    exists (mkEdgeRef a c' (ef x ax) d'). split; auto.
    apply (in_inc c' _ (rg_in RG _ _ _ Es)). exists d', a, d, x, ax. repeat split; auto.
    apply opposite_sym. exact Ho.
  Qed.

  Lemma r_few : forall c, In c nodes -> (length (inc c) <= length (spec_neighbors G c))%nat.
  Proof using.
    clear. intros c _. unfold spec_incoming, spec_neighbors.
    generalize (ag_dirs (geo_ax G)) at 2 3 as L. intros L.
    induction L as [|d l IH]; cbn [flat_map]; auto.
    rewrite !app_length. apply Nat.add_le_mono; auto.
    destruct (geo_step G c d) as [c'|]; auto. destruct (find _ _) as [d'|]; cbn [length]; auto.
    destruct (edge_name G c' d' c) as [[x a]|]; cbn [length]; auto.
  Qed.
  Lemma r_deg : forall c, In c nodes -> Z.of_nat (length (inc c)) + 1 < 2 ^ 72.
  Proof using SO.
    clear - SO. intros c Hc. destruct (sound_facts _ _ _ _ _ SO) as (_ & _ & DEG).
    specialize (DEG c). pose proof (r_few c Hc). lia.
  Qed.
  Lemma r_in : forall c e, In c nodes -> In e (inc c) -> In (er_source e) nodes.
  Proof using SO. clear - SO. intros c e Hc He. apply (inc_out c e Hc He). Qed.
  Lemma r_src : forall c (e : EdgeReference Cell E D), In c nodes -> In e (inc c) ->
    rv_target source e = Ok (er_source e).
  Proof. reflexivity. Qed.

  Section Released.
    (** In a debug build of a directed graph [Incoming] panics. *)
    Context (OK : ag_directed (geo_ax G) = false \/ m = Release).

    Lemma r_edges : forall c, In c nodes ->
      exists it, redges c = Ok it /\ Drains (edges_next m g) it (inc c).
    Proof using SO HB OK.
      intros c Hc. destruct (sound_facts _ _ _ _ _ SO) as ((cell & RF) & RG & _).
      pose proof (built_rep RF _ _ _ HB) as HR.
      destruct (ag_directed (geo_ax G)) eqn:Hd.
      - destruct OK as [?|Hm]; [discriminate|].
        destruct (edges_incoming_directed_pos RF RG g nf ef c HR Hc Hd Hm) as (o & it & H1 & H2 & H3).
        exists it. split; auto. eapply IterInv_drains; eauto.
      - destruct (edges_incoming_pos RF (regular_readable _ _ _ _ RG) g nf ef c HR Hc Hd)
          as (o & it & H1 & H2 & H3).
        exists it. split; auto. eapply IterInv_drains; eauto.
    Qed.

    Lemma c122_edges : forall b, In b nodes ->
      exists it l, redges b = Ok it /\ Drains (edges_next m g) it l /\
        forall a w,
          (exists r, In r l /\ rv_target source r = Ok a /\ rv_source target r = Ok b /\ er_weight r = w) <->
          In a nodes /\ exists e, EdgeAt (edges m g) (edges_next m g) a e /\ er_target e = b /\
            er_weight e = w.
    Proof using SO HB OK.
      intros b Hb. destruct (r_edges b Hb) as (it & H1 & H2). exists it, (inc b). split; auto.
      split; auto. intros a w. split.
      - intros (r & Hr & E1 & E2 & <-). injection E1 as <-. injection E2 as E2.
        destruct (inc_out b r Hb Hr) as (_ & Hi & e & He & T1 & _ & T2). split; auto.
        exists e. split; auto. apply (edge_at_out (edges m g) (edges_next m g) nodes out
          (f_edges SO g nf ef HB)); auto.
      - intros (Ha & e & He & <- & <-).
        apply (edge_at_out (edges m g) (edges_next m g) nodes out (f_edges SO g nf ef HB)) in He; auto.
        destruct (out_inc a e Ha He) as (_ & r & R1 & R2 & R3 & R4). exists r.
        unfold rv_target, rv_source. rewrite R2, R3, R4. auto.
    Qed.

    Context (price : Cell -> Cell -> E -> Z).
    Notation cost := (priced (D := D) price).
    Notation way := (Route (edges m g) (edges_next m g) target cost).
    Notation GRo := (GRoute er_target cost out).
    Notation GRi := (GRoute er_source cost inc).

    Lemma priced_same : forall e r : EdgeReference Cell E D, er_source e = er_source r ->
      er_target e = er_target r -> er_weight e = er_weight r -> cost e = cost r.
    Proof. intros e r H1 H2 H3. unfold priced. congruence. Qed.

    (** A way against the edges is a way along them backwards. *)
    Lemma inc_route : forall b p k a, In b nodes -> GRi b p k a -> GRo a (rev p) k b /\ In a nodes.
    Proof using SO.
      clear - SO. intros b p k a Hb HR. revert Hb. induction HR as [c|b r p k a Hr HR IH]; intros Hb.
      - split; auto. constructor.
      - destruct (inc_out b r Hb Hr) as (T & Hi & e & He & T1 & T2 & T3).
        destruct (IH Hi) as [IH1 IH2]. split; auto. cbn [rev].
        rewrite Z.add_comm, <- (priced_same e r) by congruence. rewrite <- T1.
        eapply groute_snoc; eauto.
    Qed.

    Lemma out_route : forall a p k b, In a nodes -> GRo a p k b -> GRi b (rev p) k a.
    Proof using SO.
      clear - SO. intros a p k b Ha HR. revert Ha. induction HR as [c|a e p k b He HR IH]; intros Ha.
      - constructor.
      - specialize (IH (f_in SO ef a e Ha He)). destruct (out_inc a e Ha He) as (T & r & R1 & R2 & R3 & R4).
        cbn [rev]. rewrite Z.add_comm, <- (priced_same r e) by congruence. rewrite <- R2 at 1 2.
        eapply groute_snoc; eauto.
    Qed.

    (** [c] need not be a node: nothing leads there. *)
    Context (start : Cell) (Hs : In start nodes).
    Notation back := (fun p k c => In c nodes /\ way c (rev p) k start).

    Lemma back_iff : forall p k c, back p k c <-> GRi start p k c.
    Proof using SO HB Hs.
      clear - SO HB Hs. intros p k c. split.
      - intros [Hc HW].
        apply (route_iff (edges m g) (edges_next m g) target er_target cost nodes out
          (f_edges SO g nf ef HB) (f_tgt ef) (f_in SO ef)) in HW; auto.
        rewrite <- (rev_involutive p). apply out_route; auto.
      - intros HR. destruct (inc_route _ _ _ _ Hs HR) as [H1 H2]. split; auto.
        apply (route_iff (edges m g) (edges_next m g) target er_target cost nodes out
          (f_edges SO g nf ef HB) (f_tgt ef) (f_in SO ef)); auto.
    Qed.

    Context (H : HeapOps Cell) (HH : HeapOK H)
      (Hcost : forall a e, In a nodes -> EdgeAt (edges m g) (edges_next m g) a e -> 0 <= cost e).

    Lemma o_cost : forall c e, In c nodes -> In e (out c) -> 0 <= cost e.
    Proof using SO HB Hcost.
      clear - SO HB Hcost. intros c e Hc He. apply (Hcost c e Hc).
      apply (edge_at_out (edges m g) (edges_next m g) nodes out (f_edges SO g nf ef HB)); auto.
    Qed.
    Lemma r_cost : forall c e, In c nodes -> In e (inc c) -> 0 <= cost e.
    Proof using SO HB Hcost.
      clear - SO HB Hcost. intros c r Hc Hr. destruct (inc_out c r Hc Hr) as (T & Hi & e & He & T1 & T2 & T3).
      rewrite <- (priced_same e r) by congruence. exact (o_cost _ _ Hi He).
    Qed.

    Lemma c122_dijkstra : forall goal,
      exists r, Returns (dijkstra_round veqb H redges (edges_next m g) (rv_target source) cost
          (vm_visit m (g_s g)) (vm_is_visited m (g_s g)) goal)
          (dijkstra_init veqb H (visit_map g) start) r /\
        (goal = None -> least_ways back r) /\
        forall b, goal = Some b ->
          match r b with
          | Some x => (exists p, back p x b) /\ forall p k, back p k b -> x <= k
          | None => forall p k, ~ back p k b
          end.
    Proof using SO HB OK Hs HH Hcost.
      destruct (sound_facts _ _ _ _ _ SO) as ((cell & RF) & _).
      pose proof (RepProofs.built_rep RF _ _ _ HB) as [Hgs _].
      exact (view_dijkstra veqb H (rv_target source) er_source cost
        (vm_visit m (g_s g)) (vm_is_visited m (g_s g)) veqb_eq HH nodes inc
        (VMrep (s := s) (G := G) (cell := cell)) r_deg r_src r_in
        (vr_visit g nf ef HB cell RF) (vr_visited g nf ef HB cell RF) (visit_map g)
        (visit_map_rep RF g Hgs) start Hs redges (edges_next m g) inc r_edges
        (fun c _ => incl_refl _) (fun c _ => le_n _) r_cost back back_iff).
    Qed.

    Lemma c122_astar : forall est goal,
      (forall n, In n nodes -> goal n = true -> 0 <= est n) ->
      (forall n p k c, In n nodes -> In c nodes -> goal c = true -> way c p k n -> est n <= k) ->
      exists r, Returns (astar_round veqb H redges (edges_next m g) (rv_target source) cost est goal)
          (astar_init veqb H est start) r /\
        cheapest_way back goal r.
    Proof using SO HB OK Hs HH Hcost.
      intros est goal He1 He2.
      apply (view_astar veqb H (rv_target source) er_source cost veqb_eq HH nodes inc r_deg
        (f_size SO) r_src r_in start Hs redges (edges_next m g) inc r_edges
        (fun c _ => incl_refl _) (fun c _ => le_n _) r_cost back back_iff est goal He1).
      intros n p k c Hn Hg HR. destruct (inc_route _ _ _ _ Hn HR) as [H1 H2].
      apply (He2 n (rev p) k c); auto.
      apply (route_iff (edges m g) (edges_next m g) target er_target cost nodes out
          (f_edges SO g nf ef HB) (f_tgt ef) (f_in SO ef)); auto.
    Qed.

    (** ** Both ways *)

    Notation both c := (map (fun e => (e, true)) (inc c) ++ map (fun e => (e, false)) (out c)).
    Notation utgt := (fun e : EdgeReference Cell E D * bool =>
      if snd e then er_source (fst e) else er_target (fst e)).
    Notation ucost := (fun e : EdgeReference Cell E D * bool => cost (fst e)).
    Notation utarget := (un_target source target).
    Notation either := (Either (edges m g) (edges_next m g) cost nodes).

    Lemma u_edges : forall c, In c nodes -> exists it, uedges c = Ok it /\ Drains unext it (both c).
    Proof using SO HB OK.
      clear - SO HB OK. intros c Hc.
      destruct (r_edges c Hc) as (i1 & E1 & D1). destruct (r_out c Hc) as (i2 & E2 & D2).
      exists (Some i1, i2). split.
      - unfold un_edges. unfold rv_edges in E1. rewrite E1, E2. reflexivity.
      - unfold un_edges_next. apply chain_drains; apply maybe_drains; auto.
    Qed.
    Lemma u_deg : forall c, In c nodes -> Z.of_nat (length (both c)) + 1 < 2 ^ 72.
    Proof using SO.
      clear - SO. intros c Hc. destruct (sound_facts _ _ _ _ _ SO) as ((cell & RF) & RG & DEG).
      rewrite app_length, !map_length. pose proof (r_few c Hc).
      rewrite <- (map_length (@er_target Cell E D) (out c)).
      pose proof (x_spec_edges_targets RF RG ef c Hc) as HT. rewrite HT.
      pose proof (sound_dirs _ _ _ _ _ SO). pose proof (nbs_le_dirs _ _ G c).
      change (2 ^ 72) with 4722366482869645213696. lia.
    Qed.
    Lemma u_tgt : forall c e, In c nodes -> In e (both c) -> utarget e = Ok (utgt e).
    Proof using. intros c [e []] _ _; reflexivity. Qed.
    Lemma u_in : forall c e, In c nodes -> In e (both c) -> In (utgt e) nodes.
    Proof using SO.
      clear - SO. intros c e Hc He. apply in_app_iff in He.
      destruct He as [He|He]; apply in_map_iff in He; destruct He as (r & <- & Hr); cbn [fst snd].
      - exact (r_in c r Hc Hr).
      - exact (f_in SO ef c r Hc Hr).
    Qed.
    Lemma u_cost : forall c e, In c nodes -> In e (both c) -> 0 <= ucost e.
    Proof using SO HB Hcost.
      clear - SO HB Hcost. intros c e Hc He. apply in_app_iff in He.
      destruct He as [He|He]; apply in_map_iff in He; destruct He as (r & <- & Hr); cbn [fst snd].
      - exact (r_cost c r Hc Hr).
      - exact (o_cost c r Hc Hr).
    Qed.

    Lemma either_iff : forall a p k b, In a nodes ->
      either a p k b <-> GRoute utgt ucost (fun c => both c) a p k b.
    Proof using SO HB.
      clear - SO HB. intros a p k b Ha. split; intros HR; revert Ha.
      - induction HR as [c|a e t p k b Ht He HR IH]; intros Ha; [constructor|].
        destruct He as [[He Et]|[He Et]];
          apply (edge_at_out (edges m g) (edges_next m g) nodes out (f_edges SO g nf ef HB)) in He; auto.
        + apply (gr_step utgt ucost (fun c => both c) a (e, false)).
          * apply in_app_iff. right. apply in_map_iff. eauto.
          * cbn [fst snd]. rewrite Et. auto.
        + destruct (out_inc t e Ht He) as (T & r & R1 & R2 & R3 & R4).
          rewrite <- (priced_same r e) by congruence.
          apply (gr_step utgt ucost (fun c => both c) a (r, true)).
          * apply in_app_iff. left. apply in_map_iff. rewrite Et in R1. eauto.
          * cbn [fst snd]. rewrite R2. auto.
      - induction HR as [c|a e p k b He HR IH]; intros Ha; [constructor|].
        pose proof (u_in a e Ha He) as Ht. specialize (IH Ht). apply in_app_iff in He.
        destruct He as [He|He]; apply in_map_iff in He; destruct He as (r & <- & Hr); cbn [fst snd] in *.
        + destruct (inc_out a r Ha Hr) as (T & Hi & e & He & T1 & T2 & T3).
          rewrite <- (priced_same e r) by congruence.
          apply (either_step (edges m g) (edges_next m g) cost nodes a e (er_source r)); auto.
          right. split; auto.
          apply (edge_at_out (edges m g) (edges_next m g) nodes out (f_edges SO g nf ef HB)); auto.
        + apply (either_step (edges m g) (edges_next m g) cost nodes a r (er_target r)); auto.
          left. split; auto.
          apply (edge_at_out (edges m g) (edges_next m g) nodes out (f_edges SO g nf ef HB)); auto.
    Qed.

    Lemma c123_dijkstra : forall goal,
      exists r, Returns (dijkstra_round veqb H uedges unext utarget ucost
          (vm_visit m (g_s g)) (vm_is_visited m (g_s g)) goal)
          (dijkstra_init veqb H (visit_map g) start) r /\
        (goal = None -> least_ways (either start) r) /\
        forall b, goal = Some b ->
          match r b with
          | Some x => (exists p, either start p x b) /\ forall p k, either start p k b -> x <= k
          | None => forall p k, ~ either start p k b
          end.
    Proof using SO HB OK Hs HH Hcost.
      destruct (sound_facts _ _ _ _ _ SO) as ((cell & RF) & _).
      pose proof (RepProofs.built_rep RF _ _ _ HB) as [Hgs _].
      exact (view_dijkstra veqb H utarget utgt ucost
        (vm_visit m (g_s g)) (vm_is_visited m (g_s g)) veqb_eq HH nodes (fun c => both c)
        (VMrep (s := s) (G := G) (cell := cell)) u_deg u_tgt u_in
        (vr_visit g nf ef HB cell RF) (vr_visited g nf ef HB cell RF) (visit_map g)
        (visit_map_rep RF g Hgs) start Hs uedges unext (fun c => both c) u_edges
        (fun c _ => incl_refl _) (fun c _ => le_n _) u_cost (either start)
        (fun p k c => either_iff start p k c Hs)).
    Qed.

    Lemma c123_astar : forall est goal,
      (forall n, In n nodes -> goal n = true -> 0 <= est n) ->
      (forall n p k c, In n nodes -> goal c = true -> either n p k c -> est n <= k) ->
      exists r, Returns (astar_round veqb H uedges unext utarget ucost est goal)
          (astar_init veqb H est start) r /\
        cheapest_way (either start) goal r.
    Proof using SO HB OK Hs HH Hcost.
      intros est goal He1 He2.
      apply (view_astar veqb H utarget utgt ucost veqb_eq HH nodes (fun c => both c) u_deg
        (f_size SO) u_tgt u_in start Hs uedges unext (fun c => both c) u_edges
        (fun c _ => incl_refl _) (fun c _ => le_n _) u_cost (either start)
        (fun p k c => either_iff start p k c Hs) est goal He1).
      intros n p k c Hn Hg HR. apply (He2 n p k c Hn Hg). apply either_iff; auto.
    Qed.
  End Released.

  (** What the view shows. *)
  Lemma c123_edges : ag_directed (geo_ax G) = false \/ m = Release -> forall c, In c nodes ->
    forall i1 l1 i2 l2, edges_directed m g c Incoming = Ok i1 -> Drains (edges_next m g) i1 l1 ->
    edges m g c = Ok i2 -> Drains (edges_next m g) i2 l2 ->
    exists it, let l := map (fun e => (e, true)) l1 ++ map (fun e => (e, false)) l2 in
      uedges c = Ok it /\ Drains unext it l /\
      forall e, In e l -> un_source source target e = Ok c.
  Proof using SO HB.
    intros OK c Hc i1 l1 i2 l2 E1 D1 E2 D2.
    destruct (u_edges OK c Hc) as (it & H1 & H2). exists it. cbv zeta. split; auto.
    destruct (r_edges OK c Hc) as (j1 & F1 & G1). unfold rv_edges in F1.
    destruct (f_edges SO g nf ef HB c Hc) as (j2 & F2 & G2).
    assert (j1 = i1) by congruence. assert (j2 = i2) by congruence. subst j1 j2.
    rewrite (Drains_det _ _ _ _ D1 G1), (Drains_det _ _ _ _ D2 G2). split; [exact H2|].
    intros e He. apply in_app_or in He. destruct He as [He|He]; apply in_map_iff in He;
      destruct He as (r & <- & Hr); unfold un_source; cbn [fst snd].
    - destruct (inc_out c r Hc Hr) as (T & _). rewrite T. reflexivity.
    - destruct (out_inc c r Hc Hr) as (T & _). rewrite T. reflexivity.
  Qed.

  (** In a debug build of a directed graph both views panic at the first edge. *)
  Section Debugged.
    Context (DIR : ag_directed (geo_ax G) = true) (DBG : m = Debug) (H : HeapOps Cell)
      (HH : HeapOK H) (start : Cell) (Hs : In start nodes) (Hn : spec_neighbors G start <> []).

    Lemma d_fault : exists it, edges_directed m g start Incoming = Ok it /\
      edges_next m g it = Fail FPanic.
    Proof using SO HB DIR DBG Hs Hn.
      destruct (sound_facts _ _ _ _ _ SO) as ((cell & RF) & RG & _).
      pose proof (built_rep RF _ _ _ HB) as HR.
      destruct (spec_neighbors G start) as [|b l] eqn:En; [congruence|].
      assert (Hb : In b (spec_neighbors G start)) by (rewrite En; left; auto).
      unfold spec_neighbors in Hb. apply in_flat_map in Hb. destruct Hb as (d & _ & Hb).
      destruct (geo_step G start d) as [c'|] eqn:Es; [|destruct Hb].
      eapply (edges_incoming_directed_debug RF RG); eauto.
    Qed.

    (** Whatever reads its edges from the first view, or from the second. *)
    Lemma first_fault : forall Ed It S (edges : Cell -> outcome It)
      (next : It -> outcome (option Ed * It)) it (body : S -> Ed -> outcome S) st,
      next it = Fail FPanic -> for_each next it body st = Fail FPanic.
    Proof using.
      clear. intros Ed It S edges next it body st Hn. unfold for_each.
      apply (loop_rounds _ 0); [|lia]. apply R_fail. cbn [fst]. rewrite Hn. reflexivity.
    Qed.

    Lemma u_fault : exists it, uedges start = Ok it /\ unext it = Fail FPanic.
    Proof using SO HB DIR DBG Hs Hn.
      destruct d_fault as (it & E1 & E2). destruct (r_out start Hs) as (i2 & E3 & _).
      exists (Some it, i2). split; [unfold un_edges; rewrite E1, E3; reflexivity|].
      unfold un_edges_next, chain_next, maybe_next. cbn [fst snd]. rewrite E2. reflexivity.
    Qed.

    Lemma dijkstra_fault : forall Ed It (vedges : Cell -> outcome It)
      (vnext : It -> outcome (option Ed * It)) vtarget cost goal,
      (exists it, vedges start = Ok it /\ vnext it = Fail FPanic) -> goal <> Some start ->
      Faults (dijkstra_round veqb H vedges vnext vtarget cost (vm_visit m (g_s g))
        (vm_is_visited m (g_s g)) goal) FPanic (dijkstra_init veqb H (visit_map g) start).
    Proof using SO HB HH Hs.
      intros Ed It vedges vnext vtarget cost goal (it & E1 & E2) Hg.
      destruct (sound_facts _ _ _ _ _ SO) as ((cell & RF) & _).
      pose proof (RepProofs.built_rep RF _ _ _ HB) as [Hgs _].
      destruct (vr_visited g nf ef HB cell RF (visit_map g) [] start (visit_map_rep RF g Hgs) Hs)
        as (b & V1 & V2).
      assert (b = false) as -> by (destruct b; auto; destruct V2 as [V2 _]; destruct (V2 eq_refl)).
      apply faults_now. cbv beta iota delta [dijkstra_round dijkstra_init d_heap d_scores d_visited].
      rewrite (pop_one Vec H HH start), V1. cbn [bind].
      assert (Eg : (if match goal with Some b => veqb b start | None => false end then true else false)
                   = false).
      { destruct goal as [b|]; auto. destruct (veqb b start) eqn:Eb; auto.
        apply veqb_eq in Eb. congruence. }
      destruct goal as [b|]; [destruct (veqb b start); [discriminate|]|];
        rewrite E1; cbn [bind]; rewrite first_fault; auto.
    Qed.
  End Debugged.

  Lemma some_neighbour : forall start l, In start nodes ->
    Drains (neighbors_next m g start) (neighbors g start) l -> l <> [] -> spec_neighbors G start <> [].
  Proof using SO HB.
    intros start l Hs HD Hl. destruct (walkable_facts _ _ _ _ _ _ _ (sound_walk _ _ _ _ _ SO) g nf ef HB)
      as (_ & NB & _). rewrite <- (Drains_det _ _ _ _ HD (NB start Hs)). exact Hl.
  Qed.

  Lemma c122_debug : ag_directed (geo_ax G) = true -> m = Debug -> forall H, HeapOK H ->
    forall cost start l, In start nodes -> Drains (neighbors_next m g start) (neighbors g start) l ->
    l <> [] -> forall goal, goal <> Some start ->
    Faults (dijkstra_round veqb H redges (edges_next m g) (rv_target source) cost
      (vm_visit m (g_s g)) (vm_is_visited m (g_s g)) goal) FPanic
      (dijkstra_init veqb H (visit_map g) start).
  Proof using SO HB.
    intros DIR DBG H HH cost start l Hs HD Hl goal Hg.
    pose proof (some_neighbour start l Hs HD Hl) as Hn. apply (dijkstra_fault H HH start Hs); auto.
    exact (d_fault DIR DBG start Hs Hn).
  Qed.

  Lemma c123_debug : ag_directed (geo_ax G) = true -> m = Debug -> forall H, HeapOK H ->
    forall cost start l, In start nodes -> Drains (neighbors_next m g start) (neighbors g start) l ->
    l <> [] -> forall goal, goal <> Some start ->
    Faults (dijkstra_round veqb H uedges unext (un_target source target) cost
      (vm_visit m (g_s g)) (vm_is_visited m (g_s g)) goal) FPanic
      (dijkstra_init veqb H (visit_map g) start).
  Proof using SO HB.
    intros DIR DBG H HH cost start l Hs HD Hl goal Hg.
    pose proof (some_neighbour start l Hs HD Hl) as Hn. apply (dijkstra_fault H HH start Hs); auto.
    exact (u_fault DIR DBG start Hs Hn).
  Qed.

  (** Steps can be taken back. *)
  Notation reached := (Reached (neighbors g) (neighbors_next m g) nodes).
  Lemma reached_cons : forall a b l, Drains (neighbors_next m g a) (neighbors g a) l -> In b l ->
    In b nodes -> forall n c, reached b n c -> reached a (S n) c.
  Proof using.
    clear. intros a b l HD Hb Hi n c HR. induction HR as [|n x c lx HR IH Hx Hc Hn].
    - eapply reached_step; eauto. constructor.
    - eapply reached_step; eauto.
  Qed.

  Lemma reached_back : forall a n c, In a nodes -> reached a n c -> reached c n a /\ In c nodes.
  Proof using SO HB.
    intros a n c Ha HR. destruct (sound_facts _ _ _ _ _ SO) as ((cell & RF) & RG & _).
    destruct (walkable_facts _ _ _ _ _ _ _ (sound_walk _ _ _ _ _ SO) g nf ef HB) as (_ & NB & _).
    induction HR as [|n b c l HR [IH Hb] HD Hc Hi]; [split; [constructor|auto]|]. split; auto.
    rewrite (Drains_det _ _ _ _ HD (NB b Hb)) in Hc. unfold spec_neighbors in Hc.
    apply in_flat_map in Hc. destruct Hc as (d & _ & Hc).
    destruct (geo_step G b d) as [c'|] eqn:Es; [|destruct Hc]. destruct Hc as [<-|[]].
    destruct (x_step_back RF RG b c' d Hb Es) as (d' & _ & Hs).
    eapply reached_cons; [exact (NB c' Hi)| |exact Hb|exact IH].
    unfold spec_neighbors. apply in_flat_map. exists d'.
    split; [apply (all_dirs_in (rf_axis _ _ _ _ RF))|]. rewrite Hs. left. auto.
  Qed.

  Lemma c122_bfs : forall start, In start nodes ->
    exists it l, bfs_new (vm_visit m (g_s g)) (visit_map g) start = Ok it /\
      Drains (bfs_next (rv_neighbors (neighbors_directed g)) (neighbors_next m g)
        (vm_visit m (g_s g))) it l /\
      hd_error l = Some start /\ NoDup l /\
      (forall c, In c l <-> In c nodes /\ exists n, reached c n start) /\
      forall l1 a l2 b l3 n, l = l1 ++ a :: l2 ++ b :: l3 -> reached b n start ->
        exists k, (k <= n)%nat /\ reached a k start.
  Proof using SO HB.
    intros start Hs. destruct (sound_facts _ _ _ _ _ SO) as ((cell & RF) & RG & _).
    destruct (walkable_facts _ _ _ _ _ _ _ (sound_walk _ _ _ _ _ SO) g nf ef HB)
      as (_ & NB & DEG & OFF & _). pose proof (RepProofs.built_rep RF _ _ _ HB) as [Hgs _].
    destruct (bfs_any (neighbors g) (neighbors_next m g) (vm_visit m (g_s g))
      (vm_is_visited m (g_s g)) cell_dec (geo_nodes G) (spec_neighbors G)
      (VMrep (s := s) (G := G) (cell := cell)) NB (fun c _ => DEG c) OFF
      (vr_visit g nf ef HB cell RF) (vr_visited g nf ef HB cell RF) (vr_ext cell) start Hs
      (visit_map g) (visit_map_rep RF g Hgs)) as (it & l & E1 & E2 & E3 & E4 & E5 & E6).
    exists it, l. split; auto. split; [exact E2|]. split; auto. split; auto. split.
    - intros c. rewrite E5. split.
      + intros (n & HR). destruct (reached_back _ _ _ Hs HR). split; eauto.
      + intros (Hc & n & HR). destruct (reached_back _ _ _ Hc HR). eauto.
    - intros l1 a l2 b l3 n El HR.
      assert (Hb : In b nodes).
      { assert (Hb : In b l). { rewrite El. apply in_or_app. right. right. apply in_or_app. right. left. auto. }
        apply E5 in Hb. destruct Hb as (n' & Hb). apply (reached_back _ _ _ Hs Hb). }
      destruct (reached_back _ _ _ Hb HR) as [HR' _].
      destruct (E6 l1 a l2 b l3 n El HR') as (k & Hk & HK). exists k. split; auto.
      apply (reached_back _ _ _ Hs HK).
  Qed.
End Lat.

(** ** Neighbours of the undirected view, on every shape *)

Lemma walk_dirs : forall A D m (s : Shape Cell A D) G, Walkable m s G ->
  Z.of_nat (length (ag_dirs (geo_ax G))) < 2 ^ 64.
Proof.
  intros A D m s G [STO|axes fwd opp cell step coord SC ->].
  - assert (H : (length (ag_dirs (geo_ax G)) <= 8)%nat); [|lia].
    destruct STO as [A D s G SUP|b w h F|b w h F|b w h F|k b w h F Hf|k b w h F Hf|k b w h F Hf
      |k b w h F Hf|w h F]; try (cbn; lia). eapply dirs_few; eauto.
  - exact (contract_dirs _ _ _ _ _ _ _ _ _ _ SC).
Qed.

Section Both.
  Context {A D N E : Type} {m : mode} {s : Shape Cell A D} {G : Geometry A D}
    (WA : Walkable m s G) (g : LatticeGraph Cell A D N E) (nf : Cell -> N) (ef : Cell -> A -> E)
    (HB : Built m s G g nf ef).
  Notation nodes := (geo_nodes G).
  Notation unb := (un_neighbors (neighbors_directed g)).
  Notation unbn := (un_neighbors_next (neighbors_next m g)).
  Notation reached := (Reached (neighbors g) (neighbors_next m g) nodes).

  Lemma c123_neighbors : forall c l, Drains (neighbors_next m g c) (neighbors g c) l ->
    Drains (unbn c) (unb c) (l ++ l).
  Proof using. clear. intros c l H. unfold un_neighbors_next. apply chain_drains; exact H. Qed.

  Lemma both_reached : forall a n c, In a nodes -> Reached unb unbn nodes a n c <-> reached a n c.
  Proof using WA HB.
    intros a n c Ha. destruct (walkable_facts _ _ _ _ _ _ _ WA g nf ef HB) as (_ & NB & _).
    split; intros HR.
    - assert (K : reached a n c /\ In c nodes); [|apply K].
      induction HR as [|n b c l HR [IH Hb] HD Hc Hi]; [split; [constructor|auto]|]. split; auto.
      rewrite (Drains_det _ _ _ _ HD (c123_neighbors _ _ (NB b Hb))) in Hc.
      eapply reached_step; eauto. apply in_app_iff in Hc. tauto.
    - assert (K : Reached unb unbn nodes a n c /\ In c nodes); [|apply K].
      induction HR as [|n b c l HR [IH Hb] HD Hc Hi]; [split; [constructor|auto]|]. split; auto.
      eapply reached_step; [exact IH|exact (c123_neighbors _ _ HD)|apply in_app_iff; auto|auto].
  Qed.

  Lemma both_few : forall c, Z.of_nat (length (spec_neighbors G c ++ spec_neighbors G c)) + 1 < 2 ^ 72.
  Proof using WA.
    clear - WA. intros c. rewrite app_length. pose proof (walk_dirs _ _ _ _ _ WA).
    pose proof (nbs_le_dirs _ _ G c). change (2 ^ 72) with 4722366482869645213696. lia.
  Qed.

  Lemma c123_bfs : forall start, In start nodes ->
    exists it l, bfs_new (vm_visit m (g_s g)) (visit_map g) start = Ok it /\
      Drains (bfs_next unb unbn (vm_visit m (g_s g))) it l /\
      hd_error l = Some start /\ NoDup l /\
      (forall c, In c l <-> exists n, reached start n c) /\
      forall l1 a l2 b l3 n, l = l1 ++ a :: l2 ++ b :: l3 -> reached start n b ->
        exists k, (k <= n)%nat /\ reached start k a.
  Proof using WA HB.
    intros start Hs. destruct (walkable_facts _ _ _ _ _ _ _ WA g nf ef HB)
      as ((cell & RF) & NB & DEG & OFF & _). pose proof (RepProofs.built_rep RF _ _ _ HB) as [Hgs _].
    destruct (bfs_any unb unbn (vm_visit m (g_s g))
      (vm_is_visited m (g_s g)) cell_dec (geo_nodes G) (fun c => spec_neighbors G c ++ spec_neighbors G c)
      (VMrep (s := s) (G := G) (cell := cell)) (fun c Hc => c123_neighbors _ _ (NB c Hc))
      (fun c _ => both_few c)
      (fun c x Hc Hx => OFF c x Hc (match in_app_or _ _ _ Hx with or_introl h | or_intror h => h end))
      (vr_visit g nf ef HB cell RF) (vr_visited g nf ef HB cell RF) (vr_ext cell) start Hs
      (visit_map g) (visit_map_rep RF g Hgs)) as (it & l & E1 & E2 & E3 & E4 & E5 & E6).
    exists it, l. split; auto. split; auto. split; auto. split; auto. split.
    - intros c. rewrite E5. split; intros (n & HR); exists n; apply (both_reached start n c Hs); auto.
    - intros l1 a l2 b l3 n El HR. apply (both_reached start n b Hs) in HR.
      destruct (E6 l1 a l2 b l3 n El HR) as (k & Hk & HK). exists k. split; auto.
      apply (both_reached start k a Hs). auto.
  Qed.

  Lemma c123_dfs : forall start, In start nodes ->
    exists l, Drains (dfs_next unb unbn (vm_visit m (g_s g)) (vm_is_visited m (g_s g)))
        (dfs_new (visit_map g) start) l /\
      hd_error l = Some start /\ NoDup l /\
      (forall c, In c l <-> exists n, reached start n c).
  Proof using WA HB.
    intros start Hs. destruct (walkable_facts _ _ _ _ _ _ _ WA g nf ef HB)
      as ((cell & RF) & NB & DEG & OFF & _). pose proof (RepProofs.built_rep RF _ _ _ HB) as [Hgs _].
    destruct (dfs_any unb unbn (vm_visit m (g_s g))
      (vm_is_visited m (g_s g)) cell_dec (geo_nodes G) (fun c => spec_neighbors G c ++ spec_neighbors G c)
      (VMrep (s := s) (G := G) (cell := cell)) (fun c Hc => c123_neighbors _ _ (NB c Hc))
      (fun c _ => both_few c)
      (fun c x Hc Hx => OFF c x Hc (match in_app_or _ _ _ Hx with or_introl h | or_intror h => h end))
      (vr_visit g nf ef HB cell RF) (vr_visited g nf ef HB cell RF) (vr_ext cell) start Hs
      (visit_map g) (visit_map_rep RF g Hgs)) as (l & E2 & E3 & E4 & E5 & _).
    exists l. split; auto. split; auto. split; auto.
    intros c. rewrite E5. split; intros (n & HR); exists n; apply (both_reached start n c Hs); auto.
  Qed.
End Both.
