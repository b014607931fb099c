(** * ClientsMain: colourings, cycles, paths and post-orders of [LatticeGraph] and of
    [SquareGraph]. *)

From Coq Require Import Permutation.
From Verif Require Import Machine Store Axes Shapes Lattice SquareGraph Traverse Astar Clients Spec
  SpecSquare Spec4 Spec5 Basics AxisProofs GeoProofs ShapeProofs StoreProofs GraphProofs RepProofs
  EdgeProofs VisitProofs Main1 Main2 DistProofs TraverseProofs AstarProofs SearchProofs SquareProofs
  SquareIter SquareMain SquareSearch AstarMain CountProofs HandshakeProofs Kruskal Spec2 Spec7 KruskalProofs KruskalRun
  KruskalMain Spec8 ClientsProofs ColourProofs.
From Coq Require Import ZifyBool ZifyNat.

(** ** [LatticeGraph] *)

Section Lat.
  Context {A D N E : Type} {m : mode} {s : Shape Cell A D} {G : Geometry A D}
    (SUP : Supported s G) (g : LatticeGraph Cell A D N E) (nf : Cell -> N) (ef : Cell -> A -> E)
    (HB : Built m s G g nf ef).
  Let STO := st_supported _ _ _ _ SUP.
  Let SMALL : Z.of_nat (length (geo_nodes G)) <= 2 ^ 63 := stored_few STO.

  Lemma lat_nb : forall c, In c (geo_nodes G) ->
    Drains (neighbors_next m g c) (neighbors g c) (spec_neighbors G c).
  Proof using SUP HB. intros c Hc. apply (c09 STO g nf ef c Outgoing HB Hc). Qed.

  Lemma lat_deg : forall c, In c (geo_nodes G) -> (length (spec_neighbors G c) <= 8)%nat.
  Proof using SUP.
    clear - SUP. intros c _. etransitivity; [|exact (dirs_few SUP)]. unfold spec_neighbors. clear.
    induction (ag_dirs (geo_ax G)) as [|d l IH]; cbn [flat_map length]; [lia|].
    rewrite app_length. destruct (geo_step G c d); cbn [length]; lia.
  Qed.

  Lemma lat_reach : forall start, In start (geo_nodes G) ->
    forall L, In start L -> incl L (geo_nodes G) ->
    (forall c c', In c L -> In c' (spec_neighbors G c) -> In c' L) ->
    forall c, In c (geo_nodes G) -> In c L.
  Proof using SUP.
    clear - SUP. intros start Hs.
    destruct (c63_every _ _ _ _ SUP) as (dist & HD).
    pose proof (distance_metric _ _ _ _ _ HD) as MT.
    intros L HL1 HL2 HL3.
    exact (reach_all _ _ _ (fun c => dist c start) (fun c => mt_pos MT c start)
      (fun c Hc H => mt_same MT c start Hc Hs H) (level_desc SUP dist MT start Hs) L HL1 HL2 HL3).
  Qed.

  Lemma proper_coloured : (exists col, Proper (geo_nodes G) (spec_neighbors G) col) <->
    exists col, Coloured G col.
  Proof using SUP.
    split; intros (col & H); exists col.
    - intros c d c' Hc Hd. apply H; auto. apply (in_spec_neighbors STO). eauto.
    - intros c c' Hc Hi. apply (in_spec_neighbors STO) in Hi. destruct Hi as (d & Hd). eauto.
  Qed.

  Lemma proper_two : (exists col, Proper (geo_nodes G) (spec_neighbors G) col) <->
    TwoColours (neighbors g) (neighbors_next m g) (geo_nodes G).
  Proof using SUP HB.
    split; intros (col & H); exists col.
    - intros c l c' Hc HD Hi. apply H; auto.
      rewrite (Drains_det _ _ _ _ (lat_nb c Hc) HD). auto.
    - intros c c' Hc Hi. eapply H; eauto. apply lat_nb; auto.
  Qed.

  Lemma c88_iff : forall start, In start (geo_nodes G) ->
    exists b, is_bipartite_undirected (neighbors g) (neighbors_next m g) (vm_visit m (g_s g))
        (vm_is_visited m (g_s g)) (visit_map g) start = Ok b /\
      (b = true <-> TwoColours (neighbors g) (neighbors_next m g) (geo_nodes G)).
  Proof using SUP HB SMALL.
    intros start Hs. refine_shape m SUP. pose proof (RepProofs.built_rep RF _ _ _ HB) as [Hgs _].
    destruct (bipartite_ok (neighbors g) (neighbors_next m g) (vm_visit m (g_s g))
      (vm_is_visited m (g_s g)) cell_dec (geo_nodes G) (spec_neighbors G)
      (VMrep (s := s) (G := G) (cell := cell)) lat_nb lat_deg (in_neighbours_board SUP)
      (vr_visit g nf ef HB cell RF) (vr_visited g nf ef HB cell RF) (vr_ext cell) start Hs
      (lat_reach start Hs) (visit_map g) (visit_map_rep RF g Hgs) ltac:(lia)) as (b & E1 & E2).
    exists b. split; auto. rewrite E2. apply proper_two.
  Qed.

  Lemma c88_boards : forall start x, In start (geo_nodes G) -> Chequered s G x ->
    is_bipartite_undirected (neighbors g) (neighbors_next m g) (vm_visit m (g_s g))
      (vm_is_visited m (g_s g)) (visit_map g) start = Ok x.
  Proof using SUP HB SMALL.
    intros start x Hs HC. destruct (c88_iff start Hs) as (b & -> & Hb). f_equal.
    apply eq_true_iff_eq. rewrite Hb, <- proper_two, proper_coloured.
    apply (chequered_ok _ _ _ _ SUP x HC). intros E0. rewrite E0 in Hs. destruct Hs.
  Qed.

  Lemma c92_path : forall from to, In from (geo_nodes G) ->
    forall eqb : Cell -> Cell -> bool, (forall a b, eqb a b = true <-> a = b) ->
    exists b, has_path_connecting (neighbors g) (neighbors_next m g) (vm_visit m (g_s g))
        (vm_is_visited m (g_s g)) eqb (visit_map g) from to = Ok b /\
      (b = true <-> In to (geo_nodes G)).
  Proof using SUP HB SMALL.
    intros from to Hf eqb Heq. destruct (c65 SUP g nf ef HB from Hf) as (l & L1 & L2 & _).
    rewrite (path_ok (neighbors g) (neighbors_next m g) (vm_visit m (g_s g))
      (vm_is_visited m (g_s g)) cell_dec from eqb Heq (visit_map g) l L1)
      by (rewrite (Permutation_length L2); lia).
    eexists. split; [reflexivity|]. destruct (in_dec cell_dec to l) as [H|H].
    - split; auto. intros _. eapply Permutation_in; eauto.
    - split; [discriminate|]. intros H'. exfalso. apply H.
      eapply Permutation_in; [symmetry; exact L2|auto].
  Qed.

  Lemma c92_post : forall start, In start (geo_nodes G) ->
    exists l, Drains (dpo_next (neighbors g) (neighbors_next m g) (vm_visit m (g_s g))
        (vm_is_visited m (g_s g))) (dpo_new (visit_map g) start) (l ++ [start]) /\
      Permutation (l ++ [start]) (geo_nodes G) /\
      forall l1 c l2, l = l1 ++ c :: l2 ->
        exists p ln, In p (l2 ++ [start]) /\ Drains (neighbors_next m g p) (neighbors g p) ln /\ In c ln.
  Proof using SUP HB SMALL.
    intros start Hs. refine_shape m SUP. pose proof (RepProofs.built_rep RF _ _ _ HB) as [Hgs _].
    destruct (dpo_all (neighbors g) (neighbors_next m g) (vm_visit m (g_s g))
      (vm_is_visited m (g_s g)) cell_dec (geo_nodes G) (spec_neighbors G)
      (VMrep (s := s) (G := G) (cell := cell)) lat_nb lat_deg (in_neighbours_board SUP)
      (vr_visit g nf ef HB cell RF) (vr_visited g nf ef HB cell RF) (vr_ext cell) start Hs
      (lat_reach start Hs) (visit_map g) (visit_map_rep RF g Hgs) SMALL)
      as (lx & E1 & E2 & E3 & (l & El) & E4). subst lx.
    exists l. split; auto. split; [apply NoDup_Permutation; auto; apply (nodes_nodup RF)|].
    intros l1 c l2 Eq.
    assert (Hc : c <> start).
    { intros ->. rewrite Eq, <- app_assoc in E2. cbn [app] in E2. apply NoDup_remove_2 in E2.
      apply E2. rewrite !in_app_iff. cbn [In]. auto. }
    destruct (E4 l1 c (l2 ++ [start])) as (p & P1 & P2); auto.
    { rewrite Eq, <- app_assoc. reflexivity. }
    exists p, (spec_neighbors G p). split; auto. split; auto. apply lat_nb. apply E3. rewrite Eq.
    rewrite <- app_assoc. apply in_or_app. right. right. auto.
  Qed.
End Lat.

(** Cycles need no more than stored edges whose ends are on the board. *)
Section LatCycles.
  Context {A D N E : Type} {m : mode} {s : Shape Cell A D} {G : Geometry A D}
    (STO : Stored s G) (g : LatticeGraph Cell A D N E) (nf : Cell -> N) (ef : Cell -> A -> E)
    (HB : Built m s G g nf ef)
    (CL : forall r, In r (spec_edge_references G ef) -> In (er_target r) (geo_nodes G)).
  Context {T : Type} (U : UFOps T) (UOK : UFOK U).
  Notation refs := (spec_edge_references G ef).
  Notation from := (fun e : EdgeReference Cell E D => Ok (er_source e)).
  Notation target := (fun e : EdgeReference Cell E D => Ok (er_target e)).

  Lemma c90_iff :
    exists b, is_cyclic_undirected U (node_bound m g) (to_index m g) (edge_references g)
        (edge_references_next m g) from target = Ok b /\
      (b = false <-> Forest (map (fun e => (er_source e, er_target e)) refs)).
  Proof.
    destruct (c05 STO g nf ef HB) as (B1 & B2 & B3 & B4).
    apply (cyclic_ok (Ed := EdgeReference Cell E D) U UOK)
      with (nodes := geo_nodes G) (l := refs) (src := er_source) (tgt := er_target); auto.
    - intros i c Hi. apply B4. auto.
    - apply (c15_drains STO g nf ef HB).
    - apply (kl_length (m := m) STO ef); auto.
    - apply (kl_ends ef CL).
  Qed.
End LatCycles.

Section LatTree.
  Context {A D N E : Type} {m : mode} {s : Shape Cell A D} {G : Geometry A D}
    (SUP : Supported s G) (g : LatticeGraph Cell A D N E) (nf : Cell -> N) (ef : Cell -> A -> E)
    (HB : Built m s G g nf ef).
  Context {T : Type} (U : UFOps T) (UOK : UFOK U).

  Lemma c90_count : geo_nodes G <> [] ->
    is_cyclic_undirected U (node_bound m g) (to_index m g) (edge_references g)
      (edge_references_next m g) (fun e => Ok (er_source e)) (fun e => Ok (er_target e)) =
    Ok (Nat.leb (length (geo_nodes G)) (length (spec_edge_references G ef))).
  Proof.
    intros HN. pose proof (st_supported _ _ _ _ SUP) as STO.
    destruct (c05 STO g nf ef HB) as (B1 & B2 & B3 & B4).
    apply (cyclic_connected (Ed := EdgeReference Cell E D) cell_dec U UOK)
      with (src := er_source) (tgt := er_target); auto.
    - intros i c Hi. apply B4. auto.
    - apply (c15_drains STO g nf ef HB).
    - apply (kl_length (m := m) STO ef); auto.
    - apply (kl_ends ef (sup_closed SUP E ef)).
    - apply (sup_linked SUP E ef).
  Qed.

  Lemma c90_boards : forall x, geo_nodes G <> [] -> Cyclic s G x ->
    is_cyclic_undirected U (node_bound m g) (to_index m g) (edge_references g)
      (edge_references_next m g) (fun e => Ok (er_source e)) (fun e => Ok (er_target e)) = Ok x.
  Proof.
    intros x HN HC. rewrite c90_count by auto. f_equal.
    assert (HL : Z.of_nat (length (geo_nodes G)) = sh_horizontal s * sh_vertical s /\
      1 <= sh_horizontal s /\ 1 <= sh_vertical s).
    { refine_shape m SUP. pose proof (rf_fits _ _ _ _ RF) as HF. unfold fits in HF.
      pose proof (nodes_length RF) as HX. destruct (geo_nodes G); [congruence|]. cbn [length] in *. nia. }
    destruct HL as (HL & Hw & Hh).
    assert (HT : exists n, EdgeTotal s G n /\ x = (sh_horizontal s * sh_vertical s <=? n)).
    { clear - HC Hw Hh. destruct HC; cbn [sh_horizontal sh_vertical square_shape square_dir_shape
        diagonal_shape diagonal_dir_shape hex_offset_r hex_offset_r_dir hex_offset_r_lew
        hex_axial_r hex_axial_r_dir hex_axial_q hex_axial_q_dir hex_axial_r_lew hex_axial_r_dir_lew
        hex_axial_q_lew hex_axial_q_dir_lew offset_shape axial_shape axial_lew_shape] in *;
        (eexists; split; [once constructor; assumption|]);
        unfold square_total, diagonal_total, hex_total, hex_loop_total;
        (destruct (Z.eq_dec w 1) as [->|]; [lia|]; destruct (Z.eq_dec h 1) as [->|]; [lia|];
         symmetry; rewrite ?(proj2 (Z.ltb_lt 1 w)), ?(proj2 (Z.ltb_lt 1 h)),
           ?(proj2 (Z.ltb_lt 1 (w * h))) by nia; apply Z.leb_le; nia). }
    destruct HT as (n & HT & ->).
    pose proof (count_total _ _ _ s G n ef HT Hw Hh) as HE. lia.
  Qed.
End LatTree.

Lemma cyclic_every : forall A D (s : Shape Cell A D) G, Supported s G -> exists b, Cyclic s G b.
Proof. intros A D s G H. destruct H; eexists; constructor; auto. Qed.


(** ** [SquareGraph] *)

Lemma sq_cyclic_count : forall S h v a b, 0 < h -> 0 < v -> Z.of_nat a = h * v ->
  Z.of_nat b = edge_columns S h * v + h * edge_rows S v -> Nat.leb a b = sq_cyclic S h v.
Proof.
  intros S h v a b Hh Hv HN HC. unfold sq_cyclic, edge_columns, edge_rows in *.
  apply eq_true_iff_eq. rewrite Nat.leb_le, !orb_true_iff, andb_true_iff, !Z.ltb_lt.
  assert (P1 : 0 <= (h - 1) * (v - 1)) by nia.
  assert (P2 : 1 < h -> 1 < v -> 0 <= (h - 2) * (v - 2)) by (intros; nia).
  destruct (loops_h S), (loops_v S); destruct (Z.eq_dec h 1) as [->|], (Z.eq_dec v 1) as [->|]; lia.
Qed.

Section Sq.
  Context {N E : Type} {ix : IxType} {S : LoopShape} {m : mode} {h v : Z}
    (SZ : sq_size S h v) (FX : sq_index_fits ix h v).
  Context (g : SquareGraph N E ix S) (nf : NodeIndex -> N) (ef : EdgeIndex -> E)
    (B : SqBuilt m h v g nf ef).
  Notation next := (fun _ : NodeIndex => sg_neighbors_next (ix := ix) (S := S) m).
  Notation nodes := (sq_nodes h v).
  Notation nbs := (sq_neighbours S h v).
  Notation VR := (SVM (h := h) (v := v)).

  Lemma sqc_nb : forall c, In c nodes -> Drains (next c) (sg_neighbors g c) (nbs c).
  Proof using SZ FX B. intros c Hc. apply (c44 SZ FX B c). apply (sq_in_nodes c). auto. Qed.
  Lemma sqc_deg : forall c, In c nodes -> (length (nbs c) <= 8)%nat.
  Proof.
    clear. intros c _. unfold sq_neighbours, sq_directions. cbn [flat_map]. rewrite !app_length.
    repeat match goal with |- context [sq_neighbour S h v c ?d] =>
      destruct (sq_neighbour S h v c d) end; cbn [length]; lia.
  Qed.
  Lemma sqc_in : forall c c', In c nodes -> In c' (nbs c) -> In c' nodes.
  Proof.
    clear. intros c c' Hc H. apply sq_in_nodes in Hc. apply in_neighbours in H.
    destruct H as (d & Hd). apply sq_in_nodes. exact (neighbour_on_board _ _ _ _ _ Hc Hd).
  Qed.
  Lemma sqc_reach : forall start, In start nodes -> forall L, In start L -> incl L nodes ->
    (forall c c', In c L -> In c' (nbs c) -> In c' L) -> forall c, In c nodes -> In c L.
  Proof.
    clear. intros start Hs0 L HL1 HL2 HL3. pose proof (proj1 (sq_in_nodes start) Hs0) as Hs.
    set (f := fun c => Z.max 0 (sq_distance S h v c start)).
    assert (Hf : forall c, In c nodes -> f c = sq_distance S h v c start).
    { intros c Hc. apply sq_in_nodes in Hc. pose proof (dist_pos (S := S) c start Hc Hs). unfold f. lia. }
    refine (reach_all nodes nbs start f _ _ _ L HL1 HL2 HL3).
    - intros c. unfold f. lia.
    - intros c Hc H. rewrite Hf in H by auto. apply sq_in_nodes in Hc. eapply dist_same; eauto.
    - intros c Hc H. rewrite (Hf c Hc) in *. pose proof (proj1 (sq_in_nodes c) Hc) as Hob.
      destruct (dist_desc c start Hob Hs H) as (d & p & Hd & Hp). exists p.
      pose proof (neighbour_on_board _ _ _ _ _ Hob Hd) as Hpb.
      assert (Hpi : In p nodes) by (apply sq_in_nodes; auto).
      split; auto. rewrite (Hf p Hpi). split; auto.
      destruct (neighbour_back c d p Hob Hd) as (d' & Hd'). apply in_neighbours. eauto.
  Qed.

  Lemma sqc_small : Z.of_nat (length nodes) < 2 ^ 72.
  Proof using SZ.
    clear - SZ. rewrite (sq_nodes_length SZ). destruct SZ as (H1 & H2 & H3).
    destruct (loops_v S); nia.
  Qed.

  Lemma sq_proper : (exists col, Proper nodes nbs col) <->
    exists col : NodeIndex -> bool, forall a d t, on_board h v a ->
      sq_neighbour S h v a d = Some t -> col a <> col t.
  Proof.
    clear. split; intros (col & H); exists col.
    - intros a d t Ha Hd. apply H; [apply sq_in_nodes; auto|]. apply in_neighbours. eauto.
    - intros c c' Hc Hi. apply in_neighbours in Hi. destruct Hi as (d & Hd).
      apply sq_in_nodes in Hc. eauto.
  Qed.

  Lemma sq_proper_two : (exists col, Proper nodes nbs col) <->
    TwoColours (sg_neighbors g) next nodes.
  Proof using SZ FX B.
    split; intros (col & H); exists col.
    - intros c l c' Hc HD Hi. apply H; auto.
      rewrite (Drains_det _ _ _ _ (sqc_nb c Hc) HD). auto.
    - intros c c' Hc Hi. eapply H; eauto. apply sqc_nb; auto.
  Qed.

  Lemma c89 : forall start, on_board h v start ->
    is_bipartite_undirected (sg_neighbors g) next svm_visit svm_is_visited (sg_visit_map g) start
      = Ok (sq_chequered S h v) /\
    (sq_chequered S h v = true <-> TwoColours (sg_neighbors g) next nodes).
  Proof using SZ FX B.
    intros start Hs.
    assert (Hs0 : In start nodes) by (apply sq_in_nodes; auto).
    assert (HQ : sq_chequered S h v = true <-> TwoColours (sg_neighbors g) next nodes).
    { rewrite <- sq_proper_two, sq_proper. symmetry. destruct Hs. apply sq_chequered_ok; lia. }
    split; auto.
    destruct (bipartite_ok (sg_neighbors g) next svm_visit svm_is_visited cell_dec nodes nbs VR
      sqc_nb sqc_deg sqc_in (svr_visit (g := g)) (svr_visited (g := g)) svr_ext start Hs0
      (sqc_reach start Hs0) (sg_visit_map g) (svm_fresh SZ B) sqc_small) as (b & -> & Hb).
    f_equal. apply eq_true_iff_eq. rewrite HQ, Hb. apply sq_proper_two.
  Qed.

  Lemma c93_path : forall from to, on_board h v from ->
    forall eqb : NodeIndex -> NodeIndex -> bool, (forall a b, eqb a b = true <-> a = b) ->
    exists b, has_path_connecting (sg_neighbors g) next svm_visit svm_is_visited eqb
        (sg_visit_map g) from to = Ok b /\ (b = true <-> on_board h v to).
  Proof using SZ FX B.
    intros from to Hf eqb Heq. destruct (c66 SZ FX B from Hf) as (_ & l & L1 & L2 & _).
    rewrite (path_ok (sg_neighbors g) next svm_visit svm_is_visited cell_dec from eqb Heq
      (sg_visit_map g) l L1) by (rewrite (Permutation_length L2); pose proof (sq_nodes_few SZ); lia).
    eexists. split; [reflexivity|]. rewrite <- sq_in_nodes.
    match goal with |- (if ?x then _ else _) = _ <-> _ => destruct x as [H|H] end.
    - split; auto. intros _. exact (Permutation_in _ L2 H).
    - split; [discriminate|]. intros H'. exfalso. apply H.
      eapply Permutation_in; [symmetry; exact L2|auto].
  Qed.

  Lemma c93_post : forall start, on_board h v start ->
    exists l, Drains (dpo_next (sg_neighbors g) next svm_visit svm_is_visited)
        (dpo_new (sg_visit_map g) start) (l ++ [start]) /\
      Permutation (l ++ [start]) nodes /\
      forall l1 c l2, l = l1 ++ c :: l2 ->
        exists p ln, In p (l2 ++ [start]) /\ Drains (next p) (sg_neighbors g p) ln /\ In c ln.
  Proof using SZ FX B.
    intros start Hs. assert (Hs0 : In start nodes) by (apply sq_in_nodes; auto).
    destruct (dpo_all (sg_neighbors g) next svm_visit svm_is_visited cell_dec nodes nbs VR
      sqc_nb sqc_deg sqc_in (svr_visit (g := g)) (svr_visited (g := g)) svr_ext start Hs0
      (sqc_reach start Hs0) (sg_visit_map g) (svm_fresh SZ B) (sq_nodes_few SZ))
      as (lx & E1 & E2 & E3 & (l & El) & E4). subst lx.
    exists l. split; auto. split; [apply NoDup_Permutation; auto; apply sq_nodes_nodup|].
    intros l1 c l2 Eq.
    assert (Hc : c <> start).
    { intros ->. rewrite Eq, <- app_assoc in E2. cbn [app] in E2. apply NoDup_remove_2 in E2.
      apply E2. rewrite !in_app_iff. cbn [In]. auto. }
    destruct (E4 l1 c (l2 ++ [start])) as (p & P1 & P2); auto.
    { rewrite Eq, <- app_assoc. reflexivity. }
    exists p, (nbs p). split; auto. split; auto. apply sqc_nb. apply E3. rewrite Eq.
    rewrite <- app_assoc. apply in_or_app. right. right. auto.
  Qed.

  Section UF.
  Context {T : Type} (U : UFOps T) (UOK : UFOK U).
  Notation from := (sr_source (ix := ix) (S := S) (E := E) m).
  Notation target := (sr_target (ix := ix) (S := S) (E := E) m).
  Notation view_ends := (fun x : EdgeView E => fst (plain_view x)).
  Notation all := (sq_all_edges S h v ef).

  Lemma c91 :
    exists b, is_cyclic_undirected U (Ok (sg_node_bound g)) (sg_to_index m g)
        (sg_edge_references g) (sg_edge_references_next m g) from target = Ok b /\
      (b = false <-> Forest (map view_ends all)) /\
      (0 < h -> 0 < v -> b = sq_cyclic S h v).
  Proof.
    destruct (c46 SZ FX B) as (l & L1 & L2). destruct (ks_views ef l L2) as (V1 & V2).
    destruct (c43_order SZ B) as (O1 & O2 & O3).
    assert (LL : length l = length all).
    { apply (f_equal (@length _)) in L2. rewrite !map_length in L2. auto. }
    assert (EV : map (fun e => (sq_src (ix := ix) (S := S) (m := m) e, sq_tgt (ix := ix) (S := S) (m := m) e)) l
      = map view_ends all).
    { apply (f_equal (map fst)) in V1. rewrite !map_map in V1. cbn [fst] in V1. auto. }
    destruct (cyclic_ok (Ed := SqEdgeReference E) U UOK (Ok (sg_node_bound g))
      (sg_to_index m g) (sg_edge_references g) (sg_edge_references_next m g) from target
      nodes l (sq_src (ix := ix) (S := S) (m := m)) (sq_tgt (ix := ix) (S := S) (m := m)))
      as (b & E1 & E2); auto.
    - apply (ks_bound SZ FX g nf ef B).
    - rewrite LL. apply (ks_length SZ).
    - intros e He. apply V2; auto.
    - intros e He. apply V2; auto.
    - intros e He. eapply (ks_ends ef). apply V2; auto.
    - exists b. split; auto. rewrite EV in E2. split; auto. intros Hh Hv.
      rewrite (cyclic_connected (Ed := SqEdgeReference E) cell_dec U UOK)
        with (nodes := nodes) (l := l) (src := sq_src (ix := ix) (S := S) (m := m))
          (tgt := sq_tgt (ix := ix) (S := S) (m := m)) in E1; auto.
      + injection E1 as <-. rewrite LL.
        exact (sq_cyclic_count S h v _ _ Hh Hv (sq_nodes_length SZ) (c46_count (S := S) (ef := ef) SZ)).
      + apply (ks_bound SZ FX g nf ef B).
      + rewrite LL. apply (ks_length SZ).
      + intros e He. apply V2; auto.
      + intros e He. apply V2; auto.
      + intros e He. eapply (ks_ends ef). apply V2; auto.
      + intros a b' Ha Hb. apply sq_in_nodes in Ha, Hb.
        match goal with |- Linked ?es _ _ => replace es with (map view_ends all) by exact (eq_sym EV) end.
        apply (ks_linked (m := m) (ix := ix) SZ FX ef a b' Ha Hb).
      + intros En. assert (Hi : In (0, 0) nodes) by (apply sq_in_nodes; split; cbn; lia).
        rewrite En in Hi. destruct Hi.
  Qed.
  End UF.
End Sq.
