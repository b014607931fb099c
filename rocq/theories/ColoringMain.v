(** * ColoringMain: [dsatur_coloring] on the two graphs (C139, C140). *)

From Verif Require Import Machine Store Axes Shapes Lattice SquareGraph Traverse Astar Spec SpecSquare
  Spec4 Spec11 Spec19 Spec21 Spec25 Basics AxisProofs GeoProofs ShapeProofs StoreProofs GraphProofs RepProofs
  EdgeProofs VisitProofs Main1 TraverseProofs AnySearch AstarProofs SearchProofs SquareProofs SquareIter
  SquareMain SquareQuirks SquareSearch AnySearchMain ClientsMain CustomProofs CustomMain FilteredProofs FilteredMain
  BellmanMain KShortestMain CliquesMain Spec8 Coloring Spec31 ColoringProofs.
From Coq Require Import ZifyBool ZifyNat.

(** What is counted fits. *)
Lemma degree_ok : forall C Ed EIt m (edges : C -> outcome EIt) (edges_next : EIt -> outcome (option Ed * EIt)) c it l,
  edges c = Ok it -> Drains edges_next it l -> Z.of_nat (length l) < 2 ^ 64 ->
  exists d, degree m edges edges_next c = Ok d.
Proof.
  intros C Ed EIt m edges edges_next c it l E HD HL. change (2 ^ 64) with 18446744073709551616 in HL.
  unfold degree. rewrite E. cbn [bind].
  rewrite (for_each_exact _ _ _ _ _ _ _ _ HD) by (change (2 ^ 72) with 4722366482869645213696; lia).
  assert (K : forall n, 0 <= n -> n + Z.of_nat (length l) < 18446744073709551616 ->
    exists d, fold_outcome (fun k (_ : Ed) => usize_add m k 1) l n = Ok d).
  { clear. induction l as [|x l IH]; intros n Hn HL; cbn [fold_outcome length] in *; [eauto|].
    rewrite usize_add_ok by (rewrite ?USIZE_val; lia). cbn [bind]. apply IH; lia. }
  apply K; lia.
Qed.

Section Join.
  Context {C : Type} (J J' : C -> C -> Prop) (nodes : list C)
    (HJ : forall a b, In a nodes -> J a b <-> J' a b).

  Lemma proper_iff : forall color k, Proper_colours J nodes color k <-> Proper_colours J' nodes color k.
  Proof.
    intros color k. unfold Proper_colours.
    split; intros [H1 H2]; (split; [exact H1|]); intros a b Ha Hb Hne Hab; apply H2; auto; apply HJ; auto.
  Qed.

  Lemma first_iff : forall color, First_fit J nodes color <-> First_fit J' nodes color.
  Proof.
    intros color. unfold First_fit.
    split; intros H c z Hc Hz; destruct (H c z Hc Hz) as (b & B1 & B2 & B3); exists b; split; auto; split; auto;
      apply HJ; auto.
  Qed.
End Join.

(** Two colours say what a boolean says. *)
Lemma proper_bool : forall C (J : C -> C -> Prop) nodes color, Proper_colours J nodes color 2 ->
  forall a b, In a nodes -> In b nodes -> a <> b -> J a b -> (color a =? 0) <> (color b =? 0).
Proof.
  intros C J nodes color [H1 H2] a b Ha Hb Hne Hab K.
  pose proof (H1 a Ha). pose proof (H1 b Hb). pose proof (H2 a b Ha Hb Hne Hab). lia.
Qed.

Section Lat.
  Context {A D N E : Type} {m : mode} {s : Shape Cell A D} {G : Geometry A D}
    (SO : Sound m s G) (FEW : (length (ag_dirs (geo_ax G)) <= 8)%nat) (g : LatticeGraph Cell A D N E) (nf : Cell -> N) (ef : Cell -> A -> E)
    (HB : Built m s G g nf ef) (H : MaxHeap Cell) (eqb : Cell -> Cell -> bool)
    (HH : MaxHeapOK H) (Heqb : forall a b, eqb a b = true <-> a = b).
  Notation nodes := (geo_nodes G).
  Notation run := (dsatur_coloring m H eqb (node_identifiers g) (node_indices_next m (g_s g)) (neighbors g)
    (neighbors_next m g) (edges m g) (edges_next m g) (node_bound m g) (to_index m g) (visit_map g)
    (vm_visit m (g_s g)) (vm_is_visited m (g_s g))).

  Lemma c139_few : forall c, (length (spec_neighbors G c) <= 8)%nat.
  Proof using FEW.
    clear - FEW. intros c. etransitivity; [|exact FEW]. unfold spec_neighbors. clear.
    induction (ag_dirs (geo_ax G)) as [|d l IH]; cbn [flat_map length]; [lia|].
    rewrite app_length. destruct (geo_step G c d); cbn [length]; lia.
  Qed.

  Lemma c139_run : exists r color, run = Ok r /\
    (forall c, In c nodes -> fst r c = Some (color c)) /\
    (forall c, ~ In c nodes -> fst r c = None) /\
    Proper_colours (Neighbor m g) nodes color (snd r) /\
    First_fit (Neighbor m g) nodes color /\
    (nodes <> [] -> Last_used nodes color (snd r)) /\
    1 <= snd r <= 9 /\ (nodes = [] -> snd r = 1) /\
    ((forall start L, In start nodes -> In start L -> incl L nodes ->
         (forall a b, In a L -> In b (spec_neighbors G a) -> In b L) -> forall c, In c nodes -> In c L) ->
     forall f : Cell -> bool, (forall a b, In a nodes -> In b (spec_neighbors G a) -> a <> b -> f a <> f b) ->
     snd r <= 2).
  Proof using SO FEW HB HH Heqb.
    destruct (sound_facts _ _ _ _ _ SO) as ((cell & RF) & RG & DEG).
    destruct (x_c05 RF RG g nf ef HB) as (C1 & _ & C2 & C3). pose proof (RepProofs.built_rep RF _ _ _ HB) as [Hgs _].
    set (ix := fun c => match to_index m g c with Ok z => Z.to_nat z | Fail _ => O end).
    assert (HX : forall c, In c nodes -> exists i, nth_error nodes i = Some c /\
      to_index m g c = Ok (Z.of_nat i) /\ ix c = i).
    { intros c Hc. destruct (In_nth_error _ _ Hc) as (i & Hi). exists i. split; auto.
      destruct (C3 i c Hi) as [T _]. split; auto. unfold ix. rewrite T. apply Nat2Z.id. }
    destruct (coloring_ok m H eqb (node_identifiers g) (node_indices_next m (g_s g)) (neighbors g)
      (neighbors_next m g) (edges m g) (edges_next m g) (node_bound m g) (to_index m g) (visit_map g)
      (vm_visit m (g_s g)) (vm_is_visited m (g_s g)) cell_dec nodes (spec_neighbors G) ix
      (VMrep (s := s) (G := G) (cell := cell)) HH Heqb)
      as (r & color & E1 & E2 & E3 & E4 & E5 & E6).
    - exact (x_c06 RF RG g nf ef HB).
    - exact C2.
    - intros c Hc. exact (proj1 (x_c09 RF RG g nf ef c Outgoing HB Hc)).
    - intros c _. apply c139_few.
    - intros a b Ha Hb. apply (x_in_spec_neighbors RF RG) in Hb. destruct Hb as (d & Hd). exact (rg_in RG _ _ _ Hd).
    - intros a b Ha Hb. apply (x_in_spec_neighbors RF RG) in Hb. destruct Hb as (d & Hd).
      destruct (x_step_back RF RG a b d Ha Hd) as (d' & _ & H'). apply (x_in_spec_neighbors RF RG). eauto.
    - intros c Hc. destruct (x_c12 RF RG g nf ef c HB Hc) as (it & I1 & I2).
      eapply degree_ok; eauto. pose proof (x_spec_edges_targets RF RG ef c Hc) as K. apply (f_equal (@length _)) in K.
      rewrite map_length in K. rewrite K. pose proof (c139_few c). change (2 ^ 64) with 18446744073709551616. lia.
    - exact C1.
    - intros c Hc. destruct (HX c Hc) as (i & I1 & I2 & I3). rewrite I2, I3. split; auto.
      apply nth_error_Some. congruence.
    - intros a b Ha Hb Hab. destruct (HX a Ha) as (i & I1 & _ & I3).
      destruct (HX b Hb) as (j & J1 & _ & J3). congruence.
    - clear - RF. rewrite (rf_nodes _ _ _ _ RF).
      pose proof (fits_bounds _ _ (rf_fits _ _ _ _ RF)) as B. rewrite IMAX1_val in B.
      rewrite board_length by lia. change (2 ^ 64) with 18446744073709551616. lia.
    - exact (vr_visit g nf ef HB cell RF).
    - exact (vr_visited g nf ef HB cell RF).
    - exact (visit_map_rep RF g Hgs).
    - exists r, color. pose proof (q_neighbor SO g nf ef HB) as Q. split; auto. split; auto. split; auto.
      split; [eapply proper_iff; [|exact E4]; intros a b Ha; symmetry; apply Q; auto|].
      split; [eapply first_iff; [|exact E5]; intros a b Ha; symmetry; apply Q; auto|]. exact E6.
  Qed.
End Lat.

Lemma c139_colours : forall A D N E (m : mode) (s : Shape Cell A D) (G : Geometry A D), Sound m s G ->
  (length (ag_dirs (geo_ax G)) <= 8)%nat ->
  forall (g : LatticeGraph Cell A D N E) nf ef, Built m s G g nf ef ->
  forall (H : MaxHeap Cell) eqb, MaxHeapOK H -> (forall a b, eqb a b = true <-> a = b) ->
  exists r color,
    dsatur_coloring m H eqb (node_identifiers g) (node_indices_next m (g_s g)) (neighbors g)
      (neighbors_next m g) (edges m g) (edges_next m g) (node_bound m g) (to_index m g) (visit_map g)
      (vm_visit m (g_s g)) (vm_is_visited m (g_s g)) = Ok r /\
    (forall c, In c (geo_nodes G) -> fst r c = Some (color c)) /\
    (forall c, ~ In c (geo_nodes G) -> fst r c = None) /\
    Proper_colours (Neighbor m g) (geo_nodes G) color (snd r) /\
    First_fit (Neighbor m g) (geo_nodes G) color /\
    (geo_nodes G <> [] -> Last_used (geo_nodes G) color (snd r)) /\
    (geo_nodes G = [] -> snd r = 1).
Proof.
  intros A D N E m s G SO FEW g nf ef HB H eqb HH Heqb.
  destruct (c139_run SO FEW g nf ef HB H eqb HH Heqb) as (r & color & E1 & E2 & E3 & E4 & E5 & E6 & E7 & E8 & _).
  exists r, color. auto 10.
Qed.

Lemma c139_two : forall A D N E (m : mode) (s : Shape Cell A D) (G : Geometry A D), Supported s G ->
  forall (g : LatticeGraph Cell A D N E) nf ef, Built m s G g nf ef ->
  forall (H : MaxHeap Cell) eqb, MaxHeapOK H -> (forall a b, eqb a b = true <-> a = b) ->
  forall r,
  dsatur_coloring m H eqb (node_identifiers g) (node_indices_next m (g_s g)) (neighbors g)
    (neighbors_next m g) (edges m g) (edges_next m g) (node_bound m g) (to_index m g) (visit_map g)
    (vm_visit m (g_s g)) (vm_is_visited m (g_s g)) = Ok r ->
  (snd r <= 2 <-> exists color, Proper_colours (Neighbor m g) (geo_nodes G) color 2).
Proof.
  intros A D N E m s G SUP g nf ef HB H eqb HH Heqb r HR.
  pose proof (sound_crate m s G SUP) as SO. pose proof (dirs_few SUP) as FEW.
  destruct (c139_run SO FEW g nf ef HB H eqb HH Heqb) as (r0 & color & E1 & E2 & E3 & E4 & E5 & E6 & E7 & E8 & E9).
  assert (r0 = r) by congruence. subst r0. split.
  - intros K. exists color. destruct E4 as [P1 P2]. split; auto. intros c Hc. specialize (P1 c Hc). lia.
  - intros (col & HP).
    apply E9 with (f := fun c => col c =? 0).
    + intros start L Hs. apply (lat_reach SUP start Hs).
    + intros a b Ha Hb Hne. apply (proper_bool _ _ _ _ HP); auto.
      * destruct (sound_facts _ _ _ _ _ SO) as ((cell & RF) & RG & DEG).
        apply (x_in_spec_neighbors RF RG) in Hb. destruct Hb as (d & Hd). exact (rg_in RG _ _ _ Hd).
      * apply (q_neighbor SO g nf ef HB); auto.
Qed.

Lemma two_proper : forall C It (nb : C -> It) nb_next (J : C -> C -> Prop) nodes,
  (forall a b, In a nodes -> J a b -> exists l, Drains (nb_next a) (nb a) l /\ In b l) ->
  TwoColours nb nb_next nodes -> exists color, Proper_colours J nodes color 2.
Proof.
  intros C It nb nb_next J nodes HJ (f & Hf). exists (fun c => if f c then 1 else 0). split.
  - intros c _. destruct (f c); lia.
  - intros a b Ha Hb _ Hab K. destruct (HJ a b Ha Hab) as (l & L1 & L2). specialize (Hf a l b Ha L1 L2).
    destruct (f a), (f b); congruence.
Qed.

Lemma c139_boards : forall A D N E (m : mode) (s : Shape Cell A D) (G : Geometry A D), Supported s G ->
  Chequered s G true ->
  forall (g : LatticeGraph Cell A D N E) nf ef, Built m s G g nf ef ->
  forall (H : MaxHeap Cell) eqb, MaxHeapOK H -> (forall a b, eqb a b = true <-> a = b) ->
  forall r,
  dsatur_coloring m H eqb (node_identifiers g) (node_indices_next m (g_s g)) (neighbors g)
    (neighbors_next m g) (edges m g) (edges_next m g) (node_bound m g) (to_index m g) (visit_map g)
    (vm_visit m (g_s g)) (vm_is_visited m (g_s g)) = Ok r ->
  snd r <= 2.
Proof.
  intros A D N E m s G SUP CH g nf ef HB H eqb HH Heqb r HR.
  apply (c139_two _ _ _ _ _ _ _ SUP g nf ef HB H eqb HH Heqb r HR).
  destruct (geo_nodes G) as [|start l] eqn:En.
  { exists (fun _ => 0). split; [intros c []|intros a b []]. }
  rewrite <- En. assert (Hs : In start (geo_nodes G)) by (rewrite En; left; auto).
  destruct (c88_iff SUP g nf ef HB start Hs) as (b & B1 & B2).
  rewrite (c88_boards SUP g nf ef HB start true Hs CH) in B1. injection B1 as <-.
  eapply two_proper; [|apply B2; reflexivity].
  intros a c Ha Hac. apply (q_neighbor (sound_crate m s G SUP) g nf ef HB) in Hac; auto.
  exists (spec_neighbors G a). split; auto. apply (lat_nb SUP g nf ef HB a Ha).
Qed.

Section Sq.
  Context {N E : Type} {ix : IxType} {S : LoopShape} {m : mode} {h v : Z}
    (SZ : sq_size S h v) (FX : sq_index_fits ix h v).
  Context (g : SquareGraph N E ix S) (nf : NodeIndex -> N) (ef : EdgeIndex -> E)
    (B : SqBuilt m h v g nf ef).
  Notation next := (fun _ : NodeIndex => sg_neighbors_next (ix := ix) (S := S) m).
  Notation nodes := (sq_nodes h v).
  Notation J := (fun a b => exists l, Drains (next a) (sg_neighbors g a) l /\ In b l).

  Lemma c140_joined : forall a b, In a nodes -> In b (sq_neighbours S h v a) <-> J a b.
  Proof using SZ FX B.
    intros a b Ha. pose proof (sqc_nb SZ FX g nf ef B a Ha) as HD. split.
    - intros H. exists (sq_neighbours S h v a). auto.
    - intros (l & HL & Hb). rewrite (Drains_det _ _ _ _ HD HL). auto.
  Qed.

  (** A node has four edges at most, wherever it is. *)
  Lemma edges_step : forall it x it', 0 <= se_state it ->
    sg_edges_next m g it = Ok (Some x, it') -> se_state it < se_state it' <= 4.
  Proof using.
    clear. unfold sg_edges_next. intros it x it' H0 Hn. apply loop_returns in Hn.
    remember (Some x, it') as y eqn:Ey. revert H0. induction Hn as [it r Hb|it it1 y Hb Hn IH]; intros H0.
    - subst r. cbn beta in Hb. destruct (Z.leb_spec 4 (se_state it)) as [|Hlt]; [discriminate|].
      destruct (edge_at m g it) as [o|]; [|discriminate]. cbn [bind] in Hb.
      rewrite usize_add_ok in Hb by (rewrite ?USIZE_val; lia). cbn [bind] in Hb.
      destruct o; [|discriminate]. injection Hb as -> <-. cbn [se_state]. lia.
    - cbn beta in Hb. destruct (Z.leb_spec 4 (se_state it)) as [|Hlt]; [discriminate|].
      destruct (edge_at m g it) as [o|]; [|discriminate]. cbn [bind] in Hb.
      rewrite usize_add_ok in Hb by (rewrite ?USIZE_val; lia). cbn [bind] in Hb.
      destruct o; [discriminate|]. injection Hb as <-. cbn [se_state] in IH. specialize (IH Ey). lia.
  Qed.

  Lemma edges_few : forall it l it', 0 <= se_state it -> Consumed (sg_edges_next m g) it l it' ->
    Z.of_nat (length l) <= 4.
  Proof using.
    clear. intros it l it' H0 HC. destruct l as [|x0 l0] eqn:El; [cbn; lia|]. rewrite <- El in *. clear El.
    enough (K : l = [] \/ Z.of_nat (length l) <= 4 - se_state it) by (destruct K as [->|K]; cbn [length] in *; lia).
    clear x0 l0. induction HC as [it|it x it1 l it2 Hn HC IH]; [left; auto|]. right.
    pose proof (edges_step _ _ _ H0 Hn) as K. cbn [length]. destruct IH as [->|IH]; cbn [length] in *; lia.
  Qed.

  (** Without rows: the edges of a node that is not there. *)
  Lemma c140_no_rows_ : v = 0 -> 2 <= h -> forall (H : MaxHeap NodeIndex) eqb,
    dsatur_coloring m H eqb (sg_node_identifiers g) (sg_node_indices_next (ix := ix) m)
      (sg_neighbors g) next (fun n => Ok (sg_edges g n)) (sg_edges_next m g) (Ok (sg_node_bound g))
      (sg_to_index m g) (sg_visit_map g) svm_visit svm_is_visited = Fail (out_of_bounds m).
  Proof using SZ FX B.
    intros Ev Hh H eqb. pose proof (c43_no_rows SZ FX B Ev) as HD. unfold dsatur_coloring. cbn [bind].
    rewrite (for_each_exact _ _ _ _ _ _ _ _ HD).
    2:{ rewrite map_length. unfold zrange. rewrite map_length, seq_length.
        destruct SZ as (S1 & S2 & S3). destruct (loops_v S); lia. }
    unfold zrange. destruct (Z.to_nat (h - 1)) as [|k] eqn:Ek; [lia|].
    cbn [seq map fold_outcome]. set (n0 := (1 + Z.of_nat 0, 0)).
    assert (Hi : is_index ix n0).
    { destruct FX as [F1 F2]. unfold is_index, n0. cbn [fst snd]. lia. }
    assert (Ho : ~ on_board h v n0) by (unfold on_board, n0; cbn [fst snd]; lia).
    destruct (c61_all SZ B n0 Hi Ho) as (l & it & HC & HF).
    assert (HL : Z.of_nat (length l) <= 4) by (eapply edges_few; [|exact HC]; cbn; lia).
    unfold degree at 1. cbn [bind].
    assert (K : for_each (sg_edges_next m g) (sg_edges g n0) (fun n _ => usize_add m n 1) 0 = Fail (out_of_bounds m)).
    { unfold for_each.
      assert (KR : forall it0 a, Consumed (sg_edges_next m g) it0 l it -> 0 <= a <= 4 ->
        Rounds (fun st : SqEdges * Z => let! (x, it') := sg_edges_next m g (fst st) in
          match x with None => Ok (inr (snd st)) | Some _ => let! s' := usize_add m (snd st) 1 in Ok (inl (it', s')) end)
          (length l) (it0, a) (Fail (out_of_bounds m)));
        [|apply (loop_rounds _ _ _ _ (KR _ 0 HC ltac:(lia))); lia].
      clear - HF HL. assert (HA : forall it0 a, Consumed (sg_edges_next m g) it0 l it -> 0 <= a <= 8 - Z.of_nat (length l) ->
        Rounds (fun st : SqEdges * Z => let! (x, it') := sg_edges_next m g (fst st) in
          match x with None => Ok (inr (snd st)) | Some _ => let! s' := usize_add m (snd st) 1 in Ok (inl (it', s')) end)
          (length l) (it0, a) (Fail (out_of_bounds m))).
      { clear HL. induction l as [|x l IH]; intros it0 a HC Ha; inversion HC; subst; cbn [length].
        - apply R_fail. cbn [fst]. rewrite HF. reflexivity.
        - eapply R_more; [cbn [fst snd]; rewrite H2; cbn [bind]; rewrite usize_add_ok
            by (rewrite ?USIZE_val; cbn [length] in Ha; lia); reflexivity|].
          apply IH; auto. cbn [length] in Ha. lia. }
      intros it0 a HC Ha. apply HA; auto. lia. }
    rewrite K. reflexivity.
  Qed.

  Lemma c140_nothing_ : v = 0 -> h <= 1 -> forall (H : MaxHeap NodeIndex) eqb, MaxHeapOK H ->
    dsatur_coloring m H eqb (sg_node_identifiers g) (sg_node_indices_next (ix := ix) m)
      (sg_neighbors g) next (fun n => Ok (sg_edges g n)) (sg_edges_next m g) (Ok (sg_node_bound g))
      (sg_to_index m g) (sg_visit_map g) svm_visit svm_is_visited = Ok (fun _ => None, 1).
  Proof using SZ FX B.
    intros Ev Hh H eqb [_ HP]. pose proof (c43_no_rows SZ FX B Ev) as HD.
    unfold zrange in HD. replace (Z.to_nat (h - 1)) with O in HD by lia. cbn [seq map] in HD.
    unfold dsatur_coloring. cbn [bind].
    rewrite (for_each_exact _ _ _ _ _ _ _ _ HD) by (cbn [length]; lia). cbn [fold_outcome bind].
    assert (Ep : mh_pop H [] = None).
    { specialize (HP []). destruct (mh_pop H []) as [[x q]|]; auto. destruct HP as [HP _].
      apply Permutation.Permutation_length in HP. discriminate. }
    erewrite (loop_rounds _ 0); [|apply R_done; unfold color_round; cbn [cl_queue]; rewrite Ep; reflexivity|lia].
    cbn [bind cl_max cl_colors]. rewrite usize_add_ok by (rewrite ?USIZE_val; lia). reflexivity.
  Qed.

  Section Run.
  Context (Hv : 1 <= v) (H : MaxHeap NodeIndex) (eqb : NodeIndex -> NodeIndex -> bool)
    (HH : MaxHeapOK H) (Heqb : forall a b, eqb a b = true <-> a = b).
  Notation run := (dsatur_coloring m H eqb (sg_node_identifiers g) (sg_node_indices_next (ix := ix) m)
    (sg_neighbors g) next (fun n => Ok (sg_edges g n)) (sg_edges_next m g) (Ok (sg_node_bound g))
    (sg_to_index m g) (sg_visit_map g) svm_visit svm_is_visited).

  Lemma c140_run : exists r color, run = Ok r /\
    (forall c, In c nodes -> fst r c = Some (color c)) /\
    (forall c, ~ In c nodes -> fst r c = None) /\
    Proper_colours J nodes color (snd r) /\
    First_fit J nodes color /\
    (nodes <> [] -> Last_used nodes color (snd r)) /\
    1 <= snd r <= 9 /\ (nodes = [] -> snd r = 1) /\
    ((forall start L, In start nodes -> In start L -> incl L nodes ->
         (forall a b, In a L -> In b (sq_neighbours S h v a) -> In b L) -> forall c, In c nodes -> In c L) ->
     forall f : NodeIndex -> bool,
       (forall a b, In a nodes -> In b (sq_neighbours S h v a) -> a <> b -> f a <> f b) -> snd r <= 2).
  Proof using SZ FX B Hv HH Heqb.
    destruct (c43_identifiers SZ FX B Hv) as [HID _].
    destruct (c43_order SZ B) as (_ & _ & C3).
    set (ixf := fun c => match sg_to_index m g c with Ok z => Z.to_nat z | Fail _ => O end).
    assert (HX : forall c, In c nodes -> exists i, nth_error nodes i = Some c /\
      sg_to_index m g c = Ok (Z.of_nat i) /\ ixf c = i).
    { intros c Hc. destruct (In_nth_error _ _ Hc) as (i & Hi). exists i. split; auto.
      pose proof (C3 i c Hi) as T. split; auto. unfold ixf. rewrite T. apply Nat2Z.id. }
    destruct (coloring_ok m H eqb (sg_node_identifiers g) (sg_node_indices_next (ix := ix) m)
      (sg_neighbors g) next (fun n => Ok (sg_edges g n)) (sg_edges_next m g) (Ok (sg_node_bound g))
      (sg_to_index m g) (sg_visit_map g) svm_visit svm_is_visited cell_dec nodes (sq_neighbours S h v) ixf
      (SVM (h := h) (v := v)) HH Heqb)
      as (r & color & E1 & E2 & E3 & E4 & E5 & E6).
    - exact HID.
    - apply sq_nodes_nodup.
    - apply (sqc_nb SZ FX g nf ef B).
    - apply sqc_deg.
    - intros a b Ha Hb. eapply sqc_in; eauto.
    - intros a b Ha Hb. apply sq_in_nodes in Ha. apply in_neighbours in Hb. destruct Hb as (d & Hd).
      destruct (neighbour_back (S := S) (h := h) (v := v) a d b Ha Hd) as (d' & Hd'). apply in_neighbours. eauto.
    - intros c Hc. apply sq_in_nodes in Hc. destruct (c45 SZ FX B c Hc) as (l & L1 & L2 & _).
      eapply degree_ok; [reflexivity|exact L1|]. apply (f_equal (@length _)) in L2. rewrite !map_length in L2.
      rewrite L2.
      assert (K : (length (sq_edges_of S h v ef c) <= 4)%nat).
      { unfold sq_edges_of, sq_directions. cbn [flat_map]. rewrite !app_length. clear.
        repeat match goal with |- context [match ?x with Some _ => _ | None => _ end] => destruct x end; cbn [length]; lia. }
      change (2 ^ 64) with 18446744073709551616. lia.
    - destruct (c42 SZ FX B) as (C1 & _). rewrite (sq_nodes_length SZ). f_equal. auto.
    - intros c Hc. destruct (HX c Hc) as (i & I1 & I2 & I3). rewrite I2, I3. split; auto.
      apply nth_error_Some. congruence.
    - intros a b Ha Hb Hab. destruct (HX a Ha) as (i & I1 & _ & I3).
      destruct (HX b Hb) as (j & J1 & _ & J3). congruence.
    - pose proof (sq_nodes_few SZ). change (2 ^ 63) with 9223372036854775808 in *.
      change (2 ^ 64) with 18446744073709551616. lia.
    - exact (svr_visit (g := g)).
    - exact (svr_visited (g := g)).
    - exact (svm_fresh SZ B).
    - exists r, color. split; auto. split; auto. split; auto.
      split; [eapply proper_iff; [|exact E4]; intros a b Ha; symmetry; apply c140_joined; auto|].
      split; [eapply first_iff; [|exact E5]; intros a b Ha; symmetry; apply c140_joined; auto|]. exact E6.
  Qed.

  Lemma c140_colours_ : exists r color, run = Ok r /\
    (forall c, In c nodes -> fst r c = Some (color c)) /\
    (forall c, ~ In c nodes -> fst r c = None) /\
    Proper_colours J nodes color (snd r) /\
    First_fit J nodes color /\
    (nodes <> [] -> Last_used nodes color (snd r)) /\
    (nodes = [] -> snd r = 1).
  Proof using SZ FX B Hv HH Heqb.
    destruct c140_run as (r & color & E1 & E2 & E3 & E4 & E5 & E6 & E7 & E8 & _).
    exists r, color. auto 10.
  Qed.

  Lemma c140_two_ : forall r, run = Ok r -> (snd r <= 2 <-> exists color, Proper_colours J nodes color 2).
  Proof using SZ FX B Hv HH Heqb.
    intros r HR. destruct c140_run as (r0 & color & E1 & E2 & E3 & E4 & E5 & E6 & E7 & E8 & E9).
    assert (r0 = r) by congruence. subst r0. split.
    - intros K. exists color. destruct E4 as [P1 P2]. split; auto. intros c Hc. specialize (P1 c Hc). lia.
    - intros (col & HP). apply E9 with (f := fun c => col c =? 0).
      + intros start L Hs. apply (sqc_reach start Hs).
      + intros a b Ha Hb Hne. apply (proper_bool _ _ _ _ HP); auto.
        * eapply sqc_in; eauto.
        * apply c140_joined; auto.
  Qed.

  Lemma c140_boards_ : sq_chequered S h v = true -> forall r, run = Ok r -> snd r <= 2.
  Proof using SZ FX B Hv HH Heqb.
    intros CH r HR. apply (c140_two_ r HR).
    destruct (sq_nodes h v) as [|start l] eqn:En.
    { exists (fun _ => 0). split; [intros c []|intros a b []]. }
    rewrite <- En. assert (Hs : In start nodes) by (rewrite En; left; auto).
    apply sq_in_nodes in Hs. destruct (c89 SZ FX g nf ef B start Hs) as [_ B2].
    eapply two_proper; [|apply B2; exact CH]. intros a c Ha Hac. exact Hac.
  Qed.
  End Run.
End Sq.
