(** * MatchingMain: [greedy_matching] on the two graphs (C133, C134). *)

From Verif Require Import Machine Store Axes Shapes Lattice SquareGraph Traverse Astar Spec SpecSquare
  Spec4 Spec11 Spec19 Spec21 Spec25 Basics AxisProofs GeoProofs ShapeProofs StoreProofs GraphProofs RepProofs
  EdgeProofs VisitProofs Main1 TraverseProofs AnySearch AstarProofs SearchProofs SquareProofs SquareIter
  SquareMain SquareSearch AnySearchMain ClientsMain CustomProofs CustomMain FilteredProofs FilteredMain
  BellmanMain KShortestMain CliquesMain Matching Spec28 MatchingProofs.
From Coq Require Import ZifyBool ZifyNat.

(** ** Any pairs *)

Section Pairs.
  Context {C : Type} (nodes : list C) (ND : NoDup nodes).

  Lemma in_with_mate : forall mate c, In c (with_mate nodes mate) <-> In c nodes /\ mate c <> None.
  Proof.
    intros mate c. unfold with_mate. rewrite filter_In. destruct (mate c); intuition congruence.
  Qed.

  Lemma with_ext : forall mate mate', (forall c, In c nodes -> mate c = mate' c) ->
    with_mate nodes mate = with_mate nodes mate'.
  Proof.
    clear ND. intros mate mate' H. unfold with_mate. induction nodes as [|c l IH]; [reflexivity|].
    cbn [filter]. rewrite H by (left; auto). rewrite IH; [reflexivity|]. intros x Hx. apply H. right. auto.
  Qed.

  (** At most twice as many pairs are possible. *)
  Lemma half : forall J mate mate', Paired J nodes mate' -> NoneLeft J nodes mate ->
    (length (with_mate nodes mate') <= 2 * length (with_mate nodes mate))%nat.
  Proof.
    intros J mate mate' HP HN.
    set (back := flat_map (fun w => match mate' w with Some a => [a] | None => [] end) (with_mate nodes mate)).
    assert (HB : (length back <= length (with_mate nodes mate))%nat).
    { unfold back. clear. induction (with_mate nodes mate) as [|w l IH]; [cbn; lia|].
      cbn [flat_map]. rewrite app_length. cbn beta. destruct (mate' w); cbn [length]; lia. }
    enough (HL : (length (with_mate nodes mate') <= length (with_mate nodes mate ++ back))%nat).
    { rewrite app_length in HL. lia. }
    apply NoDup_incl_length; [apply NoDup_filter; auto|].
    intros a Ha. apply in_with_mate in Ha. destruct Ha as [Ha Hm].
    destruct (mate' a) as [b|] eqn:E; [|congruence]. destruct (HP a b Ha E) as (P1 & P2 & P3 & P4).
    apply in_or_app. destruct (HN a b Ha P1 P2 P3) as [K|K].
    - left. apply in_with_mate. auto.
    - right. apply in_flat_map. exists b. split; [apply in_with_mate; auto|]. rewrite P4. left. auto.
  Qed.

  Lemma perfect_all : forall mate n, 2 * n = Z.of_nat (length (with_mate nodes mate)) ->
    ((Z.of_nat (length nodes) mod 2 =? 0) && (n =? Z.of_nat (length nodes) / 2)) = true <->
    forall c, In c nodes -> mate c <> None.
  Proof.
    intros mate n Hn.
    assert (K : (forall c, In c nodes -> mate c <> None) <-> length (with_mate nodes mate) = length nodes).
    { clear. unfold with_mate. induction nodes as [|c l IH]; [split; [auto|intros _ c []]|].
      pose proof (filter_short _ (fun c => match mate c with Some _ => true | None => false end) l) as HF.
      cbn [filter]. destruct (mate c) eqn:E; cbn [length].
      - split.
        + intros H. f_equal. apply IH. intros x Hx. apply H. right. auto.
        + intros H x [<-|Hx]; [congruence|]. apply IH; auto; lia.
      - split; [intros H; destruct (H c (or_introl eq_refl) E)|intros H; exfalso; lia]. }
    rewrite K. pose proof (Z.div_mod (Z.of_nat (length nodes)) 2). 
    pose proof (Z.mod_pos_bound (Z.of_nat (length nodes)) 2). split; intros H1.
    - lia.
    - assert (E : Z.of_nat (length nodes) = n * 2) by lia. rewrite E, Z.mod_mul, Z.div_mul by lia. lia.
  Qed.
End Pairs.

Lemma paired_iff : forall C (J J' : C -> C -> Prop) nodes mate mate',
  (forall a b, In a nodes -> J a b <-> J' a b) -> (forall c, In c nodes -> mate c = mate' c) ->
  Paired J nodes mate -> Paired J' nodes mate'.
Proof.
  intros C J J' nodes mate mate' HJ HM HP a b Ha Hb. rewrite <- HM in Hb by auto.
  destruct (HP a b Ha Hb) as (P1 & P2 & P3 & P4). split; auto. split; auto. split; [apply HJ; auto|].
  rewrite <- HM; auto.
Qed.

Lemma left_iff : forall C (J J' : C -> C -> Prop) nodes mate mate',
  (forall a b, In a nodes -> J a b <-> J' a b) -> (forall c, In c nodes -> mate c = mate' c) ->
  NoneLeft J nodes mate -> NoneLeft J' nodes mate'.
Proof.
  intros C J J' nodes mate mate' HJ HM HP a b Ha Hb Hne Hab. rewrite <- !HM by auto. apply HP; auto.
  apply HJ; auto.
Qed.

(** ** LatticeGraph *)

Section Lat.
  Context {A D N E : Type} {m : mode} {s : Shape Cell A D} {G : Geometry A D}
    (SO : Sound m s G) (g : LatticeGraph Cell A D N E) (nf : Cell -> N) (ef : Cell -> A -> E)
    (HB : Built m s G g nf ef).
  Notation nodes := (geo_nodes G).
  Notation greedy := (greedy_matching m (node_identifiers g) (node_indices_next m (g_s g)) (neighbors g)
    (neighbors_next m g) (node_bound m g) (to_index m g) (visit_map g) (vm_visit m (g_s g))
    (vm_is_visited m (g_s g))).

  Lemma c133_nodup : NoDup nodes.
  Proof using SO. clear - SO. destruct (sound_facts _ _ _ _ _ SO) as ((cell & RF) & _). exact (nodes_nodup RF). Qed.

  Lemma c133_run : exists r mate0, greedy = Ok r /\
    (forall c, In c nodes -> mate_of (to_index m g) r c = Ok (mate0 c)) /\
    Paired (Neighbor m g) nodes mate0 /\ NoneLeft (Neighbor m g) nodes mate0 /\
    2 * snd r = Z.of_nat (length (with_mate nodes mate0)).
  Proof using SO HB.
    destruct (sound_facts _ _ _ _ _ SO) as ((cell & RF) & RG & DEG).
    destruct (x_c05 RF RG g nf ef HB) as (C1 & _ & C2 & C3). pose proof (RepProofs.built_rep RF _ _ _ HB) as [Hgs _].
    set (ix := fun c => match to_index m g c with Ok z => Z.to_nat z | Fail _ => O end).
    assert (HX : forall c, In c nodes -> exists i, nth_error nodes i = Some c /\
      to_index m g c = Ok (Z.of_nat i) /\ ix c = i).
    { intros c Hc. destruct (In_nth_error _ _ Hc) as (i & Hi). exists i. split; auto.
      destruct (C3 i c Hi) as [T _]. split; auto. unfold ix. rewrite T. apply Nat2Z.id. }
    destruct (greedy_ok m (node_identifiers g) (node_indices_next m (g_s g)) (neighbors g)
      (neighbors_next m g) (node_bound m g) (to_index m g) (visit_map g) (vm_visit m (g_s g))
      (vm_is_visited m (g_s g)) cell_dec nodes (spec_neighbors G) ix (VMrep (s := s) (G := G) (cell := cell)))
      as (r & E1 & _ & E2 & E3 & E4 & E5).
    - exact (x_c06 RF RG g nf ef HB).
    - exact C2.
    - intros c Hc. exact (proj1 (x_c09 RF RG g nf ef c Outgoing HB Hc)).
    - intros c _. apply DEG.
    - intros a b Ha Hb. apply (x_in_spec_neighbors RF RG) in Hb. destruct Hb as (d & Hd). exact (rg_in RG _ _ _ Hd).
    - intros a b Ha Hb. apply (x_in_spec_neighbors RF RG) in Hb. destruct Hb as (d & Hd).
      destruct (x_step_back RF RG a b d Ha Hd) as (d' & _ & H'). apply (x_in_spec_neighbors RF RG). eauto.
    - exact C1.
    - intros c Hc. destruct (HX c Hc) as (i & I1 & I2 & I3). rewrite I2, I3. split; auto.
      apply nth_error_Some. congruence.
    - intros a b Ha Hb Hab. destruct (HX a Ha) as (i & I1 & _ & I3).
      destruct (HX b Hb) as (j & J1 & _ & J3). congruence.
    - clear - RF. rewrite (rf_nodes _ _ _ _ RF).
      pose proof (fits_bounds _ _ (rf_fits _ _ _ _ RF)) as B. rewrite IMAX1_val in B.
      rewrite board_length by lia. change (2 ^ 64) with 18446744073709551616. lia.
    - exact (vr_visit g nf ef HB cell RF).
    - exact (vr_visited g nf ef HB cell RF).
    - exact (vr_ext cell).
    - exact (visit_map_rep RF g Hgs).
    - exists r, (Mt ix (fst r)). split; auto. split; auto.
      pose proof (q_neighbor SO g nf ef HB) as Q. split; [|split; auto].
      + eapply paired_iff; [exact Q| |exact E2]. auto.
      + eapply left_iff; [exact Q| |exact E3]. auto.
  Qed.

  Section Result.
    Context (r : list (option Cell) * Z) (mate : Cell -> option Cell) (HR : greedy = Ok r)
      (HM : forall c, In c nodes -> mate_of (to_index m g) r c = Ok (mate c)).

    Lemma c133_result : Paired (Neighbor m g) nodes mate /\ NoneLeft (Neighbor m g) nodes mate /\
      2 * snd r = Z.of_nat (length (with_mate nodes mate)).
    Proof using SO HB HR HM.
      destruct c133_run as (r0 & mate0 & E1 & E2 & E3 & E4 & E5).
      assert (r0 = r) by congruence. subst r0.
      assert (K : forall c, In c nodes -> mate0 c = mate c).
      { intros c Hc. pose proof (E2 c Hc). pose proof (HM c Hc). congruence. }
      split; [|split].
      - eapply paired_iff; [reflexivity|exact K|exact E3].
      - eapply left_iff; [reflexivity|exact K|exact E4].
      - rewrite E5. rewrite (with_ext nodes mate0 mate K). reflexivity.
    Qed.

    Lemma c133_half_ : forall mate', Paired (Neighbor m g) nodes mate' ->
      Z.of_nat (length (with_mate nodes mate')) <= 4 * snd r.
    Proof using SO HB HR HM.
      intros mate' HP. destruct c133_result as (_ & K2 & K3).
      pose proof (half nodes c133_nodup _ _ _ HP K2). lia.
    Qed.

    Lemma c133_perfect_ : exists b, is_perfect (node_count m g) r = Ok b /\
      (b = true <-> forall c, In c nodes -> mate c <> None).
    Proof using SO HB HR HM.
      destruct c133_result as (_ & _ & K3).
      destruct (sound_facts _ _ _ _ _ SO) as ((cell & RF) & RG & _).
      destruct (x_c05 RF RG g nf ef HB) as (_ & C1 & _). unfold is_perfect. rewrite C1. cbn [bind].
      eexists. split; [reflexivity|]. apply perfect_all. auto.
    Qed.
  End Result.
End Lat.

Lemma c133_pairs : forall A D N E (m : mode) (s : Shape Cell A D) (G : Geometry A D), Sound m s G ->
  forall (g : LatticeGraph Cell A D N E) nf ef, Built m s G g nf ef ->
  exists r mate,
    greedy_matching m (node_identifiers g) (node_indices_next m (g_s g)) (neighbors g)
      (neighbors_next m g) (node_bound m g) (to_index m g) (visit_map g) (vm_visit m (g_s g))
      (vm_is_visited m (g_s g)) = Ok r /\
    (forall c, In c (geo_nodes G) -> mate_of (to_index m g) r c = Ok (mate c)) /\
    Paired (Neighbor m g) (geo_nodes G) mate /\ NoneLeft (Neighbor m g) (geo_nodes G) mate /\
    2 * snd r = Z.of_nat (length (with_mate (geo_nodes G) mate)).
Proof. intros A D N E m s G SO g nf ef HB. exact (c133_run SO g nf ef HB). Qed.

Lemma c133_half : forall A D N E (m : mode) (s : Shape Cell A D) (G : Geometry A D), Sound m s G ->
  forall (g : LatticeGraph Cell A D N E) nf ef, Built m s G g nf ef ->
  forall r,
  greedy_matching m (node_identifiers g) (node_indices_next m (g_s g)) (neighbors g)
    (neighbors_next m g) (node_bound m g) (to_index m g) (visit_map g) (vm_visit m (g_s g))
    (vm_is_visited m (g_s g)) = Ok r ->
  forall other, Paired (Neighbor m g) (geo_nodes G) other ->
  Z.of_nat (length (with_mate (geo_nodes G) other)) <= 2 * (2 * snd r).
Proof.
  intros A D N E m s G SO g nf ef HB r HR other HP.
  destruct (c133_run SO g nf ef HB) as (r0 & mate0 & E1 & E2 & _). assert (r0 = r) by congruence. subst r0.
  pose proof (c133_half_ SO g nf ef HB r mate0 HR E2 other HP). lia.
Qed.

Lemma c133_perfect : forall A D N E (m : mode) (s : Shape Cell A D) (G : Geometry A D), Sound m s G ->
  forall (g : LatticeGraph Cell A D N E) nf ef, Built m s G g nf ef ->
  forall r,
  greedy_matching m (node_identifiers g) (node_indices_next m (g_s g)) (neighbors g)
    (neighbors_next m g) (node_bound m g) (to_index m g) (visit_map g) (vm_visit m (g_s g))
    (vm_is_visited m (g_s g)) = Ok r ->
  exists b, is_perfect (node_count m g) r = Ok b /\
    (b = true <-> forall c, In c (geo_nodes G) -> exists c', mate_of (to_index m g) r c = Ok (Some c')).
Proof.
  intros A D N E m s G SO g nf ef HB r HR.
  destruct (c133_run SO g nf ef HB) as (r0 & mate0 & E1 & E2 & _). assert (r0 = r) by congruence. subst r0.
  destruct (c133_perfect_ SO g nf ef HB r mate0 HR E2) as (b & B1 & B2). exists b. split; auto.
  rewrite B2. split; intros H c Hc; specialize (H c Hc).
  - rewrite (E2 c Hc). destruct (mate0 c); [eauto|congruence].
  - destruct H as (c' & H). rewrite (E2 c Hc) in H. congruence.
Qed.

(** ** SquareGraph *)

Section Sq.
  Context {N E : Type} {ix : IxType} {S : LoopShape} {m : mode} {h v : Z}
    (SZ : sq_size S h v) (FX : sq_index_fits ix h v).
  Context (g : SquareGraph N E ix S) (nf : NodeIndex -> N) (ef : EdgeIndex -> E)
    (B : SqBuilt m h v g nf ef).
  Notation next := (fun _ : NodeIndex => sg_neighbors_next (ix := ix) (S := S) m).
  Notation nodes := (sq_nodes h v).
  Notation J := (fun a b => exists l, Drains (next a) (sg_neighbors g a) l /\ In b l).
  Notation greedy := (greedy_matching m (sg_node_identifiers g) (sg_node_indices_next (ix := ix) m)
    (sg_neighbors g) next (Ok (sg_node_bound g)) (sg_to_index m g) (sg_visit_map g)
    svm_visit svm_is_visited).

  Lemma c134_joined : forall a b, In a nodes -> In b (sq_neighbours S h v a) <-> J a b.
  Proof using SZ FX B.
    intros a b Ha. pose proof (sqc_nb SZ FX g nf ef B a Ha) as HD. split.
    - intros H. exists (sq_neighbours S h v a). auto.
    - intros (l & HL & Hb). rewrite (Drains_det _ _ _ _ HD HL). auto.
  Qed.

  Lemma c134_run : 1 <= v -> exists r mate0, greedy = Ok r /\
    (forall c, In c nodes -> mate_of (sg_to_index m g) r c = Ok (mate0 c)) /\
    Paired J nodes mate0 /\ NoneLeft J nodes mate0 /\
    2 * snd r = Z.of_nat (length (with_mate nodes mate0)).
  Proof using SZ FX B.
    intros Hv. destruct (c43_identifiers SZ FX B Hv) as [HID _].
    destruct (c43_order SZ B) as (_ & _ & C3).
    set (ixf := fun c => match sg_to_index m g c with Ok z => Z.to_nat z | Fail _ => O end).
    assert (HX : forall c, In c nodes -> exists i, nth_error nodes i = Some c /\
      sg_to_index m g c = Ok (Z.of_nat i) /\ ixf c = i).
    { intros c Hc. destruct (In_nth_error _ _ Hc) as (i & Hi). exists i. split; auto.
      pose proof (C3 i c Hi) as T. split; auto. unfold ixf. rewrite T. apply Nat2Z.id. }
    destruct (greedy_ok m (sg_node_identifiers g) (sg_node_indices_next (ix := ix) m)
      (sg_neighbors g) next (Ok (sg_node_bound g)) (sg_to_index m g) (sg_visit_map g)
      svm_visit svm_is_visited cell_dec nodes (sq_neighbours S h v) ixf (SVM (h := h) (v := v)))
      as (r & E1 & _ & E2 & E3 & E4 & E5).
    - exact HID.
    - apply sq_nodes_nodup.
    - apply (sqc_nb SZ FX g nf ef B).
    - intros c Hc. apply sq_degree.
    - intros a b Ha Hb. eapply sqc_in; eauto.
    - intros a b Ha Hb. apply sq_in_nodes in Ha. apply in_neighbours in Hb. destruct Hb as (d & Hd).
      destruct (neighbour_back (S := S) (h := h) (v := v) a d b Ha Hd) as (d' & Hd'). apply in_neighbours. eauto.
    - destruct (c42 SZ FX B) as (C1 & _). rewrite (sq_nodes_length SZ). f_equal. auto.
    - intros c Hc. destruct (HX c Hc) as (i & I1 & I2 & I3). rewrite I2, I3. split; auto.
      apply nth_error_Some. congruence.
    - intros a b Ha Hb Hab. destruct (HX a Ha) as (i & I1 & _ & I3).
      destruct (HX b Hb) as (j & J1 & _ & J3). congruence.
    - pose proof (sq_nodes_few SZ). change (2 ^ 63) with 9223372036854775808 in *.
      change (2 ^ 64) with 18446744073709551616. lia.
    - exact (svr_visit (g := g)).
    - exact (svr_visited (g := g)).
    - exact svr_ext.
    - exact (svm_fresh SZ B).
    - exists r, (Mt ixf (fst r)). split; auto. split; auto. split; [|split; auto].
      + eapply paired_iff; [exact c134_joined| |exact E2]. auto.
      + eapply left_iff; [exact c134_joined| |exact E3]. auto.
  Qed.

  Lemma c134_half_ : 1 <= v -> forall r, greedy = Ok r ->
    forall other, Paired J nodes other -> Z.of_nat (length (with_mate nodes other)) <= 2 * (2 * snd r).
  Proof using SZ FX B.
    intros Hv r HR other HP. destruct (c134_run Hv) as (r0 & mate0 & E1 & _ & _ & E4 & E5).
    assert (r0 = r) by congruence. subst r0.
    pose proof (half nodes (sq_nodes_nodup h v) _ _ _ HP E4). lia.
  Qed.

  Lemma c134_perfect_ : 1 <= v -> forall r, greedy = Ok r ->
    exists b, is_perfect (Ok (sg_node_count g)) r = Ok b /\
      (b = true <-> forall c, In c nodes -> exists c', mate_of (sg_to_index m g) r c = Ok (Some c')).
  Proof using SZ FX B.
    intros Hv r HR. destruct (c134_run Hv) as (r0 & mate0 & E1 & E2 & _ & _ & E5).
    assert (r0 = r) by congruence. subst r0. unfold is_perfect.
    rewrite (sq_count SZ FX g nf ef B). cbn [bind]. eexists. split; [reflexivity|].
    rewrite (perfect_all nodes mate0 _ E5). split; intros H c Hc; specialize (H c Hc).
    - rewrite (E2 c Hc). destruct (mate0 c); [eauto|congruence].
    - destruct H as (c' & H). rewrite (E2 c Hc) in H. congruence.
  Qed.

  Lemma c134_no_rows_ : v = 0 -> 2 <= h -> greedy = Fail FPanic.
  Proof using SZ FX B.
    intros Ev Hh. pose proof (c43_no_rows SZ FX B Ev) as HD.
    destruct (counts g nf ef (SquareProofs.built_rep _ _ _ _ _ _ SZ B)) as (K1 & K2 & _).
    destruct (c42 SZ FX B) as (C1 & _).
    unfold greedy_matching.
    assert (E0 : sg_node_bound g = 0) by (rewrite C1, Ev; lia). rewrite E0. cbn [bind].
    rewrite (for_each_exact _ _ _ _ _ _ _ _ HD).
    2:{ rewrite map_length. unfold zrange. rewrite map_length, seq_length.
        destruct SZ as (S1 & S2 & S3). destruct (loops_v S); lia. }
    unfold zrange. destruct (Z.to_nat (h - 1)) as [|k] eqn:Ek; [lia|].
    cbn [seq map fold_outcome]. unfold sg_visit_map. rewrite K1, K2, Ev.
    replace (Z.to_nat h) with (Datatypes.S (Datatypes.S k)) by lia. 
    reflexivity.
  Qed.
End Sq.
