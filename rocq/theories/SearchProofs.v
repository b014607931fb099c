(** * SearchProofs: petgraph's searches on a [LatticeGraph]. *)

From Verif Require Import Machine Store Axes Shapes Lattice Traverse Spec Spec4 Basics AxisProofs
  GeoProofs ShapeProofs GraphProofs RepProofs VisitProofs Main1 DistProofs TraverseProofs.
From Coq Require Import ZifyBool ZifyNat Sorted Permutation.
Ltac Zify.zify_post_hook ::= Z.div_mod_to_equations.

Section Search.
  Context {A D N E : Type} {m : mode} {s : Shape Cell A D} {G : Geometry A D}
    (SUP : Supported s G) (g : LatticeGraph Cell A D N E) (nf : Cell -> N) (ef : Cell -> A -> E)
    (HB : Built m s G g nf ef).
  Let STO := st_supported _ _ _ _ SUP.

  Lemma walk_snoc : forall a n b, Walk m g a n b -> forall c l,
    Drains (neighbors_next m g b) (neighbors g b) l -> In c l -> Walk m g a (S n) c.
  Proof.
    induction 1 as [|a b c n l HD Hi HW IH]; intros x lx HD' Hx.
    - eapply walk_step; eauto. constructor.
    - eapply walk_step; eauto.
  Qed.

  Lemma walk_sym : forall a n b, Walk m g a n b -> In a (geo_nodes G) -> Walk m g b n a.
  Proof using SUP HB.
    induction 1 as [|a b c n l HD Hi HW IH]; intros Ha; [constructor|].
    assert (Hb : In b (geo_nodes G)).
    { apply (neighbours_iff SUP g nf ef HB a l b Ha HD) in Hi. destruct Hi as (d & Hd).
      eapply (rg_in (supported_regular _ _ _ _ SUP)); eauto. }
    pose proof (proj1 (c09 STO g nf ef b Outgoing HB Hb)) as HD2.
    eapply walk_snoc; [apply IH; auto|exact HD2|].
    apply (c10 SUP g nf ef a b _ _ HB Ha Hb HD HD2). auto.
  Qed.

  Lemma shortest_unique : forall a b n k, shortest m g a b n -> shortest m g a b k -> n = k.
  Proof.
    intros a b n k ((i & W1 & <-) & H1) ((j & W2 & <-) & H2).
    apply H1 in W2. apply H2 in W1. lia.
  Qed.

  Lemma shortest_sym : forall a b n, In a (geo_nodes G) -> In b (geo_nodes G) ->
    shortest m g a b n -> shortest m g b a n.
  Proof using SUP HB.
    intros a b n Ha Hb ((i & W & <-) & H). split.
    - exists i. split; auto. apply walk_sym; auto.
    - intros k Wk. apply H. apply walk_sym; auto.
  Qed.

  Lemma dirs_few : (length (ag_dirs (geo_ax G)) <= 8)%nat.
  Proof using SUP. clear HB g nf ef. destruct SUP; cbn; lia. Qed.

  Lemma degree_few : forall c, Z.of_nat (length (spec_neighbors G c)) + 1 < 2 ^ 72.
  Proof using SUP.
    clear HB g nf ef. intros c. pose proof dirs_few as H. enough (H2 : (length (spec_neighbors G c) <= 8)%nat) by lia.
    etransitivity; [|exact H]. unfold spec_neighbors. clear.
    induction (ag_dirs (geo_ax G)) as [|d l IH]; cbn [flat_map length]; [lia|].
    rewrite app_length. destruct (geo_step G c d); cbn [length]; lia.
  Qed.

  Notation bfs := (bfs_next (neighbors g) (neighbors_next m g) (vm_visit m (g_s g))).
  Notation dfs := (dfs_next (neighbors g) (neighbors_next m g) (vm_visit m (g_s g))
    (vm_is_visited m (g_s g))).

  Section Cells.
    Context (cell : Z -> Z -> Cell) (RF : Refines m s G cell).
    Notation VR := (VMrep (s := s) (G := G) (cell := cell)).

    Lemma vr_ext : forall vm M M', VR vm M -> (forall c, In c M <-> In c M') -> VR vm M'.
    Proof.
      intros vm M M' (H1 & H2 & H3) HM. split; auto. split.
      - intros x Hx. destruct (H2 x Hx) as (b & B1 & B2 & B3). exists b. split; auto. split; auto.
        intros y Hy. rewrite B3 by auto. apply eq_true_iff_eq. rewrite !mem_true. apply HM.
      - intros c Hc. apply H3. apply HM. auto.
    Qed.

    Lemma vr_visit : forall vm M c, VR vm M -> In c (geo_nodes G) ->
      exists b vm', vm_visit m (g_s g) vm c = Ok (b, vm') /\ (b = true <-> ~ In c M) /\
        VR vm' (c :: M).
    Proof using HB RF.
      intros vm M c HV Hc. pose proof (built_rep RF _ _ _ HB) as [Hs _].
      destruct (rf_coord_ok _ _ _ _ RF c Hc) as [H1 H2].
      destruct (visit_op_ok RF g vm M (Visit c) Hs HV) as (vm' & E1 & E2); [split; auto|].
      cbn [visit_op visit_spec] in *. rewrite (proj2 (mem_true _ _) Hc) in *. cbn [fst snd] in *.
      destruct (vm_visit m (g_s g) vm c) as [[b vm1]|]; [|discriminate]. cbn [bind] in E1.
      injection E1 as -> ->. exists (negb (mem c M)), vm'. split; auto. split; auto.
      rewrite negb_true_iff, <- mem_true. destruct (mem c M); split; congruence.
    Qed.

    Lemma vr_visited : forall vm M c, VR vm M -> In c (geo_nodes G) ->
      exists b, vm_is_visited m (g_s g) vm c = Ok b /\ (b = true <-> In c M).
    Proof using HB RF.
      intros vm M c HV Hc. pose proof (built_rep RF _ _ _ HB) as [Hs _].
      destruct (rf_coord_ok _ _ _ _ RF c Hc) as [H1 H2].
      destruct (visit_op_ok RF g vm M (IsVisited c) Hs HV) as (vm' & E1 & E2); [split; auto|].
      cbn [visit_op visit_spec fst snd] in *.
      destruct (vm_is_visited m (g_s g) vm c) as [b|]; [|discriminate]. cbn [bind] in E1.
      injection E1 as -> _. exists (mem c M). split; auto. apply mem_true.
    Qed.
  End Cells.

  Lemma in_neighbours_board : forall c c', In c (geo_nodes G) -> In c' (spec_neighbors G c) ->
    In c' (geo_nodes G).
  Proof using SUP.
    intros c c' Hc H. apply (in_spec_neighbors STO) in H. destruct H as (d & Hd).
    eapply (rg_in (supported_regular _ _ _ _ SUP)); eauto.
  Qed.

  Lemma level_step : forall dist, metric G dist -> forall start, In start (geo_nodes G) ->
    forall c c', In c (geo_nodes G) -> In c' (spec_neighbors G c) ->
    dist c' start <= dist c start + 1.
  Proof using SUP.
    intros dist MT start Hs c c' Hc H. pose proof (in_neighbours_board c c' Hc H) as Hc'.
    apply (in_spec_neighbors STO) in H. destruct H as (d & Hd).
    destruct (step_back SUP c c' d Hc Hd) as (d' & _ & Hd').
    apply (mt_lip MT c' d' c start Hc' Hs Hd').
  Qed.

  Lemma level_desc : forall dist, metric G dist -> forall start, In start (geo_nodes G) ->
    forall c, In c (geo_nodes G) -> 0 < dist c start ->
    exists p, In p (geo_nodes G) /\ In c (spec_neighbors G p) /\ dist p start <= dist c start - 1.
  Proof using SUP.
    intros dist MT start Hs c Hc H. destruct (mt_desc MT c start Hc Hs H) as (d & p & Hd & Hp).
    exists p. split; [|split; auto].
    - eapply (rg_in (supported_regular _ _ _ _ SUP)); eauto.
    - destruct (step_back SUP c p d Hc Hd) as (d' & _ & Hd'). apply (in_spec_neighbors STO). eauto.
  Qed.

  Lemma c64 : forall start, In start (geo_nodes G) ->
    exists it l, bfs_new (vm_visit m (g_s g)) (visit_map g) start = Ok it /\ Drains bfs it l /\
      Permutation l (geo_nodes G) /\ hd_error l = Some start /\
      forall l1 a l2 b l3 na nb, l = l1 ++ a :: l2 ++ b :: l3 ->
        shortest m g start a na -> shortest m g start b nb -> na <= nb.
  Proof using SUP HB.
    intros start Hs. refine_shape m SUP. pose proof (built_rep RF _ _ _ HB) as [Hgs _].
    destruct (c63_every _ _ _ _ SUP) as (dist & HD).
    pose proof (distance_metric _ _ _ _ _ HD) as MT.
    destruct (bfs_all (neighbors g) (neighbors_next m g) (vm_visit m (g_s g)) cell_dec
      (geo_nodes G) (spec_neighbors G) (VMrep (s := s) (G := G) (cell := cell))
      (fun c Hc => proj1 (c09 STO g nf ef c Outgoing HB Hc)) (fun c _ => degree_few c)
      in_neighbours_board (vr_visit cell RF) (vr_ext cell) start Hs (fun c => dist c start)
      (mt_zero MT start) (fun c => mt_pos MT c start) (fun c Hc H => mt_same MT c start Hc Hs H)
      (level_step dist MT start Hs) (level_desc dist MT start Hs) (visit_map g)
      (visit_map_rep RF g Hgs)) as (it & l & E0 & HDr & HN & Hin & Hsort & l' & Hl).
    exists it, l. split; auto. split; auto. split.
    { apply NoDup_Permutation; auto. apply (nodes_nodup RF). }
    split; [rewrite Hl; reflexivity|].
    intros l1 a l2 b l3 na nb Eq Ha Hb.
    assert (Hai : In a (geo_nodes G)).
    { apply Hin. rewrite Eq. apply in_or_app. right. left; auto. }
    assert (Hbi : In b (geo_nodes G)).
    { apply Hin. rewrite Eq. apply in_or_app. right. right. apply in_or_app. right. left; auto. }
    rewrite Eq in Hsort. apply sorted_split in Hsort. unfold le_f in Hsort.
    rewrite (shortest_unique _ _ _ _ (shortest_sym _ _ _ Hs Hai Ha)
      (shortest_dist SUP g nf ef HB dist MT a start Hai Hs)).
    rewrite (shortest_unique _ _ _ _ (shortest_sym _ _ _ Hs Hbi Hb)
      (shortest_dist SUP g nf ef HB dist MT b start Hbi Hs)).
    exact Hsort.
  Qed.

  Lemma c65 : forall start, In start (geo_nodes G) ->
    exists l, Drains dfs (dfs_new (visit_map g) start) l /\
      Permutation l (geo_nodes G) /\ hd_error l = Some start /\
      forall l1 c l2, l = l1 ++ c :: l2 -> l1 <> [] ->
        exists p ln, In p l1 /\ Drains (neighbors_next m g p) (neighbors g p) ln /\ In c ln.
  Proof using SUP HB.
    intros start Hs. refine_shape m SUP. pose proof (built_rep RF _ _ _ HB) as [Hgs _].
    destruct (c63_every _ _ _ _ SUP) as (dist & HD).
    pose proof (distance_metric _ _ _ _ _ HD) as MT.
    destruct (dfs_all (neighbors g) (neighbors_next m g) (vm_visit m (g_s g))
      (vm_is_visited m (g_s g)) cell_dec
      (geo_nodes G) (spec_neighbors G) (VMrep (s := s) (G := G) (cell := cell))
      (fun c Hc => proj1 (c09 STO g nf ef c Outgoing HB Hc)) (fun c _ => degree_few c)
      in_neighbours_board (vr_visit cell RF) (vr_visited cell RF) (vr_ext cell) start Hs
      (fun c => dist c start)
      (mt_zero MT start) (fun c => mt_pos MT c start) (fun c Hc H => mt_same MT c start Hc Hs H)
      (level_step dist MT start Hs) (level_desc dist MT start Hs) (visit_map g)
      (visit_map_rep RF g Hgs)) as (l & HDr & HN & Hin & Hgrown).
    exists l. split; auto. split.
    { apply NoDup_Permutation; auto. apply (nodes_nodup RF). }
    split.
    - destruct l as [|c l]; [exfalso; apply (Hin start); auto|].
      destruct (Hgrown [] c l eq_refl) as [[_ ->]|(p & [] & _)]. reflexivity.
    - intros l1 c l2 Eq Hne. destruct (Hgrown l1 c l2 Eq) as [[-> _]|(p & Hp & Hc)]; [congruence|].
      exists p, (spec_neighbors G p). split; auto. split; auto.
      apply (c09 STO g nf ef p Outgoing HB). apply Hin. rewrite Eq. apply in_or_app. auto.
  Qed.
End Search.
