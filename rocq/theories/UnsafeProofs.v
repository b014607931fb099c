(** * UnsafeProofs: boards on which [edges] reads a slot that was never written. *)

From Verif Require Import Machine Store Axes Shapes Lattice Spec Basics AxisProofs GeoProofs
  ShapeProofs StoreProofs GraphProofs RepProofs IterProofs EdgeProofs Main1.
From Coq Require Import ZifyBool ZifyNat.
Ltac Zify.zify_post_hook ::= Z.div_mod_to_equations.

Section U.
  Context {A D N E : Type} {m : mode} {s : Shape Cell A D} {G : Geometry A D}
    {cell : Z -> Z -> Cell} (RF : Refines m s G cell).
  Notation ax := (sh_axis s).
  Notation geo := (geo_ax G).
  Notation graph := (LatticeGraph Cell A D N E).
  Let AX : AxisOK m ax geo := rf_axis _ _ _ _ RF.

  Lemma rep_edge_absent : forall (g : graph) nf ef c a o,
    Rep (G := G) (cell := cell) (s := s) g nf ef -> In c (geo_nodes G) -> ~ edge_exists G c a ->
    sh_to_offset s m c = Ok (Some o) ->
    edge_weight_unchecked_raw g o (ax_to_index ax a) = Fail FUB.
  Proof using RF AX.
    intros g nf ef c a o [Hs (H1 & H2 & H3 & H4)] Hc Hca Ho'.
    assert (Hoe : opt_edge (G := G) ef c a = None).
    { unfold opt_edge. destruct (geo_step G c (ag_fwd geo a)) eqn:Es; auto.
      exfalso. apply Hca. split; [auto|congruence]. }
    destruct (on_board_offset RF c Hc) as (x & y & Hx & Hy & -> & Ho & Hu).
    rewrite Ho in Ho'. injection Ho' as <-.
    destruct (H4 a) as (arr & Ha & Hwf & Hg). unfold edge_weight_unchecked_raw, edges_get_unchecked.
    rewrite Ha. cbn [bind fst snd]. rewrite (Hg x y Hx Hy), Hoe. reflexivity.
  Qed.

  Context (Hdir : ag_directed geo = false) (BC : backward_closed G)
    (g : graph) (nf : Cell -> N) (ef : Cell -> A -> E)
    (HR : Rep (G := G) (cell := cell) (s := s) g nf ef)
    (c : Cell) (Hc : In c (geo_nodes G)) (o : Offset) (Ho : sh_to_offset s m c = Ok (Some o)).

  Definition bad (d : D) : Prop := exists c' a, geo_step G c d = Some c' /\
    opposite geo d (ag_fwd geo a) /\ ~ edge_exists G c' a.

  Lemma edge_exists_dec : forall c' a, In c' (geo_nodes G) -> edge_exists G c' a \/ ~ edge_exists G c' a.
  Proof.
    intros c' a H. destruct (geo_step G c' (ag_fwd geo a)) eqn:Es.
    - left. split; [auto|congruence].
    - right. intros [_ H']. auto.
  Qed.

  Lemma item_cases : forall st d c', nth_error (ag_dirs geo) st = Some d ->
    geo_step G c d = Some c' ->
    (~ bad d /\ exists r, edge_item (s := s) (m := m) g c o AxisDirMarker st d c' = Ok r) \/
    edge_item (s := s) (m := m) g c o AxisDirMarker st d c' = Fail FUB.
  Proof using RF AX Hdir BC HR Hc Ho.
    intros st d c' Hd Hs.
    assert (Hgood : readable (G := G) d c' ->
      ~ bad d /\ exists r, edge_item (s := s) (m := m) g c o AxisDirMarker st d c' = Ok r).
    { intros Hr. split.
      - intros (c2 & a & Hs2 & Hopp & Hne). rewrite Hs in Hs2. injection Hs2 as <-. auto.
      - destruct (item_out RF g nf ef c o AxisDirMarker d c' st) as (r & H & _); auto. eauto. }
    destruct (ao_class _ _ _ AX d) as
      [(a & Hf & _) | (_ & a & Hopp & _ & _ & Hfrom & Hfw & Hidx)].
    - left. apply Hgood. intros a' _ Hopp'. exfalso. subst d.
      eapply (ao_undirected_opp _ _ _ AX Hdir); eauto.
    - assert (Hc' : In c' (geo_nodes G)) by (eapply BC; eauto).
      destruct (edge_exists_dec c' a Hc') as [HH|HH].
      + left. apply Hgood. intros a' _ Hopp'.
        replace a' with a; auto. apply (ao_fwd_inj _ _ _ AX). apply (ao_vec_inj _ _ _ AX).
        unfold opposite in *. congruence.
      + right. unfold edge_item, get_raw_id, default_get_raw_id.
        rewrite Hfw. cbn [bind].
        destruct (on_board_offset RF c' Hc') as (x & y & Hx & Hy & _ & Ho' & Hu').
        rewrite Hu'. cbn [bind]. rewrite <- (ao_dnth_inv _ _ _ AX _ _ Hd), Hidx.
        replace (Nat.ltb _ _) with false by (symmetry; apply Nat.ltb_ge; lia).
        replace (ax_COUNT ax + ax_to_index ax a - ax_COUNT ax)%nat with (ax_to_index ax a) by lia.
        cbn [bind]. rewrite Hfrom. cbn [bind]. rewrite Nat.eqb_refl.
        replace (debug_assert m true) with (Ok tt) by (destruct m; reflexivity). cbn [bind].
        rewrite (rep_edge_absent g nf ef c' a (x, y)) by auto. reflexivity.
  Qed.

  Lemma edges_loop_bad : forall rounds st j d, rounds = (length (ag_dirs geo) - st)%nat ->
    (st <= j)%nat -> nth_error (ag_dirs geo) j = Some d -> bad d ->
    edges_loop m g (mkEdges c o st AxisDirMarker) rounds = Fail FUB \/
    exists x st', edges_loop m g (mkEdges c o st AxisDirMarker) rounds
        = Ok (Some x, mkEdges c o st' AxisDirMarker) /\ (st < st' <= j)%nat.
  Proof using RF AX Hdir BC HR Hc Ho.
    pose proof HR as [Hs _].
    induction rounds as [|r IH]; intros st j d Hr Hle Hj Hb.
    - assert (j < length (ag_dirs geo))%nat by (apply nth_error_Some; congruence). lia.
    - destruct (nth_error (ag_dirs geo) st) as [d0|] eqn:Ed; [|apply nth_error_None in Ed; lia].
      cbn [edges_loop ed_state ed_node ed_offset ed_directed]. rewrite Hs.
      rewrite (ao_dir_from_index_unchecked _ _ _ AX _ _ Ed). cbn [bind].
      rewrite (rf_move _ _ _ _ RF) by auto. cbn [bind].
      destruct (geo_step G c d0) as [t|] eqn:Es.
      + pose proof (item_cases st d0 t Ed Es) as Hitem. unfold edge_item in Hitem.
        destruct (get_raw_id m AxisDirMarker s d0 o t st) as [[nx ne]|f];
          [|left; destruct Hitem as [[_ (? & H)]|H]; [discriminate H|cbn [bind] in *; congruence]]. cbn [bind] in *.
        destruct (ax_from_direction ax m d0) as [a|];
          [|left; destruct Hitem as [[_ (? & H)]|H]; [discriminate H|cbn [bind] in *; congruence]]. cbn [bind] in *.
        destruct (debug_assert m (Nat.eqb (ax_to_index ax a) ne));
          [|left; destruct Hitem as [[_ (? & H)]|H]; [discriminate H|cbn [bind] in *; congruence]]. cbn [bind] in *.
        destruct (edge_weight_unchecked_raw g nx ne) as [wt|];
          [|left; destruct Hitem as [[_ (? & H)]|H]; [discriminate H|cbn [bind] in *; congruence]]. cbn [bind] in *.
        destruct Hitem as [[Hnb _]|H]; [|destruct (dt_need_reverse AxisDirMarker); discriminate H].
        right. cbn [dt_need_reverse]. do 2 eexists. split; [reflexivity|].
        assert (st <> j) by (intros ->; apply Hnb; congruence). lia.
      + assert (st <> j).
        { intros ->. destruct Hb as (c' & a & Hb & _). congruence. }
        destruct (IH (S st) j d ltac:(lia) ltac:(lia) Hj Hb) as [H'|(x & st' & H' & Hst')];
          [left; exact H'|right; exists x, st'; split; [exact H'|lia]].
  Qed.

  Lemma edges_bad : forall j d, nth_error (ag_dirs geo) j = Some d -> bad d ->
    forall n st, (j - st < n)%nat -> (st <= j)%nat ->
    exists l it, Consumed (edges_next m g) (mkEdges c o st AxisDirMarker) l it /\
      edges_next m g it = Fail FUB.
  Proof using RF AX Hdir BC HR Hc Ho.
    intros j d Hj Hb. pose proof HR as [Hs _].
    induction n as [|n IH]; intros st Hn Hle; [lia|].
    pose proof (edges_loop_bad _ st j d eq_refl Hle Hj Hb) as H.
    assert (Hnext : edges_next m g (mkEdges c o st AxisDirMarker)
      = edges_loop m g (mkEdges c o st AxisDirMarker) (length (ag_dirs geo) - st)).
    { unfold edges_next, edges_bound. rewrite Hs. cbn [ed_directed dt_DIRECTED ed_state].
      rewrite (ao_ucount _ _ _ AX). reflexivity. }
    destruct H as [H|(x & st' & H & Hst')].
    - exists [], (mkEdges c o st AxisDirMarker). split; [constructor|]. rewrite Hnext. exact H.
    - destruct (IH st' ltac:(lia) ltac:(lia)) as (l & it & H1 & H2).
      exists (x :: l), it. split; auto. econstructor; [rewrite Hnext; exact H|exact H1].
  Qed.
End U.

Lemma untraversable_ub : forall A D N E m (s : Shape Cell A D) G, Untraversable s G ->
  forall (g : LatticeGraph Cell A D N E) nf ef, Built m s G g nf ef ->
  exists c it l it', In c (geo_nodes G) /\ edges m g c = Ok it /\
    Consumed (edges_next m g) it l it' /\ edges_next m g it' = Fail FUB.
Proof.
  intros A D N E m s G H g nf ef HB.
  destruct (untraversable_missing _ _ _ _ H) as (Hdir & BC & c & d & c' & a & Hc & Hst & Ho & Hne).
  pose proof (untraversable_stored _ _ _ _ H) as STO. refine_store m STO.
  pose proof (built_rep RF _ _ _ HB) as HR. pose proof HR as [Hs _].
  destruct (on_board_offset RF c Hc) as (x & y & _ & _ & _ & Hoff & _).
  destruct (In_nth_error _ _ (all_dirs_in (rf_axis _ _ _ _ RF) d)) as (j & Hj).
  destruct (edges_bad RF Hdir BC g nf ef HR c Hc (x, y) Hoff j d Hj) with (n := S j) (st := 0%nat)
    as (l & it & H1 & H2); [|lia|lia|].
  { exists c', a. auto. }
  exists c, (mkEdges c (x, y) 0%nat AxisDirMarker), l, it. split; auto. split; [|auto].
  unfold edges, edges_new_d. rewrite Hs, Hoff. reflexivity.
Qed.
