(** * OneWayProofs: graphs over the shapes of Spec20.v (C116). *)

From Verif Require Import Machine Store Axes Shapes Lattice Spec Spec19 Spec20 Basics AxisProofs
  GeoProofs ShapeProofs StoreProofs GraphProofs RepProofs IterProofs EdgeProofs UnsafeProofs
  CustomProofs.
From Coq Require Import ZifyBool ZifyNat.

Lemma da_true : forall m, debug_assert m true = Ok tt.
Proof. intros []; reflexivity. Qed.

(** ** An iterator over edges that fails at some direction *)

Section Stop.
  Context {A D N E : Type} {m : mode} {s : Shape Cell A D} {G : Geometry A D}
    {cell : Z -> Z -> Cell} (RF : Refines m s G cell).
  Notation ax := (sh_axis s).
  Notation geo := (geo_ax G).
  Notation graph := (LatticeGraph Cell A D N E).
  Let AX : AxisOK m ax geo := rf_axis _ _ _ _ RF.
  Context (g : graph) (c : Cell) (o : Offset) (k : DtMarker)
    (ref : D -> Cell -> list (EdgeReference Cell E D)) (j : nat) (d0 : D) (t : Cell) (f : fault)
    (Hs : g_s g = s) (Hc : In c (geo_nodes G))
    (Hitem : forall st d c', nth_error (ag_dirs geo) st = Some d -> (st < j)%nat ->
       geo_step G c d = Some c' ->
       exists r, edge_item (s := s) (m := m) g c o k st d c' = Ok r /\ ref d c' = [r])
    (Hj : nth_error (ag_dirs geo) j = Some d0) (Hlt : (j < eb (s := s) k)%nat)
    (Ht : geo_step G c d0 = Some t) (Hf : edge_item (s := s) (m := m) g c o k j d0 t = Fail f).

  Lemma stop_loop : forall rounds st, rounds = (eb (s := s) k - st)%nat -> (st <= j)%nat ->
    match flat_map (ref_list (G := G) c ref) (skipn st (firstn j (ag_dirs geo))) with
    | [] => edges_loop m g (mkEdges c o st k) rounds = Fail f
    | x :: l => exists st', (st < st' <= j)%nat /\
        edges_loop m g (mkEdges c o st k) rounds = Ok (Some x, mkEdges c o st' k) /\
        l = flat_map (ref_list (G := G) c ref) (skipn st' (firstn j (ag_dirs geo)))
    end.
  Proof using AX RF Hs Hc Hitem Hj Hlt Ht Hf.
    pose proof (eb_le RF k) as Hle.
    induction rounds as [|r IH]; intros st Hr Hst; [lia|].
    destruct (Nat.eq_dec st j) as [->|Hne].
    - rewrite skipn_short by (rewrite firstn_length; lia). cbn [flat_map].
      cbn [edges_loop ed_state ed_node ed_offset ed_directed]. rewrite Hs.
      rewrite (ao_dir_from_index_unchecked _ _ _ AX _ _ Hj). cbn [bind].
      rewrite (rf_move _ _ _ _ RF) by auto. cbn [bind]. rewrite Ht.
      clear IH Hitem. rename Hf into Hitem. unfold edge_item in Hitem.
      destruct (get_raw_id m k s d0 o t j) as [[nx ne]|]; cbn [bind] in *; [|congruence].
      destruct (ax_from_direction ax m d0) as [a|]; cbn [bind] in *; [|congruence].
      destruct (debug_assert m (Nat.eqb (ax_to_index ax a) ne)); cbn [bind] in *; [|congruence].
      destruct (edge_weight_unchecked_raw g nx ne) as [wt|]; cbn [bind] in *; [discriminate|].
      congruence.
    - destruct (nth_error (ag_dirs geo) st) as [d|] eqn:Ed; [|apply nth_error_None in Ed; lia].
      assert (Ed' : nth_error (firstn j (ag_dirs geo)) st = Some d).
      { rewrite <- Ed. rewrite <- (firstn_skipn j (ag_dirs geo)) at 2.
        rewrite nth_error_app1 by (rewrite firstn_length; lia). reflexivity. }
      rewrite (skipn_nth _ _ _ _ Ed'). cbn [flat_map].
      specialize (IH (S st) ltac:(lia) ltac:(lia)).
      cbn [edges_loop ed_state ed_node ed_offset ed_directed]. rewrite Hs.
      rewrite (ao_dir_from_index_unchecked _ _ _ AX _ _ Ed). cbn [bind].
      rewrite (rf_move _ _ _ _ RF) by auto. cbn [bind]. unfold ref_list at 1.
      destruct (geo_step G c d) as [c'|] eqn:Es; cbn [app].
      + destruct (Hitem st d c' Ed ltac:(lia) Es) as (r0 & Hi & Hr0). rewrite Hr0. cbn [app].
        exists (S st). split; [lia|]. split; [|reflexivity].
        clear - Hi Hs. unfold edge_item in Hi.
        destruct (get_raw_id m k s d o c' st) as [[nx ne]|]; [|discriminate]. cbn [bind] in *.
        destruct (ax_from_direction ax m d) as [a|]; [|discriminate]. cbn [bind] in *.
        destruct (debug_assert m (Nat.eqb (ax_to_index ax a) ne)); [|discriminate]. cbn [bind] in *.
        destruct (edge_weight_unchecked_raw g nx ne) as [wt|]; [|discriminate]. cbn [bind] in *.
        destruct (dt_need_reverse k); cbn iota in *; congruence.
      + destruct (flat_map _ (skipn (S st) _)) as [|x l]; [exact IH|].
        destruct IH as (st' & H1 & H2 & H3). exists st'. split; [lia|]. auto.
  Qed.

  Lemma stop_run : forall n st, (j - st <= n)%nat -> (st <= j)%nat ->
    exists it, Consumed (edges_next m g) (mkEdges c o st k)
        (flat_map (ref_list (G := G) c ref) (skipn st (firstn j (ag_dirs geo)))) it /\
      edges_next m g it = Fail f.
  Proof using AX RF Hs Hc Hitem Hj Hlt Ht Hf.
    assert (Hnext : forall st, edges_next m g (mkEdges c o st k)
      = edges_loop m g (mkEdges c o st k) (eb (s := s) k - st)).
    { intros st. unfold edges_next, eb. rewrite Hs. reflexivity. }
    induction n as [|n IH]; intros st Hn Hst;
      pose proof (stop_loop _ st eq_refl Hst) as HL; rewrite <- Hnext in HL;
      destruct (flat_map _ (skipn st _)) as [|x l];
      try (exists (mkEdges c o st k); split; [constructor|exact HL]).
    - destruct HL as (st' & H1 & _). lia.
    - destruct HL as (st' & H1 & H2 & H3).
      destruct (IH st' ltac:(lia) ltac:(lia)) as (it & I1 & I2). exists it. split; auto.
      econstructor; [exact H2|]. rewrite H3. exact I1.
  Qed.
End Stop.

(** ** Shapes of Spec20.v *)

Section OneWay.
  Context {A D N E : Type} {m : mode} {s : Shape Cell A D} {axes : list A} {fwd : A -> D}
    {opp : D -> D} {cell : Z -> Z -> Cell} {step : Cell -> D -> option Cell}
    {coord : Cell -> Prop} (SC : OneWayContract m s axes fwd opp cell step coord).
  Notation G := (contract_geometry s axes fwd opp cell step coord).
  Notation nodes := (board (sh_horizontal s) (sh_vertical s) cell).
  Notation ax := (sh_axis s).
  Notation dirs := (all_dirs (ax_DIRECTED ax) axes fwd opp).
  Notation graph := (LatticeGraph Cell A D N E).
  Let AC : AxisContract m ax axes fwd opp := owc_axis _ _ _ _ _ _ _ _ SC.

  Lemma ow_refines : Refines m s G cell.
  Proof using SC.
    pose proof (contract_axis (cell := cell) (step := step) (coord := coord)
      (owc_axis _ _ _ _ _ _ _ _ SC)) as AX.
    constructor; cbn [geo_nodes geo_step geo_coord geo_extreme contract_geometry].
    - exact AX.
    - apply SC.
    - apply SC.
    - reflexivity.
    - intros x y Hx Hy. apply (owc_cell _ _ _ _ _ _ _ _ SC x y Hx Hy).
    - intros x y Hx Hy. apply (owc_cell _ _ _ _ _ _ _ _ SC x y Hx Hy).
    - intros x y Hx Hy. apply (owc_cell _ _ _ _ _ _ _ _ SC x y Hx Hy).
    - apply SC.
    - apply SC.
    - intros c Hc. apply in_board in Hc. destruct Hc as (x & y & Hx & Hy & ->).
      split; [apply (owc_cell _ _ _ _ _ _ _ _ SC x y Hx Hy)|]. intros [].
    - intros c Hc Hn _. apply (owc_outside _ _ _ _ _ _ _ _ SC); auto.
    - intros c _ [].
  Qed.
  Let RF := ow_refines.
  Let AX : AxisOK m ax (geo_ax G) := rf_axis _ _ _ _ RF.

  Lemma ow_bwd : forall a, opposite (geo_ax G) (opp (fwd a)) (fwd a).
  Proof using AC. intros a. apply (opposite_iff AC). symmetry. apply (axc_opp _ _ _ _ _ AC). Qed.

  Lemma ow_not_fwd : ax_DIRECTED ax = false -> forall a a', ~ opposite (geo_ax G) (fwd a) (fwd a').
  Proof using AX. intros Hd a a' H. exact (ao_undirected_opp _ _ _ AX Hd a a' H). Qed.

  Lemma map_flat : forall X Y Z (f : X -> Y) (k : Y -> list Z) l,
    flat_map k (map f l) = flat_map (fun a => k (f a)) l.
  Proof. intros X Y Z f k l. induction l as [|x l IH]; cbn [map flat_map]; auto. rewrite IH. auto. Qed.

  Lemma out_along : forall (ef : Cell -> A -> E) c l,
    flat_map (ref_list (G := G) c (out_ref (G := G) ef c)) (map fwd l) = along fwd step ef c l.
  Proof using RF.
    intros ef c l. rewrite map_flat. apply flat_map_ext. intros a. unfold ref_list, out_ref.
    cbn [geo_step contract_geometry]. destruct (step c (fwd a)) as [c'|]; auto.
    pose proof (edge_name_fwd RF c a c') as H. cbn [geo_ax contract_geometry ag_fwd] in H.
    rewrite H. reflexivity.
  Qed.
  Lemma out_against : ax_DIRECTED ax = false -> forall (ef : Cell -> A -> E) c l,
    flat_map (ref_list (G := G) c (out_ref (G := G) ef c)) (map (fun a => opp (fwd a)) l)
    = against fwd opp step ef c l.
  Proof using RF AC.
    intros Hd ef c l. rewrite map_flat. apply flat_map_ext. intros a. unfold ref_list, out_ref.
    cbn [geo_step contract_geometry]. destruct (step c (opp (fwd a))) as [c'|]; auto.
    rewrite (edge_name_bwd RF c (opp (fwd a)) a c' Hd (ow_bwd a)). reflexivity.
  Qed.
  Lemma rev_turned : forall (ef : Cell -> A -> E) c l,
    flat_map (ref_list (G := G) c (rev_ref (G := G) ef c)) l
    = map turned (flat_map (ref_list (G := G) c (out_ref (G := G) ef c)) l).
  Proof using Type.
    intros ef c l. induction l as [|d l IH]; cbn [flat_map map]; auto.
    rewrite map_app, IH. f_equal. unfold ref_list, rev_ref, out_ref.
    destruct (geo_step G c d) as [c'|]; auto. destruct (edge_name G c d c') as [[x a]|]; auto.
  Qed.

  (** The directions that are safe. *)
  Lemma ow_readable : forall c d c', step c d = Some c' ->
    (forall a, ax_DIRECTED ax = false -> d = opp (fwd a) -> has_weight fwd opp step c a) ->
    readable (G := G) d c'.
  Proof using SC AC.
    intros c d c' Hs H a Hd Ho. apply (opposite_iff AC) in Ho.
    assert (Ed : d = opp (fwd a)).
    { cbn [geo_ax contract_geometry ag_fwd] in Ho. rewrite Ho. symmetry. apply (axc_opp _ _ _ _ _ AC). }
    split; [eapply (owc_stay _ _ _ _ _ _ _ _ SC); eauto|]. cbn [geo_step contract_geometry geo_ax ag_fwd].
    apply (H a Hd Ed c'). congruence.
  Qed.

  Section Graph.
    Context (g : graph) (nf : Cell -> N) (ef : Cell -> A -> E) (HB : Built m s G g nf ef)
      (c : Cell) (Hc : In c nodes).
    Let HR := built_rep RF _ _ _ HB.

    Lemma ow_edges_safe : forall k, dt_DIRECTED k = false -> dt_need_reverse k = false ->
      (ax_DIRECTED ax = false -> forall a, has_weight fwd opp step c a) ->
      exists it, edges_new_d m g c k = Ok it /\
        Drains (edges_next m g) it (step_edges (ax_DIRECTED ax) axes fwd opp step ef c).
    Proof using SC HB Hc HR AX AC RF.
      intros k Hk1 Hk2 HW. pose proof HR as [Hs _].
      destruct (edges_start RF g c k Hs Hc) as (o & Ho & Hn & _).
      exists (mkEdges c o 0%nat k). split; auto.
      eapply IterInv_drains.
      - apply (edges_inv RF g c o k (out_ref (G := G) ef c)); auto. intros st d c' Hd _ Hst.
        eapply (item_out RF); eauto. eapply ow_readable; eauto.
      - exists 0%nat. split; auto. split; [lia|]. rewrite (eb_all RF k Hk1). cbn [skipn].
        cbn [geo_ax contract_geometry ag_dirs]. unfold all_dirs, step_edges.
        rewrite flat_map_app, out_along. unfold along. f_equal.
        destruct (ax_DIRECTED ax) eqn:Hd; auto. rewrite out_against by auto. reflexivity.
    Qed.

    Lemma ow_incoming_safe : ax_DIRECTED ax = false -> (forall a, has_weight fwd opp step c a) ->
      exists it, edges_directed m g c Incoming = Ok it /\
        Drains (edges_next m g) it (map turned (step_edges false axes fwd opp step ef c)).
    Proof using SC HB Hc HR AX AC RF.
      intros Hd HW. pose proof HR as [Hs _].
      destruct (edges_start RF g c (PetMarker Incoming) Hs Hc) as (o & Ho & Hn & _).
      exists (mkEdges c o 0%nat (PetMarker Incoming)). split; auto.
      eapply IterInv_drains.
      - apply (edges_inv RF g c o (PetMarker Incoming) (rev_ref (G := G) ef c)); auto.
        intros st d c' Hd' _ Hst.
        eapply (item_in_undirected RF); eauto. eapply ow_readable; eauto.
      - exists 0%nat. split; auto. split; [lia|]. rewrite (eb_all RF (PetMarker Incoming) eq_refl). cbn [skipn].
        rewrite rev_turned. f_equal.
        cbn [geo_ax contract_geometry ag_dirs]. unfold all_dirs, step_edges. rewrite Hd.
        rewrite flat_map_app, out_along, out_against by auto. reflexivity.
    Qed.

    (** The first axis against which there is a step to a node without edge. *)
    Context (l1 : list A) (a0 : A) (l2 : list A) (c0 : Cell) (Hax : axes = l1 ++ a0 :: l2).

    Let j := (length axes + length l1)%nat.

    Lemma ow_dirs : ax_DIRECTED ax = false ->
      dirs = (map fwd axes ++ map (fun a => opp (fwd a)) l1)
        ++ opp (fwd a0) :: map (fun a => opp (fwd a)) l2.
    Proof using Hax.
      intros Hd. unfold all_dirs. rewrite Hd. rewrite Hax at 2. rewrite map_app. cbn [map].
      apply app_assoc.
    Qed.
    Lemma ow_dirs_len : length (map fwd axes ++ map (fun a => opp (fwd a)) l1) = j.
    Proof using Type. rewrite app_length, !map_length. reflexivity. Qed.

    Lemma ow_dirs_nth : ax_DIRECTED ax = false -> nth_error dirs j = Some (opp (fwd a0)).
    Proof using Hax.
      intros Hd. rewrite (ow_dirs Hd). rewrite nth_error_app2 by (rewrite ow_dirs_len; lia).
      rewrite ow_dirs_len, Nat.sub_diag. reflexivity.
    Qed.
    Lemma ow_dirs_firstn : ax_DIRECTED ax = false ->
      firstn j dirs = map fwd axes ++ map (fun a => opp (fwd a)) l1.
    Proof using Hax.
      intros Hd. rewrite (ow_dirs Hd), <- ow_dirs_len, firstn_app, Nat.sub_diag, firstn_all.
      cbn [firstn]. apply app_nil_r.
    Qed.

    Lemma ow_bad_item : forall k o, ax_DIRECTED ax = false ->
      step c (opp (fwd a0)) = Some c0 -> step c0 (fwd a0) = None ->
      edge_item (s := s) (m := m) g c o k j (opp (fwd a0)) c0 = Fail FUB.
    Proof using SC HB HR AX AC RF Hax.
      intros k o Hd H1 H2. unfold edge_item.
      replace (get_raw_id m k s (opp (fwd a0)) o c0 j)
        with (default_get_raw_id m s (opp (fwd a0)) o c0 j)
        by (unfold get_raw_id; rewrite Hd; destruct k as [| |[|]]; reflexivity).
      unfold default_get_raw_id. rewrite (axc_back _ _ _ _ _ AC Hd). cbn [bind].
      assert (Hc0 : In c0 nodes) by (eapply (owc_stay _ _ _ _ _ _ _ _ SC); eauto).
      destruct (on_board_offset RF c0 Hc0) as (x & y & Hx & Hy & _ & Ho' & Hu').
      rewrite Hu'. cbn [bind].
      assert (Hi : ax_to_index ax a0 = length l1).
      { apply (axc_index _ _ _ _ _ AC). rewrite Hax, nth_error_app2, Nat.sub_diag; auto. }
      replace (Nat.ltb j (ax_COUNT ax)) with false
        by (symmetry; apply Nat.ltb_ge; rewrite (axc_count _ _ _ _ _ AC); unfold j; lia).
      cbn [bind]. rewrite (axc_from_back _ _ _ _ _ AC Hd). cbn [bind].
      replace (j - ax_COUNT ax)%nat with (ax_to_index ax a0)
        by (rewrite (axc_count _ _ _ _ _ AC); unfold j; lia).
      rewrite Nat.eqb_refl, da_true.
      cbn [bind]. rewrite (rep_edge_absent RF g nf ef c0 a0 (x, y)); auto.
      intros [_ HH]. apply HH. exact H2.
    Qed.

    Lemma ow_bad_safe : (forall a, In a l1 -> has_weight fwd opp step c a) ->
      forall st d c', nth_error dirs st = Some d -> (st < j)%nat -> step c d = Some c' ->
      ax_DIRECTED ax = false -> readable (G := G) d c'.
    Proof using SC AC AX Hax.
      intros HW st d c' Hd Hlt Hst Hdir. eapply ow_readable; eauto. intros a _ Ea. apply HW.
      assert (Hin : In d (firstn j dirs)).
      { apply (nth_error_In _ st). rewrite <- Hd. rewrite <- (firstn_skipn j dirs) at 2.
        rewrite nth_error_app1; auto. rewrite firstn_length.
        assert (st < length dirs)%nat by (apply nth_error_Some; congruence). lia. }
      rewrite (ow_dirs_firstn Hdir) in Hin. apply in_app_iff in Hin. destruct Hin as [Hin|Hin].
      - apply in_map_iff in Hin. destruct Hin as (a' & E' & _). exfalso.
        apply (ow_not_fwd Hdir a' a). rewrite E', Ea. apply ow_bwd.
      - apply in_map_iff in Hin. destruct Hin as (a' & E' & Hin).
        assert (a' = a) as <-; auto.
        apply (ao_fwd_inj _ _ _ AX). cbn [geo_ax contract_geometry ag_fwd].
        rewrite <- (axc_opp _ _ _ _ _ AC (fwd a')), E', Ea. apply (axc_opp _ _ _ _ _ AC).
    Qed.

    Context (Hdir : ax_DIRECTED ax = false) (HW : forall a, In a l1 -> has_weight fwd opp step c a)
      (H1 : step c (opp (fwd a0)) = Some c0) (H2 : step c0 (fwd a0) = None).

    Lemma ow_j_lt : forall k, dt_DIRECTED k = false -> (j < eb (s := s) k)%nat.
    Proof using AC Hax Hdir.
      intros k Hk. unfold eb, edges_bound. rewrite Hk, (axc_dcount _ _ _ _ _ AC).
      apply nth_error_Some. rewrite (ow_dirs_nth Hdir). discriminate.
    Qed.

    Lemma ow_edges_ub : forall k, dt_DIRECTED k = false -> dt_need_reverse k = false ->
      exists it it', edges_new_d m g c k = Ok it /\
      Consumed (edges_next m g) it (along fwd step ef c axes ++ against fwd opp step ef c l1) it' /\
      edges_next m g it' = Fail FUB.
    Proof using SC HB Hc HR AX AC RF Hax Hdir HW H1 H2.
      intros k Hk1 Hk2. pose proof HR as [Hs _].
      destruct (edges_start RF g c k Hs Hc) as (o & Ho & Hn & _).
      destruct (stop_run RF g c o k (out_ref (G := G) ef c) j (opp (fwd a0)) c0 FUB)
        with (n := j) (st := 0%nat) as (it' & R1 & R2); auto; try lia.
      - intros st d c' Hd Hlt Hst. eapply (item_out RF); eauto. eapply ow_bad_safe; eauto.
      - exact (ow_dirs_nth Hdir).
      - apply ow_j_lt; auto.
      - apply ow_bad_item; auto.
      - exists (mkEdges c o 0%nat k), it'. split; auto. split; auto.
        cbn [skipn geo_ax contract_geometry ag_dirs] in R1. rewrite (ow_dirs_firstn Hdir) in R1.
        rewrite flat_map_app, out_along, out_against in R1 by auto. exact R1.
    Qed.

    Lemma ow_incoming_ub : exists it it', edges_directed m g c Incoming = Ok it /\
      Consumed (edges_next m g) it
        (map turned (along fwd step ef c axes ++ against fwd opp step ef c l1)) it' /\
      edges_next m g it' = Fail FUB.
    Proof using SC HB Hc HR AX AC RF Hax Hdir HW H1 H2.
      pose proof HR as [Hs _]. pose (k := PetMarker Incoming).
      destruct (edges_start RF g c k Hs Hc) as (o & Ho & Hn & _).
      destruct (stop_run RF g c o k (rev_ref (G := G) ef c) j (opp (fwd a0)) c0 FUB)
        with (n := j) (st := 0%nat) as (it' & R1 & R2); auto; try lia.
      - intros st d c' Hd Hlt Hst. eapply (item_in_undirected RF); eauto. eapply ow_bad_safe; eauto.
      - exact (ow_dirs_nth Hdir).
      - apply ow_j_lt; auto.
      - apply ow_bad_item; auto.
      - exists (mkEdges c o 0%nat k), it'. split; auto. split; auto.
        rewrite rev_turned in R1.
        cbn [skipn geo_ax contract_geometry ag_dirs] in R1. rewrite (ow_dirs_firstn Hdir) in R1.
        rewrite flat_map_app, out_along, out_against in R1 by auto. exact R1.
    Qed.
  End Graph.

  (** ** Incoming edges of directed graphs *)

  Section Directed.
    Context (back : A -> A) (Hback : forall a, fwd (back a) = opp (fwd a))
      (Hdir : ax_DIRECTED ax = true) (Hm : m = Release)
      (g : graph) (nf : Cell -> N) (ef : Cell -> A -> E) (HB : Built m s G g nf ef)
      (c : Cell) (Hc : In c nodes).
    Let HR := built_rep RF _ _ _ HB.

    Lemma ow_axes_in : forall a, In a axes.
    Proof using AC. intros a. eapply nth_error_In. apply (axc_to_index _ _ _ _ _ AC). Qed.

    Lemma ow_dirs_directed : dirs = map fwd axes.
    Proof using Hdir. unfold all_dirs. rewrite Hdir. apply app_nil_r. Qed.

    Definition src_ref (d : D) (c' : Cell) : list (EdgeReference Cell E D) :=
      flat_map (fun a => if Nat.eqb (dir_to_index (ax_dir ax) (fwd a)) (dir_to_index (ax_dir ax) d)
                         then [mkEdgeRef c' c (ef c' (back a)) (fwd a)] else []) axes.

    Lemma src_ref_fwd : forall a c', src_ref (fwd a) c' = [mkEdgeRef c' c (ef c' (back a)) (fwd a)].
    Proof using AC AX.
      clear - AC AX. intros a c'. unfold src_ref.
      assert (ND : NoDup axes) by exact (axes_nodup AX).
      assert (Hin : In a axes) by apply ow_axes_in.
      assert (FI : forall b, Nat.eqb (dir_to_index (ax_dir ax) (fwd b)) (dir_to_index (ax_dir ax) (fwd a)) = true -> b = a).
      { intros b Hb. apply Nat.eqb_eq in Hb. apply (num_inj AC) in Hb.
        exact (ao_fwd_inj _ _ _ AX _ _ Hb). }
      revert ND Hin. generalize axes. clear - FI. intros L. induction L as [|b l IH]; intros ND Hin; [destruct Hin|].
      inversion ND as [|? ? Hn ND']; subst. cbn [flat_map].
      destruct (Nat.eqb _ _) eqn:Eb.
      - apply FI in Eb. subst b. cbn [app]. f_equal.
        clear - Hn FI. induction l as [|b l IH]; auto. cbn [flat_map].
        destruct (Nat.eqb _ _) eqn:Eb; [apply FI in Eb; subst b; exfalso; apply Hn; left; auto|].
        apply IH. intros H. apply Hn. right. auto.
      - destruct Hin as [->|Hin]; [rewrite Nat.eqb_refl in Eb; discriminate|]. cbn [app]. auto.
    Qed.

    Lemma src_list : forall l,
      flat_map (ref_list (G := G) c src_ref) (map fwd l) = sources fwd back step ef c l.
    Proof using AC AX.
      intros l. rewrite map_flat. apply flat_map_ext. intros a. unfold ref_list.
      cbn [geo_step contract_geometry]. destruct (step c (fwd a)) as [c'|]; auto.
      apply src_ref_fwd.
    Qed.

    Lemma src_item : forall o st a c', step c (fwd a) = Some c' ->
      edge_item (s := s) (m := m) g c o (PetMarker Incoming) st (fwd a) c' =
      if step c' (opp (fwd a)) then Ok (mkEdgeRef c' c (ef c' (back a)) (fwd a)) else Fail FUB.
    Proof using SC HB HR AX AC RF Hback Hdir Hm.
      intros o st a c' Hst. assert (Hc' : In c' nodes) by (eapply (owc_stay _ _ _ _ _ _ _ _ SC); eauto).
      destruct (on_board_offset RF c' Hc') as (x & y & Hx & Hy & _ & Ho' & Hu').
      unfold edge_item, get_raw_id. rewrite Hdir, (axc_from _ _ _ _ _ AC). cbn [bind].
      rewrite (axc_backward _ _ _ _ _ AC). cbn [bind]. rewrite Hu'. cbn [bind].
      rewrite <- Hback, (fwd_num AC).
      match goal with |- context [debug_assert m ?b] =>
        replace (debug_assert m b) with (Ok tt) by (rewrite Hm; reflexivity) end.
      cbn [bind].
      destruct (step c' (fwd (back a))) as [t|] eqn:Et.
      - rewrite (rep_edge_raw RF g nf ef c' (back a) (x, y)); auto.
        split; [exact Hc'|]. cbn [geo_step contract_geometry geo_ax ag_fwd]. congruence.
      - rewrite (rep_edge_absent RF g nf ef c' (back a) (x, y)); auto. intros [_ HH]. auto.
    Qed.

    Lemma ow_sources_safe :
      (forall a c', step c (fwd a) = Some c' -> step c' (opp (fwd a)) <> None) ->
      exists it, edges_directed m g c Incoming = Ok it /\
        Drains (edges_next m g) it (sources fwd back step ef c axes).
    Proof using SC HB Hc HR AX AC RF Hback Hdir Hm.
      intros HW. pose proof HR as [Hs _]. pose (k := PetMarker Incoming).
      destruct (edges_start RF g c k Hs Hc) as (o & Ho & Hn & _).
      exists (mkEdges c o 0%nat k). split; auto.
      eapply IterInv_drains.
      - apply (edges_inv RF g c o k src_ref); auto. intros st d c' Hd _ Hst.
        destruct (ao_directed_fwd _ _ _ AX Hdir d) as (a & <-).
        cbn [geo_ax contract_geometry ag_fwd geo_step] in *.
        eexists. split; [|apply src_ref_fwd]. unfold k. rewrite src_item by auto.
        specialize (HW a c' Hst). destruct (step c' (opp (fwd a))); congruence.
      - exists 0%nat. split; auto. split; [lia|]. rewrite (eb_all RF k eq_refl). cbn [skipn].
        cbn [geo_ax contract_geometry ag_dirs]. rewrite ow_dirs_directed, src_list. reflexivity.
    Qed.

    Lemma ow_sources_ub : forall l1 a l2 c', axes = l1 ++ a :: l2 ->
      (forall b t, In b l1 -> step c (fwd b) = Some t -> step t (opp (fwd b)) <> None) ->
      step c (fwd a) = Some c' -> step c' (opp (fwd a)) = None ->
      exists it it', edges_directed m g c Incoming = Ok it /\
        Consumed (edges_next m g) it (sources fwd back step ef c l1) it' /\
        edges_next m g it' = Fail FUB.
    Proof using SC HB Hc HR AX AC RF Hback Hdir Hm.
      intros l1 a l2 c' Hax HW H1 H2. pose proof HR as [Hs _]. pose (k := PetMarker Incoming).
      destruct (edges_start RF g c k Hs Hc) as (o & Ho & Hn & _).
      assert (Hdl : dirs = map fwd l1 ++ fwd a :: map fwd l2)
        by (rewrite ow_dirs_directed; rewrite Hax at 1; rewrite map_app; reflexivity).
      assert (Hfn : firstn (length l1) dirs = map fwd l1).
      { rewrite Hdl, <- (map_length fwd l1), firstn_app, Nat.sub_diag, firstn_all.
        cbn [firstn]. apply app_nil_r. }
      assert (Hj : nth_error dirs (length l1) = Some (fwd a)).
      { rewrite Hdl, nth_error_app2 by (rewrite map_length; lia).
        rewrite map_length, Nat.sub_diag. reflexivity. }
      destruct (stop_run RF g c o k src_ref (length l1) (fwd a) c' FUB)
        with (n := length l1) (st := 0%nat) as (it' & R1 & R2); auto; try lia.
      - intros st d t Hd Hlt Hst.
        assert (Hin : In d (firstn (length l1) dirs)).
        { apply (nth_error_In _ st). cbn [geo_ax contract_geometry ag_dirs] in Hd. rewrite <- Hd.
          rewrite <- (firstn_skipn (length l1) dirs) at 2.
          rewrite nth_error_app1; auto. rewrite Hfn, map_length. auto. }
        rewrite Hfn in Hin. apply in_map_iff in Hin. destruct Hin as (b & <- & Hin).
        cbn [geo_step contract_geometry] in *.
        eexists. split; [|apply src_ref_fwd]. unfold k. rewrite src_item by auto.
        specialize (HW b t Hin Hst). destruct (step t (opp (fwd b))); congruence.
      - unfold eb, edges_bound. cbn [dt_DIRECTED k]. rewrite (axc_dcount _ _ _ _ _ AC).
        apply nth_error_Some. rewrite Hj. discriminate.
      - unfold k. rewrite src_item by auto. rewrite H2. reflexivity.
      - exists (mkEdges c o 0%nat k), it'. split; auto. split; auto.
        cbn [skipn geo_ax contract_geometry ag_dirs] in R1. rewrite Hfn, src_list in R1. exact R1.
    Qed.
  End Directed.
End OneWay.
