(** * IterProofs: the iterators of built graphs, adjacency tests, visit maps. *)

From Verif Require Import Machine Store Axes Shapes Lattice Spec Basics AxisProofs GeoProofs
  GraphProofs RepProofs.
From Coq Require Import FinFun ZifyBool ZifyNat.
Ltac Zify.zify_post_hook ::= Z.div_mod_to_equations.

Lemma skipn_nth : forall A (l : list A) i x, nth_error l i = Some x ->
  skipn i l = x :: skipn (S i) l.
Proof.
  induction l as [|y l IH]; intros [|i] x H; simpl in *; try discriminate; try congruence.
  apply IH; auto.
Qed.

Lemma skipn_short : forall A (l : list A) i, (length l <= i)%nat -> skipn i l = [].
Proof. intros. apply skipn_all2. auto. Qed.

Section I.
  Context {A D N E : Type} {m : mode} {s : Shape Cell A D} {G : Geometry A D}
    {cell : Z -> Z -> Cell} (RF : Refines m s G cell) (RG : Regular s G).
  Notation w := (sh_horizontal s).
  Notation h := (sh_vertical s).
  Notation ax := (sh_axis s).
  Notation geo := (geo_ax G).
  Notation graph := (LatticeGraph Cell A D N E).

  Let AX : AxisOK m ax geo := rf_axis _ _ _ _ RF.

  (** ** Nodes *)

  Definition node_pos (it : Z) (X : Type) (f : Cell -> X) (l : list X) : Prop :=
    0 <= it <= w * h /\ l = map f (skipn (Z.to_nat it) (geo_nodes G)).

  Lemma node_pos_case : forall i X (f : Cell -> X) l, node_pos i X f l ->
    match l with
    | [] => i = w * h
    | x :: l' => i < w * h /\ node_pos (i + 1) X f l' /\
        sh_index_to_coordinate s m i = Ok (cell (i / h) (i mod h)) /\
        In (cell (i / h) (i mod h)) (geo_nodes G) /\ x = f (cell (i / h) (i mod h))
    end.
  Proof using RF.
    intros i X f l [Hi Hl].
    destruct (Z.eq_dec i (w * h)) as [->|Hne].
    - rewrite skipn_short in Hl by (rewrite (nodes_length RF); lia). subst l. reflexivity.
    - assert (Hi' : 0 <= i < w * h) by lia.
      pose proof (nodes_nth RF i Hi') as Hn. rewrite (skipn_nth _ _ _ _ Hn) in Hl.
      cbn [map] in Hl. subst l. split; [lia|]. split; [|split; [|split]].
      + split; [lia|]. replace (Z.to_nat (i + 1)) with (S (Z.to_nat i)) by lia. reflexivity.
      + apply (index_to_coordinate_ok RF). auto.
      + eapply nth_error_In; eauto.
      + reflexivity.
  Qed.

  Lemma node_pos_start : forall X (f : Cell -> X), node_pos 0 X f (map f (geo_nodes G)).
  Proof using RF. intros. split; [pose proof (wh_range RF); lia|reflexivity]. Qed.

  Lemma node_pos_len : forall i X (f : Cell -> X) l, node_pos i X f l ->
    Z.of_nat (length l) = w * h - i.
  Proof using RF.
    intros i X f l [Hi ->]. rewrite map_length, skipn_length, (nodes_length RF). lia.
  Qed.

  Lemma succ_ok : forall i, 0 <= i < w * h -> usize_add m i 1 = Ok (i + 1).
  Proof using RF.
    intros i Hi. pose proof (wh_range RF) as W. rewrite IMAX1_val in W. apply usize_add_ok.
    rewrite USIZE_val. lia.
  Qed.

  Lemma node_indices_inv : IterInv (node_indices_next m s) (fun i l => node_pos i _ (fun c => c) l).
  Proof using RF.
    intros i l HP. pose proof (node_pos_case _ _ _ _ HP) as HC. pose proof HP as [Hi _].
    assert (Hend : i = w * h -> node_indices_next m s i = Ok (None, i)).
    { intros ->. unfold node_indices_next. rewrite (node_count_ok RF). cbn [bind].
      rewrite Z.ltb_irrefl. reflexivity. }
    destruct l as [|x l].
    - exists i. rewrite Hend by auto. auto.
    - destruct HC as (H1 & H2 & H3 & H4 & ->). exists (i + 1). split; [|exact H2].
      unfold node_indices_next. rewrite (node_count_ok RF). cbn [bind].
      replace (i <? w * h) with true by lia. rewrite H3. cbn [bind].
      rewrite succ_ok by lia. reflexivity.
  Qed.

  Lemma node_references_inv : forall (g : graph) nf ef, Rep (G := G) (cell := cell) (s := s) g nf ef ->
    IterInv (node_references_next m g) (fun i l => node_pos i _ (fun c => (c, nf c)) l).
  Proof using RF.
    intros g nf ef HR i l HP. pose proof (node_pos_case _ _ _ _ HP) as HC. pose proof HP as [Hi _].
    pose proof HR as [Hs _].
    assert (Hend : i = w * h -> node_references_next m g i = Ok (None, i)).
    { intros ->. unfold node_references_next. rewrite Hs, (node_count_ok RF). cbn [bind].
      rewrite Z.ltb_irrefl. reflexivity. }
    destruct l as [|x l].
    - exists i. rewrite Hend by auto. auto.
    - destruct HC as (H1 & H2 & H3 & H4 & ->). exists (i + 1). split; [|exact H2].
      unfold node_references_next. rewrite Hs, (node_count_ok RF). cbn [bind].
      replace (i <? w * h) with true by lia. rewrite H3. cbn [bind].
      rewrite succ_ok by lia. cbn [bind]. rewrite (rep_node_unchecked RF g nf ef) by auto.
      reflexivity.
  Qed.

  (** ** Neighbours *)

  Definition steps (c : Cell) (d : D) : list Cell :=
    match geo_step G c d with Some c' => [c'] | None => [] end.

  Definition nb_pos (c : Cell) (st : nat) (l : list Cell) : Prop :=
    (st <= ax_UNDIRECTED_COUNT ax)%nat /\ l = flat_map (steps c) (skipn st (ag_dirs geo)).

  Lemma neighbors_loop_ok : forall c, In c (geo_nodes G) -> forall rounds st l,
    rounds = (ax_UNDIRECTED_COUNT ax - st)%nat -> nb_pos c st l ->
    match l with
    | [] => neighbors_loop m s c rounds st = Ok (None, ax_UNDIRECTED_COUNT ax)
    | x :: l' => exists st', neighbors_loop m s c rounds st = Ok (Some x, st') /\ nb_pos c st' l'
    end.
  Proof using RF AX.
    intros c Hc. induction rounds as [|r IH]; intros st l Hr [Hst Hl].
    - rewrite skipn_short in Hl by (rewrite <- (ao_ucount _ _ _ AX); lia). cbn in Hl. subst l.
      cbn [neighbors_loop]. do 2 f_equal. lia.
    - destruct (nth_error (ag_dirs geo) st) as [d|] eqn:Ed;
        [|apply nth_error_None in Ed; rewrite <- (ao_ucount _ _ _ AX) in Ed; lia].
      rewrite (skipn_nth _ _ _ _ Ed) in Hl. cbn [flat_map] in Hl.
      cbn [neighbors_loop]. rewrite (ao_dir_from_index_unchecked _ _ _ AX _ _ Ed). cbn [bind].
      rewrite (rf_move _ _ _ _ RF) by auto. cbn [bind]. unfold steps in Hl at 1.
      destruct (geo_step G c d) as [t|]; cbn [app] in Hl.
      + subst l. exists (S st). split; auto. split; [lia|reflexivity].
      + apply (IH (S st) l); [lia|]. split; [lia|auto].
  Qed.

  Lemma neighbors_inv : forall (g : graph) c, g_s g = s -> In c (geo_nodes G) ->
    IterInv (neighbors_next m g c) (nb_pos c).
  Proof using RF AX.
    intros g c Hs Hc st l HP. pose proof (neighbors_loop_ok c Hc _ st l eq_refl HP) as H.
    unfold neighbors_next. rewrite Hs. destruct l as [|x l]; auto.
    exists (ax_UNDIRECTED_COUNT ax). split; auto.
    rewrite Nat.sub_diag. reflexivity.
  Qed.

  Lemma nb_pos_start : forall c, nb_pos c 0 (spec_neighbors G c).
  Proof. intros c. split; [lia|reflexivity]. Qed.

  Lemma flat_map_le : forall X Y (f : X -> list Y) l, (forall x, (length (f x) <= 1)%nat) ->
    (length (flat_map f l) <= length l)%nat.
  Proof.
    intros X Y f l Hf. induction l as [|x l IH]; simpl; auto.
    rewrite app_length. pose proof (Hf x). lia.
  Qed.

  Lemma steps_le : forall c d, (length (steps c d) <= 1)%nat.
  Proof. intros. unfold steps. destruct (geo_step G c d); simpl; lia. Qed.

  Lemma nb_pos_len : forall c st l, nb_pos c st l ->
    (length l <= ax_UNDIRECTED_COUNT ax - st)%nat.
  Proof using AX.
    intros c st l [H ->]. eapply Nat.le_trans; [apply flat_map_le; apply steps_le|].
    rewrite skipn_length, (ao_ucount _ _ _ AX). lia.
  Qed.

  (** ** Edges of a node *)

  (** The body of [edges_loop] once the neighbour is known. *)
  Definition edge_item (g : graph) (c : Cell) (o : Offset) (k : DtMarker) (st : nat) (d : D)
    (target : Cell) : outcome (EdgeReference Cell E D) :=
    let! (nx, ne) := get_raw_id m k s d o target st in
    let! a := ax_from_direction ax m d in
    let! _ := debug_assert m (Nat.eqb (ax_to_index ax a) ne) in
    let! wt := edge_weight_unchecked_raw g nx ne in
    Ok (if dt_need_reverse k then mkEdgeRef target c wt d else mkEdgeRef c target wt d).

  Definition ref_list (c : Cell) (ref : D -> Cell -> list (EdgeReference Cell E D)) (d : D) :=
    match geo_step G c d with Some c' => ref d c' | None => [] end.

  Definition eb (k : DtMarker) : nat := edges_bound s k.

  Definition ed_pos (c : Cell) (o : Offset) (k : DtMarker)
    (ref : D -> Cell -> list (EdgeReference Cell E D)) (it : EdgesState Cell)
    (l : list (EdgeReference Cell E D)) : Prop :=
    exists st, it = mkEdges c o st k /\ (st <= eb k)%nat /\
      l = flat_map (ref_list c ref) (skipn st (firstn (eb k) (ag_dirs geo))).

  Lemma eb_le : forall k, (eb k <= length (ag_dirs geo))%nat.
  Proof using AX.
    intros k. unfold eb, edges_bound. destruct (dt_DIRECTED k).
    - rewrite (ao_count _ _ _ AX).
      rewrite <- (map_length (ag_fwd geo)).
      apply NoDup_incl_length.
      + apply Injective_map_NoDup; [|apply (axes_nodup AX)].
        intros a b Hab. apply (ao_fwd_inj _ _ _ AX). auto.
      + intros d _. apply (all_dirs_in AX).
    - rewrite (ao_ucount _ _ _ AX). lia.
  Qed.

  Lemma edges_loop_ok : forall (g : graph) c o k ref, g_s g = s -> In c (geo_nodes G) ->
    (forall st d c', nth_error (ag_dirs geo) st = Some d -> (st < eb k)%nat ->
       geo_step G c d = Some c' ->
       exists r, edge_item g c o k st d c' = Ok r /\ ref d c' = [r]) ->
    forall rounds it l, rounds = (eb k - ed_state it)%nat -> ed_pos c o k ref it l ->
    match l with
    | [] => edges_loop m g it rounds = Ok (None, mkEdges c o (eb k) k)
    | x :: l' => exists it', edges_loop m g it rounds = Ok (Some x, it') /\ ed_pos c o k ref it' l'
    end.
  Proof using RF AX.
    intros g c o k ref Hs Hc Hitem. pose proof (eb_le k) as Hle.
    induction rounds as [|r IH]; intros it l Hr (st & -> & Hst & Hl); cbn [ed_state] in Hr.
    - rewrite skipn_short in Hl by (rewrite firstn_length; lia). cbn in Hl. subst l.
      cbn [edges_loop]. do 3 f_equal. lia.
    - destruct (nth_error (ag_dirs geo) st) as [d|] eqn:Ed; [|apply nth_error_None in Ed; lia].
      assert (Ed' : nth_error (firstn (eb k) (ag_dirs geo)) st = Some d).
      { rewrite <- Ed. rewrite <- (firstn_skipn (eb k) (ag_dirs geo)) at 2.
        rewrite nth_error_app1 by (rewrite firstn_length; lia). reflexivity. }
      rewrite (skipn_nth _ _ _ _ Ed') in Hl. cbn [flat_map] in Hl.
      cbn [edges_loop ed_state ed_node ed_offset ed_directed]. rewrite Hs.
      rewrite (ao_dir_from_index_unchecked _ _ _ AX _ _ Ed). cbn [bind].
      rewrite (rf_move _ _ _ _ RF) by auto. cbn [bind]. unfold ref_list in Hl at 1.
      destruct (geo_step G c d) as [t|] eqn:Es; cbn [app] in Hl.
      + destruct (Hitem st d t Ed ltac:(lia) Es) as (r0 & Hi & Hr0). rewrite Hr0 in Hl.
        cbn [app] in Hl. subst l. clear Hitem. rename Hi into Hitem. unfold edge_item in Hitem.
        destruct (get_raw_id m k s d o t st) as [[nx ne]|]; [|discriminate]. cbn [bind] in *.
        destruct (ax_from_direction ax m d) as [a|]; [|discriminate]. cbn [bind] in *.
        destruct (debug_assert m (Nat.eqb (ax_to_index ax a) ne)); [|discriminate]. cbn [bind] in *.
        destruct (edge_weight_unchecked_raw g nx ne) as [wt|]; [|discriminate]. cbn [bind] in *.
        exists (mkEdges c o (S st) k). split.
        * destruct (dt_need_reverse k); cbn iota in *; congruence.
        * exists (S st). split; auto. split; [lia|reflexivity].
      + apply IH; [cbn [ed_state]; lia|]. exists (S st). split; auto. split; [lia|auto].
  Qed.

  Lemma edges_inv : forall (g : graph) c o k ref, g_s g = s -> In c (geo_nodes G) ->
    (forall st d c', nth_error (ag_dirs geo) st = Some d -> (st < eb k)%nat ->
       geo_step G c d = Some c' ->
       exists r, edge_item g c o k st d c' = Ok r /\ ref d c' = [r]) ->
    IterInv (edges_next m g) (ed_pos c o k ref).
  Proof using RF AX.
    intros g c o k ref Hs Hc Hitem it l HP.
    assert (Hnext : edges_next m g it = edges_loop m g it (eb k - ed_state it)).
    { destruct HP as (st & -> & _). unfold edges_next, eb. rewrite Hs. reflexivity. }
    pose proof (edges_loop_ok g c o k ref Hs Hc Hitem _ it l eq_refl HP) as H.
    destruct l as [|x l].
    - exists (mkEdges c o (eb k) k). rewrite Hnext. split; auto.
      unfold edges_next. cbn [ed_state ed_directed]. rewrite Hs.
      fold (eb k). rewrite Nat.sub_diag. reflexivity.
    - rewrite Hnext. auto.
  Qed.

  Lemma ed_pos_len : forall c o k ref it l, (forall d c', (length (ref d c') <= 1)%nat) ->
    ed_pos c o k ref it l ->
    (length l <= eb k - ed_state it)%nat /\ (ed_state it <= eb k)%nat /\ ed_directed it = k.
  Proof using AX.
    intros c o k ref it l Hle (st & -> & Hst & ->). cbn [ed_state ed_directed]. split; auto.
    eapply Nat.le_trans; [apply flat_map_le|].
    - intros d. unfold ref_list. destruct (geo_step G c d); simpl; auto.
    - rewrite skipn_length, firstn_length. lia.
  Qed.

  (** Direction [d] leads to [c'], and if the edge is stored there it has been written. *)
  Definition readable (d : D) (c' : Cell) : Prop := forall a, ag_directed geo = false ->
    opposite geo d (ag_fwd geo a) -> edge_exists G c' a.

  (** The weight that [edges] finds in direction [d]. *)
  Lemma default_raw_ok : forall (g : graph) nf ef c o d c' st, Rep (G := G) (cell := cell) (s := s) g nf ef ->
    In c (geo_nodes G) -> sh_to_offset s m c = Ok (Some o) ->
    nth_error (ag_dirs geo) st = Some d -> geo_step G c d = Some c' -> readable d c' ->
    exists nx a x y, default_get_raw_id m s d o c' st = Ok (nx, ax_to_index ax a) /\
      ax_from_direction ax m d = Ok a /\
      edge_name G c d c' = Some (x, y) /\
      edge_weight_unchecked_raw g nx (ax_to_index ax a) = Ok (ef x y).
  Proof using RF AX.
    intros g nf ef c o d c' st HR Hc Ho Hd Hs Hrd.
    unfold default_get_raw_id, edge_name.
    destruct (ao_class _ _ _ AX d) as
      [(a & Hf & Hfind & Hfrom & Hfw) | (Hdir & a & Hopp & Hf1 & Hf2 & Hfrom & Hfw & Hidx)].
    - exists o, a, c, a. rewrite Hfind, Hfw, Hfrom. cbn [bind].
      rewrite <- (ao_fwd_index _ _ _ AX a), Hf, (ao_dnth_inv _ _ _ AX _ _ Hd).
      repeat split; auto.
      rewrite <- (ao_dnth_inv _ _ _ AX _ _ Hd), <- Hf, (ao_fwd_index _ _ _ AX a).
      eapply (rep_edge_raw RF); eauto. split; auto. rewrite Hf. congruence.
    - destruct (Hrd a Hdir Hopp) as [Hc' Hne].
      destruct (on_board_offset RF c' Hc') as (x & y & Hx & Hy & _ & Ho' & Hu').
      exists (x, y), a, c', a. rewrite Hf1, Hf2, Hfw, Hfrom. cbn [bind]. rewrite Hu'. cbn [bind].
      rewrite <- (ao_dnth_inv _ _ _ AX _ _ Hd), Hidx.
      replace (Nat.ltb _ _) with false by (symmetry; apply Nat.ltb_ge; lia).
      replace (ax_COUNT ax + ax_to_index ax a - ax_COUNT ax)%nat with (ax_to_index ax a) by lia.
      repeat split; auto.
      eapply (rep_edge_raw RF); eauto.
  Qed.

  (** References out of [c], and the same with the ends exchanged. *)
  Definition out_ref (ef : Cell -> A -> E) (c : Cell) (d : D) (c' : Cell)
    : list (EdgeReference Cell E D) :=
    match edge_name G c d c' with Some (x, a) => [mkEdgeRef c c' (ef x a) d] | None => [] end.
  Definition rev_ref (ef : Cell -> A -> E) (c : Cell) (d : D) (c' : Cell)
    : list (EdgeReference Cell E D) :=
    match edge_name G c d c' with Some (x, a) => [mkEdgeRef c' c (ef x a) d] | None => [] end.

  Lemma out_ref_le : forall ef c d c', (length (out_ref ef c d c') <= 1)%nat.
  Proof. intros. unfold out_ref. destruct (edge_name G c d c') as [[]|]; simpl; lia. Qed.
  Lemma rev_ref_le : forall ef c d c', (length (rev_ref ef c d c') <= 1)%nat.
  Proof. intros. unfold rev_ref. destruct (edge_name G c d c') as [[]|]; simpl; lia. Qed.

  Lemma item_out : forall (g : graph) nf ef c o k d c' st, Rep (G := G) (cell := cell) (s := s) g nf ef ->
    In c (geo_nodes G) -> sh_to_offset s m c = Ok (Some o) -> dt_need_reverse k = false ->
    nth_error (ag_dirs geo) st = Some d -> geo_step G c d = Some c' -> readable d c' ->
    exists r, edge_item g c o k st d c' = Ok r /\ out_ref ef c d c' = [r].
  Proof using RF AX.
    intros g nf ef c o k d c' st HR Hc Ho Hk Hd Hs Hrd.
    destruct (default_raw_ok g nf ef c o d c' st HR Hc Ho Hd Hs Hrd) as (nx & a & x & y & R1 & R2 & R3 & R4).
    unfold edge_item. replace (get_raw_id m k s d o c' st) with (default_get_raw_id m s d o c' st)
      by (destruct k as [| |[|]]; try reflexivity; discriminate).
    rewrite R1. cbn [bind]. rewrite R2. cbn [bind]. rewrite Nat.eqb_refl.
    replace (debug_assert m true) with (Ok tt) by (destruct m; reflexivity). cbn [bind].
    rewrite R4. cbn [bind]. rewrite Hk. unfold out_ref. rewrite R3. eauto.
  Qed.

  (** Incoming on an undirected graph. *)
  Lemma item_in_undirected : forall (g : graph) nf ef c o d c' st,
    Rep (G := G) (cell := cell) (s := s) g nf ef -> ag_directed geo = false ->
    In c (geo_nodes G) -> sh_to_offset s m c = Ok (Some o) ->
    nth_error (ag_dirs geo) st = Some d -> geo_step G c d = Some c' -> readable d c' ->
    exists r, edge_item g c o (PetMarker Incoming) st d c' = Ok r /\ rev_ref ef c d c' = [r].
  Proof using RF AX.
    intros g nf ef c o d c' st HR Hdir Hc Ho Hd Hs Hrd.
    destruct (default_raw_ok g nf ef c o d c' st HR Hc Ho Hd Hs Hrd) as (nx & a & x & y & R1 & R2 & R3 & R4).
    unfold edge_item, get_raw_id. rewrite (ao_directed _ _ _ AX), Hdir.
    rewrite R1. cbn [bind]. rewrite R2. cbn [bind]. rewrite Nat.eqb_refl.
    replace (debug_assert m true) with (Ok tt) by (destruct m; reflexivity). cbn [bind].
    rewrite R4. cbn [bind dt_need_reverse]. unfold rev_ref. rewrite R3. eauto.
  Qed.

  (** Incoming on a directed graph: fails the debug assertion, works in release. *)
  Lemma item_in_directed : forall (g : graph) nf ef c o d c' st,
    Rep (G := G) (cell := cell) (s := s) g nf ef -> ag_directed geo = true ->
    In c (geo_nodes G) -> sh_to_offset s m c = Ok (Some o) ->
    nth_error (ag_dirs geo) st = Some d -> geo_step G c d = Some c' ->
    exists a, opposite geo d (ag_fwd geo a) /\
    edge_item g c o (PetMarker Incoming) st d c'
      = match m with Debug => Fail FPanic | Release => Ok (mkEdgeRef c' c (ef c' a) d) end.
  Proof using RF AX RG.
    intros g nf ef c o d c' st HR Hdir Hc Ho Hd Hs.
    pose proof (rg_in RG _ _ _ Hs) as Hc'.
    destruct (ao_class _ _ _ AX d) as
      [(a & Hf & _ & Hfrom & _) | (Hdir' & _)]; [|congruence].
    destruct (ao_bwd _ _ _ AX a) as (d' & Hbw & Hopp). rewrite Hf in Hopp.
    destruct (ao_directed_fwd _ _ _ AX Hdir d') as (a' & Ha'). subst d'.
    exists a'. split; auto.
    destruct (on_board_offset RF c' Hc') as (x & y & Hx & Hy & _ & Ho' & Hu').
    unfold edge_item, get_raw_id. rewrite (ao_directed _ _ _ AX), Hdir, Hfrom. cbn [bind].
    rewrite Hbw. cbn [bind]. rewrite Hu'. cbn [bind].
    rewrite (ao_fwd_index _ _ _ AX).
    assert (Hne : Nat.eqb (ax_to_index ax a) (ax_to_index ax a') = false).
    { apply Nat.eqb_neq. intros Heq. apply (to_index_inj AX) in Heq. subst a'.
      rewrite Hf in Hopp. unfold opposite, vneg in Hopp.
      pose proof (ao_vec_nonzero _ _ _ AX d) as Hnz. apply Hnz.
      destruct (ag_vec geo d) as [vx vy]. cbn [fst snd] in Hopp. injection Hopp as H1 H2.
      f_equal; lia. }
    rewrite Hne.
    assert (Hm : m = Debug \/ m = Release) by (destruct m; auto).
    assert (Hw : edge_weight_unchecked_raw g (x, y) (ax_to_index ax a') = Ok (ef c' a')).
    { eapply (rep_edge_raw RF); eauto. split; auto.
      rewrite (rg_sym RG c d c' (ag_fwd geo a')); auto. discriminate. }
    destruct Hm as [Hm|Hm].
    - replace (debug_assert m false) with (@Fail unit FPanic) by (rewrite Hm; reflexivity).
      rewrite Hm. reflexivity.
    - replace (debug_assert m false) with (Ok tt) by (rewrite Hm; reflexivity).
      cbn [bind]. rewrite Hw. cbn [bind dt_need_reverse].
      replace (match m with Debug => Fail FPanic | Release => Ok (mkEdgeRef c' c (ef c' a') d) end)
        with (Ok (mkEdgeRef c' c (ef c' a') d)) by (rewrite Hm; reflexivity).
      reflexivity.
  Qed.
End I.
