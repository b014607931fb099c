(** * EdgeProofs: the edges of built graphs, adjacency tests. *)

From Verif Require Import Machine Store Axes Shapes Lattice Spec Basics AxisProofs GeoProofs
  GraphProofs RepProofs IterProofs.
From Coq Require Import FinFun ZifyBool ZifyNat.
Ltac Zify.zify_post_hook ::= Z.div_mod_to_equations.

Lemma find_first : forall X (f : X -> bool) l x, (forall y z, f y = true -> f z = true -> y = z) ->
  In x l -> f x = true -> find f l = Some x.
Proof.
  intros X f l x Hu Hin Hx. destruct (find f l) as [y|] eqn:Ef.
  - apply find_some in Ef. f_equal. apply Hu; tauto.
  - exfalso. eapply find_none in Ef; eauto. congruence.
Qed.

Section Ed.
  Context {A D N E : Type} {m : mode} {s : Shape Cell A D} {G : Geometry A D}
    {cell : Z -> Z -> Cell} (RF : Refines m s G cell) (RD : Readable G) (RG : Regular s G).
  Notation w := (sh_horizontal s).
  Notation h := (sh_vertical s).
  Notation ax := (sh_axis s).
  Notation geo := (geo_ax G).
  Notation graph := (LatticeGraph Cell A D N E).
  Notation Rp := (Rep (G := G) (cell := cell) (s := s)).

  Let AX : AxisOK m ax geo := rf_axis _ _ _ _ RF.

  Lemma find_opposite : forall d d', opposite geo d d' ->
    find (fun d' => veqb (ag_vec geo d') (vneg (ag_vec geo d))) (ag_dirs geo) = Some d'.
  Proof using AX.
    intros d d' H. apply find_first.
    - intros y z Hy Hz. apply veqb_eq in Hy. apply veqb_eq in Hz.
      apply (ao_vec_inj _ _ _ AX). congruence.
    - apply (all_dirs_in AX).
    - apply veqb_eq. exact H.
  Qed.

  Lemma edge_name_fwd : forall c a c', edge_name G c (ag_fwd geo a) c' = Some (c, a).
  Proof using AX.
    intros c a c'. unfold edge_name. erewrite find_first; [reflexivity| | |].
    - intros y z Hy Hz. apply veqb_eq in Hy. apply veqb_eq in Hz.
      apply (ao_fwd_inj _ _ _ AX). apply (ao_vec_inj _ _ _ AX). congruence.
    - apply (all_axes_in AX).
    - apply veqb_eq. reflexivity.
  Qed.

  Lemma edge_name_bwd : forall c d a c', ag_directed geo = false -> opposite geo d (ag_fwd geo a) ->
    edge_name G c d c' = Some (c', a).
  Proof using AX.
    intros c d a c' Hdir Ho. unfold edge_name.
    destruct (find (fun a0 => veqb (ag_vec geo (ag_fwd geo a0)) (ag_vec geo d)) (ag_axes geo))
      as [a0|] eqn:Ef.
    - exfalso. apply find_some in Ef. destruct Ef as [_ Ef]. apply veqb_eq in Ef.
      apply (ao_undirected_opp _ _ _ AX Hdir a0 a).
      unfold opposite in *. congruence.
    - erewrite find_first; [reflexivity| | |].
      + intros y z Hy Hz. apply veqb_eq in Hy. apply veqb_eq in Hz.
        apply (ao_fwd_inj _ _ _ AX). apply (ao_vec_inj _ _ _ AX). congruence.
      + apply (all_axes_in AX).
      + apply veqb_eq. exact Ho.
  Qed.

  (** In an undirected lattice both ends call the edge by the same name. *)
  Lemma edge_name_shared : forall c d c' d', ag_directed geo = false -> opposite geo d d' ->
    edge_name G c d c' = edge_name G c' d' c.
  Proof using AX.
    intros c d c' d' Hdir Ho.
    destruct (ao_class _ _ _ AX d) as [(a & Hf & _) | (_ & a & Ho' & _)].
    - subst d. rewrite edge_name_fwd. symmetry. apply edge_name_bwd; auto.
      apply opposite_sym. auto.
    - rewrite (edge_name_bwd c d a c' Hdir Ho').
      assert (d' = ag_fwd geo a) as -> by (apply (opposite_unique AX d); auto).
      rewrite edge_name_fwd. reflexivity.
  Qed.

  Lemma edge_name_exists : forall c d c', In c (geo_nodes G) -> geo_step G c d = Some c' ->
    exists x a, edge_name G c d c' = Some (x, a) /\ edge_exists G x a.
  Proof using AX RF RD.
    intros c d c' Hc Hs.
    destruct (ao_class _ _ _ AX d) as [(a & Hf & _) | (Hdir & a & Ho & _)].
    - subst d. exists c, a. rewrite edge_name_fwd. split; auto. split; auto. congruence.
    - exists c', a. rewrite (edge_name_bwd c d a c' Hdir Ho). split; auto. eapply RD; eauto.
  Qed.

  (** ** [edges] and [edges_directed] *)

  Lemma eb_all : forall k, dt_DIRECTED k = false -> firstn (eb (s := s) k) (ag_dirs geo) = ag_dirs geo.
  Proof using AX.
    intros k Hk. unfold eb, edges_bound. rewrite Hk, (ao_ucount _ _ _ AX). apply firstn_all.
  Qed.

  Lemma edges_start : forall (g : graph) c k, g_s g = s -> In c (geo_nodes G) ->
    exists o, sh_to_offset s m c = Ok (Some o) /\ edges_new_d m g c k = Ok (mkEdges c o 0%nat k) /\
      edges_new_unchecked m g c k = Ok (mkEdges c o 0%nat k).
  Proof using RF.
    intros g c k Hs Hc. destruct (on_board_offset RF c Hc) as (x & y & _ & _ & _ & Ho & _).
    exists (x, y). unfold edges_new_d, edges_new_unchecked. rewrite Hs, Ho. auto.
  Qed.

  Lemma out_list : forall ef c k, dt_DIRECTED k = false ->
    flat_map (ref_list (G := G) c (out_ref (G := G) ef c)) (skipn 0 (firstn (eb (s := s) k) (ag_dirs geo)))
    = spec_edges (E := E) G ef c.
  Proof using AX. intros ef c k Hk. rewrite eb_all by auto. reflexivity. Qed.

  Lemma rev_list : forall ef c, ag_directed geo = false ->
    flat_map (ref_list (G := G) c (rev_ref (G := G) ef c)) (ag_dirs geo) = spec_incoming (E := E) G ef c.
  Proof using AX.
    intros ef c Hdir. unfold spec_incoming. apply flat_map_ext. intros d.
    unfold ref_list, rev_ref. destruct (geo_step G c d) as [c'|]; auto.
    destruct (ao_opp _ _ _ AX d) as (d' & Ho). rewrite (find_opposite d d' Ho).
    rewrite (edge_name_shared c d c' d' Hdir Ho). reflexivity.
  Qed.

  Lemma edges_outgoing_pos : forall (g : graph) nf ef c k, Rp g nf ef -> In c (geo_nodes G) ->
    dt_DIRECTED k = false -> dt_need_reverse k = false ->
    exists o it, edges_new_d m g c k = Ok it /\
      IterInv (edges_next m g) (ed_pos (s := s) (G := G) c o k (out_ref (G := G) ef c)) /\
      ed_pos (s := s) (G := G) c o k (out_ref (G := G) ef c) it (spec_edges G ef c).
  Proof using AX RF RD.
    intros g nf ef c k HR Hc Hk1 Hk2. pose proof HR as [Hs _].
    destruct (edges_start g c k Hs Hc) as (o & Ho & Hn & _).
    exists o, (mkEdges c o 0%nat k). split; auto. split.
    - apply (edges_inv RF); auto. intros st d c' Hd _ Hst.
      eapply (item_out RF); eauto. intros a; intros. eapply RD; eauto.
    - exists 0%nat. split; auto. split; [lia|]. symmetry. apply out_list. auto.
  Qed.

  Lemma edges_incoming_pos : forall (g : graph) nf ef c, Rp g nf ef -> In c (geo_nodes G) ->
    ag_directed geo = false ->
    exists o it, edges_directed m g c Incoming = Ok it /\
      IterInv (edges_next m g) (ed_pos (s := s) (G := G) c o (PetMarker Incoming) (rev_ref (G := G) ef c)) /\
      ed_pos (s := s) (G := G) c o (PetMarker Incoming) (rev_ref (G := G) ef c) it (spec_incoming G ef c).
  Proof using AX RF RD.
    intros g nf ef c HR Hc Hdir. pose proof HR as [Hs _].
    destruct (edges_start g c (PetMarker Incoming) Hs Hc) as (o & Ho & Hn & _).
    exists o, (mkEdges c o 0%nat (PetMarker Incoming)). split; auto. split.
    - apply (edges_inv RF); auto. intros st d c' Hd _ Hst.
      eapply (item_in_undirected RF); eauto. intros a; intros. eapply RD; eauto.
    - exists 0%nat. split; auto. split; [lia|]. rewrite eb_all by auto. cbn [skipn].
      symmetry. apply rev_list. auto.
  Qed.

  (** Incoming references of a directed graph. *)
  Definition in_ref (ef : Cell -> A -> E) (c : Cell) (d : D) (c' : Cell)
    : list (EdgeReference Cell E D) :=
    match find (fun a => veqb (ag_vec geo (ag_fwd geo a)) (vneg (ag_vec geo d))) (ag_axes geo) with
    | Some a => [mkEdgeRef c' c (ef c' a) d]
    | None => []
    end.

  Lemma in_ref_le : forall ef c d c', (length (in_ref ef c d c') <= 1)%nat.
  Proof. intros. unfold in_ref. destruct (find _ _); simpl; lia. Qed.

  Lemma find_axis : forall d a, opposite geo d (ag_fwd geo a) ->
    find (fun a => veqb (ag_vec geo (ag_fwd geo a)) (vneg (ag_vec geo d))) (ag_axes geo) = Some a.
  Proof using AX.
    intros d a Ho. apply find_first.
    - intros y z Hy Hz. apply veqb_eq in Hy. apply veqb_eq in Hz.
      apply (ao_fwd_inj _ _ _ AX). apply (ao_vec_inj _ _ _ AX). congruence.
    - apply (all_axes_in AX).
    - apply veqb_eq. exact Ho.
  Qed.

  Lemma in_list : forall ef c, ag_directed geo = true ->
    flat_map (ref_list (G := G) c (in_ref ef c)) (ag_dirs geo) = spec_incoming (E := E) G ef c.
  Proof using AX.
    intros ef c Hdir. unfold spec_incoming. apply flat_map_ext. intros d.
    unfold ref_list, in_ref. destruct (geo_step G c d) as [c'|]; auto.
    destruct (ao_opp _ _ _ AX d) as (d' & Ho). rewrite (find_opposite d d' Ho).
    destruct (ao_directed_fwd _ _ _ AX Hdir d') as (a & <-).
    rewrite (find_axis d a Ho), edge_name_fwd. reflexivity.
  Qed.

  Lemma edges_incoming_directed_pos : forall (g : graph) nf ef c, Rp g nf ef -> In c (geo_nodes G) ->
    ag_directed geo = true -> m = Release ->
    exists o it, edges_directed m g c Incoming = Ok it /\
      IterInv (edges_next m g) (ed_pos (s := s) (G := G) c o (PetMarker Incoming) (in_ref ef c)) /\
      ed_pos (s := s) (G := G) c o (PetMarker Incoming) (in_ref ef c) it (spec_incoming G ef c).
  Proof using AX RF RG.
    intros g nf ef c HR Hc Hdir Hm. pose proof HR as [Hs _].
    destruct (edges_start g c (PetMarker Incoming) Hs Hc) as (o & Ho & Hn & _).
    exists o, (mkEdges c o 0%nat (PetMarker Incoming)). split; auto. split.
    - apply (edges_inv RF); auto. intros st d c' Hd _ Hst.
      destruct (item_in_directed RF RG g nf ef c o d c' st HR Hdir Hc Ho Hd Hst) as (a & Hop & Hi).
      exists (mkEdgeRef c' c (ef c' a) d). split.
      + rewrite Hi, Hm. reflexivity.
      + unfold in_ref. rewrite (find_axis d a Hop). reflexivity.
    - exists 0%nat. split; auto. split; [lia|]. rewrite eb_all by auto. cbn [skipn].
      symmetry. apply in_list. auto.
  Qed.

  (** In debug the first incoming edge trips the assertion. *)
  Lemma edges_incoming_directed_debug : forall (g : graph) nf ef c d c', Rp g nf ef ->
    In c (geo_nodes G) -> ag_directed geo = true -> m = Debug -> geo_step G c d = Some c' ->
    exists it, edges_directed m g c Incoming = Ok it /\ edges_next m g it = Fail FPanic.
  Proof using AX RF RG.
    intros g nf ef c d c' HR Hc Hdir Hm Hst. pose proof HR as [Hs _].
    destruct (edges_start g c (PetMarker Incoming) Hs Hc) as (o & Ho & Hn & _).
    exists (mkEdges c o 0%nat (PetMarker Incoming)). split; auto.
    unfold edges_next. cbn [ed_directed ed_state]. rewrite Hs.
    change (edges_bound s (PetMarker Incoming)) with (ax_UNDIRECTED_COUNT ax).
    pose proof (dir_to_index_lt AX d) as Hlt.
    assert (Hgen : forall r st, r = (ax_UNDIRECTED_COUNT ax - st)%nat ->
      (st <= dir_to_index (ax_dir ax) d)%nat ->
      edges_loop m g (mkEdges c o st (PetMarker Incoming)) r = Fail FPanic).
    { induction r as [|r IH]; intros st Hr Hle; [lia|].
      destruct (nth_error (ag_dirs geo) st) as [d0|] eqn:Ed;
        [|apply nth_error_None in Ed; rewrite <- (ao_ucount _ _ _ AX) in Ed; lia].
      cbn [edges_loop ed_state ed_node ed_offset ed_directed]. rewrite Hs.
      rewrite (ao_dir_from_index_unchecked _ _ _ AX _ _ Ed). cbn [bind].
      rewrite (rf_move _ _ _ _ RF) by auto. cbn [bind].
      destruct (geo_step G c d0) as [t|] eqn:Es.
      - destruct (item_in_directed RF RG g nf ef c o d0 t st HR Hdir Hc Ho Ed Es) as (a & _ & Hi).
        unfold edge_item in Hi.
        replace (match m with Debug => Fail FPanic | Release => Ok (mkEdgeRef t c (ef t a) d0) end)
          with (@Fail (EdgeReference Cell E D) FPanic) in Hi by (rewrite Hm; reflexivity).
        destruct (get_raw_id m (PetMarker Incoming) s d0 o t st) as [[nx ne]|];
          cbn [bind] in *; [|congruence].
        destruct (ax_from_direction ax m d0) as [a0|]; cbn [bind] in *; [|congruence].
        destruct (debug_assert m (Nat.eqb (ax_to_index ax a0) ne)); cbn [bind] in *; [|congruence].
        destruct (edge_weight_unchecked_raw g nx ne) as [wt|]; cbn [bind] in *; [discriminate|].
        congruence.
      - apply IH; [lia|].
        assert (st <> dir_to_index (ax_dir ax) d).
        { intros ->. rewrite (ao_dnth _ _ _ AX) in Ed. injection Ed as <-. congruence. }
        lia. }
    apply Hgen; lia.
  Qed.

  (** ** [edge_references] *)

  Lemma firstn_dirs : firstn (ax_COUNT ax) (ag_dirs geo) = map (ag_fwd geo) (ag_axes geo).
  Proof using AX RF.
    apply nth_error_ext. intros i. rewrite nth_error_map.
    pose proof (eb_le RF AxisMarker) as Hle. unfold eb, edges_bound in Hle. cbn [dt_DIRECTED] in Hle.
    destruct (Nat.ltb i (ax_COUNT ax)) eqn:Ei.
    - apply Nat.ltb_lt in Ei.
      destruct (nth_error (ag_axes geo) i) as [a|] eqn:Ea;
        [|apply nth_error_None in Ea; rewrite <- (ao_count _ _ _ AX) in Ea; lia].
      cbn [option_map].
      transitivity (nth_error (ag_dirs geo) i).
      + rewrite <- (firstn_skipn (ax_COUNT ax) (ag_dirs geo)) at 2.
        rewrite nth_error_app1 by (rewrite firstn_length; lia). reflexivity.
      + pose proof (ao_dnth _ _ _ AX (ag_fwd geo a)) as H.
        rewrite (ao_fwd_index _ _ _ AX), (ao_nth_inv _ _ _ AX _ _ Ea) in H. exact H.
    - apply Nat.ltb_ge in Ei.
      rewrite (proj2 (nth_error_None _ i)) by (rewrite firstn_length; lia).
      rewrite (proj2 (nth_error_None _ i)) by (rewrite <- (ao_count _ _ _ AX); lia). reflexivity.
  Qed.

  Definition cell_refs (ef : Cell -> A -> E) (c : Cell) : list (EdgeReference Cell E D) :=
    flat_map (fun a => match geo_step G c (ag_fwd geo a) with
                       | Some c' => [mkEdgeRef c c' (ef c a) (ag_fwd geo a)]
                       | None => [] end) (ag_axes geo).

  Lemma flat_map_map : forall X Y Z (f : Y -> list Z) (k : X -> Y) l,
    flat_map f (map k l) = flat_map (fun x => f (k x)) l.
  Proof. induction l; simpl; auto. f_equal; auto. Qed.

  Lemma cell_refs_pos : forall (g : graph) nf ef c, Rp g nf ef -> In c (geo_nodes G) ->
    exists o it, edges_new_unchecked m g c AxisMarker = Ok it /\
      IterInv (edges_next m g) (ed_pos (s := s) (G := G) c o AxisMarker (out_ref (G := G) ef c)) /\
      ed_pos (s := s) (G := G) c o AxisMarker (out_ref (G := G) ef c) it (cell_refs ef c).
  Proof using AX RF.
    intros g nf ef c HR Hc. pose proof HR as [Hs _].
    destruct (edges_start g c AxisMarker Hs Hc) as (o & Ho & _ & Hn).
    exists o, (mkEdges c o 0%nat AxisMarker). split; auto. split.
    - apply (edges_inv RF); auto. intros st d c' Hd Hlt Hst.
      eapply (item_out RF); eauto. intros a Hdir Hop. exfalso.
      assert (Hf : nth_error (firstn (ax_COUNT ax) (ag_dirs geo)) st = Some d).
      { rewrite <- Hd. rewrite <- (firstn_skipn (ax_COUNT ax) (ag_dirs geo)) at 2.
        rewrite nth_error_app1; auto. rewrite firstn_length.
        pose proof (eb_le RF AxisMarker) as Hle. unfold eb, edges_bound in *.
        cbn [dt_DIRECTED] in *. lia. }
      rewrite firstn_dirs, nth_error_map in Hf.
      destruct (nth_error (ag_axes geo) st) as [a'|]; [|discriminate].
      injection Hf as <-. eapply (ao_undirected_opp _ _ _ AX Hdir); eauto.
    - exists 0%nat. split; auto. split; [lia|]. unfold eb, edges_bound. cbn [dt_DIRECTED skipn].
      rewrite firstn_dirs, flat_map_map. unfold cell_refs. apply flat_map_ext. intros a.
      unfold ref_list, out_ref. destruct (geo_step G c (ag_fwd geo a)); auto.
      rewrite edge_name_fwd. reflexivity.
  Qed.

  Definition ers_pos (g : graph) (ef : Cell -> A -> E) (it : EdgeRefsState Cell)
    (l : list (EdgeReference Cell E D)) : Prop :=
    0 <= ers_index it <= w * h /\
    exists l1, l = l1 ++ flat_map (cell_refs ef) (skipn (Z.to_nat (ers_index it)) (geo_nodes G)) /\
    match ers_e it with
    | None => l1 = []
    | Some e => 1 <= ers_index it /\ exists c o,
        IterInv (edges_next m g) (ed_pos (s := s) (G := G) c o AxisMarker (out_ref (G := G) ef c)) /\
        ed_pos (s := s) (G := G) c o AxisMarker (out_ref (G := G) ef c) e l1
    end.

  Definition ers_body (g : graph) (it : EdgeRefsState Cell)
    : outcome (EdgeRefsState Cell + (option (EdgeReference Cell E D) * EdgeRefsState Cell)) :=
      let! (next, it) :=
        match ers_e it with
        | Some e =>
            let! (next, e') := edges_next m g e in
            Ok (next, mkEdgeRefs (Some e') (ers_index it))
        | None => Ok (None, it)
        end in
      match next with
      | Some r => Ok (inr (Some r, it))
      | None =>
          let! count := sh_node_count (g_s g) m in
          if ers_index it <? count then
            let! x := sh_index_to_coordinate (g_s g) m (ers_index it) in
            let! index := usize_add m (ers_index it) 1 in
            let! e := edges_new_unchecked m g x AxisMarker in
            Ok (inl (mkEdgeRefs (Some e) index))
          else Ok (inr (None, it))
      end.

  Lemma ers_next_body : forall g it, edge_references_next m g it = loop (ers_body g) it.
  Proof. reflexivity. Qed.

  (** A finished iterator: nothing left in the current cell, no cells left. *)
  Definition ers_done (g : graph) (it : EdgeRefsState Cell) : Prop :=
    ers_index it = w * h /\
    match ers_e it with None => True | Some e => edges_next m g e = Ok (None, e) end.

  Lemma ers_done_next : forall g it, g_s g = s -> ers_done g it ->
    edge_references_next m g it = Ok (None, it).
  Proof using RF.
    intros g [e i] Hs [Hi He]. cbn [ers_index ers_e] in *.
    rewrite ers_next_body. eapply loop_rounds with (n := 0%nat); [|lia].
    apply R_done. unfold ers_body. cbn [ers_e ers_index].
    destruct e as [e|].
    - rewrite He. cbn [bind ers_index]. rewrite Hs, (node_count_ok RF). cbn [bind].
      rewrite Hi, Z.ltb_irrefl. reflexivity.
    - cbn [bind ers_index]. rewrite Hs, (node_count_ok RF). cbn [bind].
      rewrite Hi, Z.ltb_irrefl. reflexivity.
  Qed.

  Lemma ers_rounds : forall (g : graph) nf ef, Rp g nf ef ->
    forall k it l, Z.of_nat k = w * h - ers_index it -> ers_pos g ef it l ->
    exists n, (n <= k)%nat /\
    match l with
    | [] => exists it', Rounds (ers_body g) n it (Ok (None, it')) /\ ers_done g it'
    | x :: l' => exists it', Rounds (ers_body g) n it (Ok (Some x, it')) /\ ers_pos g ef it' l'
    end.
  Proof using RF AX.
    intros g nf ef HR. pose proof HR as [Hs _].
    (* what happens once the current cell is used up *)
    assert (Hnext : forall k e i l,
      (forall k' it l, (k' < k)%nat -> Z.of_nat k' = w * h - ers_index it -> ers_pos g ef it l ->
        exists n, (n <= k')%nat /\
        match l with
        | [] => exists it', Rounds (ers_body g) n it (Ok (None, it')) /\ ers_done g it'
        | x :: l' => exists it', Rounds (ers_body g) n it (Ok (Some x, it')) /\ ers_pos g ef it' l'
        end) ->
      Z.of_nat k = w * h - i -> 0 <= i <= w * h ->
      l = flat_map (cell_refs ef) (skipn (Z.to_nat i) (geo_nodes G)) ->
      match e with None => True | Some e => edges_next m g e = Ok (None, e) end ->
      forall it0,
      (ers_body g it0 =
        (let! count := sh_node_count s m in
         if i <? count then
            let! x := sh_index_to_coordinate s m i in
            let! index := usize_add m i 1 in
            let! e := edges_new_unchecked m g x AxisMarker in
            Ok (inl (mkEdgeRefs (Some e) index))
         else Ok (inr (None, mkEdgeRefs e i)))) ->
      exists n, (n <= k)%nat /\
      match l with
      | [] => exists it', Rounds (ers_body g) n it0 (Ok (None, it')) /\ ers_done g it'
      | x :: l' => exists it', Rounds (ers_body g) n it0 (Ok (Some x, it')) /\ ers_pos g ef it' l'
      end).
    { intros k e i l IH Hk Hi Hl He it0 Hb. rewrite (node_count_ok RF) in Hb. cbn [bind] in Hb.
      destruct (Z.eq_dec i (w * h)) as [Hie|Hie].
      - rewrite Hie, Z.ltb_irrefl in Hb.
        rewrite skipn_short in Hl by (rewrite (nodes_length RF); lia). cbn in Hl. subst l.
        exists 0%nat. split; [lia|]. eexists. split; [apply R_done; exact Hb|].
        split; auto.
      - assert (Hi' : 0 <= i < w * h) by lia.
        replace (i <? w * h) with true in Hb by lia.
        rewrite (index_to_coordinate_ok RF) in Hb by auto. cbn [bind] in Hb.
        rewrite (succ_ok RF) in Hb by auto. cbn [bind] in Hb.
        pose proof (nodes_nth RF i Hi') as Hn. set (c := cell (i / h) (i mod h)) in *.
        assert (Hc : In c (geo_nodes G)) by (eapply nth_error_In; eauto).
        destruct (cell_refs_pos g nf ef c HR Hc) as (o & it1 & N1 & N2 & N3).
        rewrite N1 in Hb. cbn [bind] in Hb.
        destruct k as [|k]; [lia|].
        destruct (IH k (mkEdgeRefs (Some it1) (i + 1)) l) as (n & Hn1 & Hn2); [lia|cbn [ers_index]; lia| |].
        + split; [cbn [ers_index]; lia|]. exists (cell_refs ef c). split.
          * rewrite Hl, (skipn_nth _ _ _ _ Hn). cbn [flat_map ers_index].
            replace (Z.to_nat (i + 1)) with (S (Z.to_nat i)) by lia. reflexivity.
          * cbn [ers_e ers_index]. split; [lia|]. eauto.
        + exists (S n). split; [lia|].
          destruct l as [|x l]; destruct Hn2 as (it' & R1 & R2); exists it'; (split; [|exact R2]);
            eapply R_more; eauto. }
    induction k as [k IH] using (well_founded_induction lt_wf).
    intros [e i] l Hk (Hi & l1 & Hl & He). cbn [ers_index ers_e] in *.
    destruct e as [e|].
    - destruct He as (Hi1 & c & o & HI & HP). pose proof (HI _ _ HP) as Hstep.
      destruct l1 as [|x l1].
      + destruct Hstep as (e' & S1 & S2). cbn [app] in Hl.
        apply (Hnext k (Some e') i l); auto.
        unfold ers_body. cbn [ers_e ers_index]. rewrite S1. cbn [bind ers_index]. rewrite Hs. reflexivity.
      + destruct Hstep as (e' & S1 & S2). cbn [app] in Hl. subst l.
        exists 0%nat. split; [lia|]. exists (mkEdgeRefs (Some e') i). split.
        * apply R_done. unfold ers_body. cbn [ers_e ers_index]. rewrite S1. reflexivity.
        * split; [cbn [ers_index]; lia|]. exists l1. split; auto. cbn [ers_e ers_index]. split; [lia|]. eauto.
    - subst l1. cbn [app] in Hl.
      apply (Hnext k None i l); auto.
      unfold ers_body. cbn [ers_e ers_index bind]. rewrite Hs. reflexivity.
  Qed.

  Lemma edge_references_inv : forall (g : graph) nf ef, Rp g nf ef ->
    IterInv (edge_references_next m g) (ers_pos g ef).
  Proof using RF AX.
    intros g nf ef HR it l HP. pose proof HR as [Hs _].
    pose proof (wh_range RF) as W. rewrite IMAX1_val in W.
    destruct HP as [Hi HP'] eqn:EHP. clear EHP.
    destruct (ers_rounds g nf ef HR (Z.to_nat (w * h - ers_index it)) it l ltac:(lia) (conj Hi HP'))
      as (n & Hn & Hr).
    assert (Hn64 : Z.of_nat n < 2 ^ 72) by lia.
    destruct l as [|x l]; destruct Hr as (it' & R1 & R2).
    - exists it'. split; [rewrite ers_next_body; eapply loop_rounds; eauto|].
      apply ers_done_next; auto.
    - exists it'. split; [rewrite ers_next_body; eapply loop_rounds; eauto|]. auto.
  Qed.

  Lemma ers_pos_start : forall (g : graph) ef,
    ers_pos g ef (edge_references g) (spec_edge_references G ef).
  Proof using RF.
    intros g ef. split; [cbn; pose proof (wh_range RF); lia|]. exists []. split; reflexivity.
  Qed.

  (** ** Adjacency *)

  Lemma get_direction_ok : forall a b,
    (forall d, sh_move_coord s m a d = Ok (geo_step G a d)) ->
    sh_get_direction s m a b =
      Ok (find (fun d => match geo_step G a d with Some c => pair_eqb c b | None => false end)
            (ag_dirs geo)).
  Proof using RF AX.
    intros a b Ha. unfold sh_get_direction, default_get_direction.
    assert (Heqb : forall x y, sh_eqb s x y = pair_eqb x y).
    { intros x y. destruct (sh_eqb s x y) eqn:E1, (pair_eqb x y) eqn:E2; auto.
      - apply (rf_eqb _ _ _ _ RF) in E1. apply pair_eqb_eq in E1. congruence.
      - apply pair_eqb_eq in E2. apply (rf_eqb _ _ _ _ RF) in E2. congruence. }
    assert (Hgen : forall n i, (n + i = ax_UNDIRECTED_COUNT ax)%nat ->
      get_direction_from ax (sh_eqb s) (sh_move_coord s) m a b n i =
      Ok (find (fun d => match geo_step G a d with Some c => pair_eqb c b | None => false end)
            (skipn i (ag_dirs geo)))).
    { induction n as [|n IH]; intros i Hi; cbn [get_direction_from].
      - rewrite skipn_short by (rewrite <- (ao_ucount _ _ _ AX); lia). reflexivity.
      - destruct (nth_error (ag_dirs geo) i) as [d|] eqn:Ed;
          [|apply nth_error_None in Ed; rewrite <- (ao_ucount _ _ _ AX) in Ed; lia].
        rewrite (skipn_nth _ _ _ _ Ed). cbn [find].
        rewrite (ao_dir_from_index_unchecked _ _ _ AX _ _ Ed). cbn [bind].
        rewrite Ha. cbn [bind].
        destruct (geo_step G a d) as [c|].
        + rewrite Heqb. destruct (pair_eqb c b); auto. apply IH; lia.
        + apply IH; lia. }
    apply (Hgen _ 0%nat). lia.
  Qed.

  Lemma is_adjacent_off : forall (g : graph) a b, g_s g = s ->
    (forall d, sh_move_coord s m a d = Ok (geo_step G a d)) ->
    exists r, is_adjacent m g a b = Ok r /\
      (r = true <-> exists d, geo_step G a d = Some b).
  Proof using RF AX RG.
    intros g a b Hs Ha. unfold is_adjacent. rewrite Hs, (rg_is_neighbor RG).
    unfold default_is_neighbor. fold (sh_get_direction s m a b). rewrite get_direction_ok by auto.
    cbn [bind].
    destruct (find _ (ag_dirs geo)) as [d|] eqn:Ef.
    - exists true. split; auto. split; auto. intros _. apply find_some in Ef.
      destruct Ef as [_ Ef]. exists d. destruct (geo_step G a d); [|discriminate].
      apply pair_eqb_eq in Ef. congruence.
    - exists false. split; auto. split; [discriminate|]. intros (d & Hd).
      eapply find_none in Ef; [|apply (all_dirs_in AX)]. cbv beta in Ef. rewrite Hd in Ef.
      rewrite (proj2 (pair_eqb_eq b b) eq_refl) in Ef. discriminate.
  Qed.

  Lemma is_adjacent_ok : forall (g : graph) a b, g_s g = s -> In a (geo_nodes G) ->
    exists r, is_adjacent m g a b = Ok r /\
      (r = true <-> exists d, geo_step G a d = Some b).
  Proof using RF AX RG.
    intros g a b Hs Ha. apply is_adjacent_off; auto. intros d. apply (rf_move _ _ _ _ RF); auto.
  Qed.
End Ed.
