(** * HandshakeProofs: the edges seen from the nodes are the edges of the graph, each seen once
    from each end. *)

From Verif Require Import Machine Store Axes Shapes Lattice Spec Basics AxisProofs GeoProofs
  ShapeProofs StoreProofs GraphProofs RepProofs IterProofs EdgeProofs VisitProofs Main1 Spec2 SquareGraph SpecSquare
  SquareProofs SquareIter SquareMain Spec5.
From Coq Require Import Permutation ZifyBool ZifyNat.

Lemma flat_map_flat_map : forall X Y Z (f : X -> list Y) (g : Y -> list Z) l,
  flat_map g (flat_map f l) = flat_map (fun x => flat_map g (f x)) l.
Proof.
  intros X Y Z f g l. induction l as [|x l IH]; simpl; auto. rewrite flat_map_app, IH. auto.
Qed.

Lemma map_flat_map : forall X Y Z (f : X -> list Y) (g : Y -> Z) l,
  map g (flat_map f l) = flat_map (fun x => map g (f x)) l.
Proof.
  intros X Y Z f g l. induction l as [|x l IH]; simpl; auto. rewrite map_app, IH. auto.
Qed.

Lemma flat_map_ext_in' : forall X Y (f g : X -> list Y) l,
  (forall x, In x l -> f x = g x) -> flat_map f l = flat_map g l.
Proof.
  intros X Y f g l H. induction l as [|x l IH]; simpl; auto.
  rewrite (H x) by (left; auto). rewrite IH; auto. intros; apply H; right; auto.
Qed.

Lemma NoDup_app' : forall X (l l' : list X), NoDup l -> NoDup l' ->
  (forall x, In x l -> ~ In x l') -> NoDup (l ++ l').
Proof.
  intros X l l' Hl Hl' Hd. induction Hl as [|x l Hx Hl IH]; simpl; auto.
  constructor.
  - rewrite in_app_iff. intros [H|H]; [tauto|]. apply (Hd x); [left; auto|auto].
  - apply IH. intros y Hy. apply Hd. right. auto.
Qed.

Lemma perm_eq : forall X (l l' : list X), l = l' -> Permutation l l'.
Proof. intros X l l' ->. apply Permutation_refl. Qed.

Section Hs.
  Context {A D : Type} {s : Shape Cell A D} {G : Geometry A D} (SUP : Supported s G).
  Notation geo := (geo_ax G).

  Let RG : Regular s G := supported_regular _ _ _ _ SUP.
  Let STO : Stored s G := st_supported _ _ _ _ SUP.

  (** The moves from the cells of the board, by cell and direction. *)
  Definition moves : list (Cell * D) :=
    flat_map (fun c => flat_map (fun d =>
      match geo_step G c d with Some _ => [(c, d)] | None => [] end) (ag_dirs geo)) (geo_nodes G).

  Definition opp (d : D) : option D :=
    find (fun d' => veqb (ag_vec geo d') (vneg (ag_vec geo d))) (ag_dirs geo).
  Definition along (e : Cell * A) : Cell * D := (fst e, ag_fwd geo (snd e)).
  Definition against (e : Cell * A) : list (Cell * D) :=
    match geo_step G (fst e) (ag_fwd geo (snd e)), opp (ag_fwd geo (snd e)) with
    | Some c', Some d' => [(c', d')]
    | _, _ => []
    end.
  Definition ends : list (Cell * D) :=
    map along (spec_edge_names G) ++
    if ag_directed geo then [] else flat_map against (spec_edge_names G).

  Lemma in_moves : forall c d, In (c, d) moves <-> In c (geo_nodes G) /\ geo_step G c d <> None.
  Proof using SUP.
    intros c d. destruct (stored_refines _ _ _ _ Debug STO) as (cell & RF).
    unfold moves. rewrite in_flat_map. split.
    - intros (x & Hx & H). rewrite in_flat_map in H. destruct H as (d' & _ & H).
      destruct (geo_step G x d') eqn:E; [|destruct H]. destruct H as [H|[]].
      injection H as -> ->. split; [auto|congruence].
    - intros (Hc & H). exists c. split; auto. rewrite in_flat_map. exists d.
      split; [apply (all_dirs_in (rf_axis _ _ _ _ RF))|].
      destruct (geo_step G c d); [left; auto|congruence].
  Qed.

  Lemma in_names : forall c a, In (c, a) (spec_edge_names G) <->
    In c (geo_nodes G) /\ geo_step G c (ag_fwd geo a) <> None.
  Proof using SUP.
    intros c a. destruct (stored_refines _ _ _ _ Debug STO) as (cell & RF).
    unfold spec_edge_names. rewrite in_flat_map. split.
    - intros (x & Hx & H). rewrite in_flat_map in H. destruct H as (a' & _ & H).
      destruct (geo_step G x (ag_fwd geo a')) eqn:E; [|destruct H]. destruct H as [H|[]].
      injection H as -> ->. split; [auto|congruence].
    - intros (Hc & H). exists c. split; auto. rewrite in_flat_map. exists a.
      split; [apply (all_axes_in (rf_axis _ _ _ _ RF))|].
      destruct (geo_step G c (ag_fwd geo a)); [left; auto|congruence].
  Qed.

  Lemma moves_nodup : NoDup moves.
  Proof using SUP.
    destruct (stored_refines _ _ _ _ Debug STO) as (cell & RF).
    unfold moves. apply NoDup_flat_map.
    - apply (nodes_nodup RF).
    - intros c _. apply NoDup_flat_map.
      + apply (dirs_nodup (rf_axis _ _ _ _ RF)).
      + intros d _. destruct (geo_step G c d); [|constructor].
        constructor; [intros []|constructor].
      + intros a a' y _ _ H H'.
        destruct (geo_step G c a); [|destruct H].
        destruct (geo_step G c a'); [|destruct H'].
        destruct H as [<-|[]]. destruct H' as [H'|[]]. congruence.
    - intros c c' y _ _ H H'. rewrite in_flat_map in H, H'.
      destruct H as (a & _ & H). destruct H' as (a' & _ & H').
      destruct (geo_step G c a); [|destruct H].
      destruct (geo_step G c' a'); [|destruct H'].
      destruct H as [<-|[]]. destruct H' as [H'|[]]. congruence.
  Qed.

  Lemma in_against : forall e c d, In (c, d) (against e) <->
    geo_step G (fst e) (ag_fwd geo (snd e)) = Some c /\ opposite geo (ag_fwd geo (snd e)) d.
  Proof using SUP.
    intros [x a] c d. destruct (stored_refines _ _ _ _ Debug STO) as (cell & RF).
    unfold against, opp. simpl. split.
    - destruct (geo_step G x (ag_fwd geo a)) as [c'|]; [|intros []].
      destruct (find _ _) as [d'|] eqn:E; [|intros []].
      intros [H|[]]. injection H as -> ->. split; auto.
      apply find_some in E. destruct E as [_ E]. apply veqb_eq in E. exact E.
    - intros [-> Ho]. rewrite (find_opposite RF _ _ Ho). left. auto.
  Qed.

  Lemma ends_nodup : NoDup ends.
  Proof using SUP.
    destruct (stored_refines _ _ _ _ Debug STO) as (cell & RF).
    pose proof (rf_axis _ _ _ _ RF) as AX.
    assert (HN := spec_edge_names_nodup STO). unfold ends.
    assert (Hal : NoDup (map along (spec_edge_names G))).
    { apply FinFun.Injective_map_NoDup; auto. intros [c a] [c' a'] H. unfold along in H. simpl in H.
      injection H as -> H. apply (ao_fwd_inj _ _ _ AX) in H. congruence. }
    destruct (ag_directed geo) eqn:Hdir; [rewrite app_nil_r; auto|].
    apply NoDup_app'; auto.
    - apply NoDup_flat_map; auto.
      + intros [c a] _. unfold against. destruct (geo_step G _ _); [|constructor].
        destruct (opp _); [|constructor]. constructor; [intros []|constructor].
      + intros [x a] [x' a'] [c d] Hx Hx' H H'. apply in_against in H. apply in_against in H'.
        simpl in *. destruct H as [H Ho]. destruct H' as [H' Ho'].
        apply in_names in Hx. apply in_names in Hx'.
        assert (ag_fwd geo a = ag_fwd geo a') as Ha.
        { apply (opposite_unique AX d); apply opposite_sym; auto. }
        apply (ao_fwd_inj _ _ _ AX) in Ha. subst a'.
        pose proof (rg_sym RG _ _ _ _ (proj1 Hx) H Ho).
        pose proof (rg_sym RG _ _ _ _ (proj1 Hx') H' Ho'). congruence.
    - intros [c d] H H'. rewrite in_map_iff in H. destruct H as ((x & a) & He & _).
      unfold along in He. simpl in He. injection He as -> <-.
      rewrite in_flat_map in H'. destruct H' as ((x' & a') & _ & H').
      apply in_against in H'. destruct H' as [_ H']. simpl in H'.
      exact (ao_undirected_opp _ _ _ AX Hdir _ _ H').
  Qed.

  Lemma moves_ends : Permutation moves ends.
  Proof using SUP.
    apply NoDup_Permutation; [apply moves_nodup|apply ends_nodup|].
    destruct (stored_refines _ _ _ _ Debug STO) as (cell & RF).
    pose proof (rf_axis _ _ _ _ RF) as AX.
    intros [c d]. rewrite in_moves. unfold ends. rewrite in_app_iff, in_map_iff. split.
    - intros (Hc & Hs). destruct (geo_step G c d) as [c'|] eqn:E; [|congruence].
      destruct (ao_class _ _ _ AX d) as [(a & Hf & _) | (Hdir & a & Ho & _)].
      + left. subst d. exists (c, a). split; auto. apply in_names. split; [auto|congruence].
      + right. rewrite Hdir. rewrite in_flat_map. exists (c', a).
        pose proof (rg_sym RG _ _ _ _ Hc E Ho) as Hb.
        split.
        * apply in_names. split; [eapply (rg_in RG); eauto|congruence].
        * apply in_against. simpl. split; auto. apply opposite_sym. auto.
    - intros [((x & a) & He & Hn) | H].
      + unfold along in He. simpl in He. injection He as -> <-. apply in_names in Hn. auto.
      + destruct (ag_directed geo) eqn:Hdir; [destruct H|].
        rewrite in_flat_map in H. destruct H as ((x & a) & Hn & H).
        apply in_names in Hn. apply in_against in H. simpl in H. destruct H as [H Ho].
        split; [eapply (rg_in RG); eauto|].
        rewrite (rg_sym RG _ _ _ _ (proj1 Hn) H Ho). discriminate.
  Qed.

  Section W.
    Context {E : Type} (ef : Cell -> A -> E).
    Notation ref := (EdgeReference Cell E D).

    Definition move_ref (p : Cell * D) : list ref :=
      match geo_step G (fst p) (snd p) with
      | Some c' =>
          match edge_name G (fst p) (snd p) c' with
          | Some (x, a) => [mkEdgeRef (fst p) c' (ef x a) (snd p)]
          | None => []
          end
      | None => []
      end.

    Lemma spec_edges_moves :
      flat_map (spec_edges G ef) (geo_nodes G) = flat_map move_ref moves.
    Proof using SUP.
      unfold moves. rewrite flat_map_flat_map. apply flat_map_ext. intros c.
      rewrite flat_map_flat_map. apply flat_map_ext. intros d. unfold move_ref.
      destruct (geo_step G c d) as [c'|] eqn:Es; simpl; [|reflexivity].
      rewrite Es. rewrite app_nil_r. reflexivity.
    Qed.

    Lemma along_refs :
      flat_map move_ref (map along (spec_edge_names G)) = spec_edge_references G ef.
    Proof using SUP.
      destruct (stored_refines _ _ _ _ Debug STO) as (cell & RF).
      rewrite (flat_map_map). unfold spec_edge_names, spec_edge_references.
      rewrite flat_map_flat_map. apply flat_map_ext. intros c.
      rewrite flat_map_flat_map. apply flat_map_ext. intros a.
      destruct (geo_step G c (ag_fwd geo a)) as [c'|] eqn:Es; simpl; [|reflexivity].
      unfold move_ref, along. simpl. rewrite Es, (edge_name_fwd RF). reflexivity.
    Qed.

    Lemma against_refs : ag_directed geo = false ->
      map seen (flat_map move_ref (flat_map against (spec_edge_names G))) =
      map seen_back (spec_edge_references G ef).
    Proof using SUP.
      intros Hdir. destruct (stored_refines _ _ _ _ Debug STO) as (cell & RF).
      pose proof (rf_axis _ _ _ _ RF) as AX.
      unfold spec_edge_names, spec_edge_references.
      rewrite !flat_map_flat_map, !map_flat_map. apply flat_map_ext_in'. intros c Hc.
      rewrite !flat_map_flat_map, !map_flat_map. apply flat_map_ext. intros a.
      destruct (geo_step G c (ag_fwd geo a)) as [c'|] eqn:Es; simpl; [|reflexivity].
      unfold against. simpl. rewrite Es. destruct (ao_opp _ _ _ AX (ag_fwd geo a)) as (d' & Ho).
      unfold opp. rewrite (find_opposite RF _ _ Ho). simpl. unfold move_ref. simpl.
      rewrite (rg_sym RG _ _ _ _ Hc Es Ho).
      rewrite (edge_name_bwd RF c' d' a c Hdir (opposite_sym _ _ Ho)). reflexivity.
    Qed.

    Lemma seen_twice :
      Permutation (map seen (flat_map (spec_edges G ef) (geo_nodes G)))
        (map seen (spec_edge_references G ef) ++
         if ag_directed geo then [] else map seen_back (spec_edge_references G ef)).
    Proof using SUP.
      rewrite spec_edges_moves.
      eapply Permutation_trans.
      { apply Permutation_map. apply Permutation_flat_map. exact moves_ends. }
      unfold ends. rewrite flat_map_app, map_app, along_refs. apply Permutation_app_head.
      destruct (ag_directed geo) eqn:Hdir; [apply Permutation_refl|].
      rewrite against_refs by auto. apply Permutation_refl.
    Qed.
  End W.
End Hs.

(** ** C75 *)

Section C75.
  Context {A D N E : Type} {m : mode} {s : Shape Cell A D} {G : Geometry A D}.
  Notation graph := (LatticeGraph Cell A D N E).

  Lemma c75_lists : Traversable s G -> forall (g : graph) nf ef, Built m s G g nf ef ->
    forall ns es (eb : Cell -> list (EdgeReference Cell E D)),
    Drains (node_indices_next m (g_s g)) (node_identifiers g) ns ->
    Drains (edge_references_next m g) (edge_references g) es ->
    (forall c, In c ns -> exists it, edges m g c = Ok it /\ Drains (edges_next m g) it (eb c)) ->
    ns = geo_nodes G /\ es = spec_edge_references G ef /\
    flat_map eb ns = flat_map (spec_edges G ef) (geo_nodes G).
  Proof.
    intros TR g nf ef HB ns es eb Hns Hes Heb. pose proof (traversable_stored _ _ _ _ TR) as STO.
    assert (ns = geo_nodes G) as -> by (eapply Drains_det; [exact Hns|apply (c06 STO g nf ef HB)]).
    split; auto. split; [eapply Drains_det; [exact Hes|apply (c15_drains STO g nf ef HB)]|].
    apply flat_map_ext_in'. intros c Hc. destruct (Heb c Hc) as (it & H1 & H2).
    destruct (c12 TR g nf ef c HB Hc) as (it' & H1' & H2').
    assert (it' = it) as -> by congruence. eapply Drains_det; eauto.
  Qed.

  Lemma c75_edges : Supported s G -> forall (g : graph) nf ef, Built m s G g nf ef ->
    forall ns es (eb : Cell -> list (EdgeReference Cell E D)),
    Drains (node_indices_next m (g_s g)) (node_identifiers g) ns ->
    Drains (edge_references_next m g) (edge_references g) es ->
    (forall c, In c ns -> exists it, edges m g c = Ok it /\ Drains (edges_next m g) it (eb c)) ->
    Permutation (map seen (flat_map eb ns))
      (map seen es ++ if is_directed g then [] else map seen_back es).
  Proof.
    intros SUP g nf ef HB ns es eb Hns Hes Heb.
    destruct (c75_lists (tr_supported _ _ _ _ SUP) g nf ef HB ns es eb Hns Hes Heb) as (-> & -> & ->).
    pose proof (st_supported _ _ _ _ SUP) as STO. destruct (stored_refines _ _ _ _ m STO) as (cell & RF).
    pose proof (RepProofs.built_rep RF _ _ _ HB) as [Hs _]. unfold is_directed. rewrite Hs.
    rewrite (ao_directed _ _ _ (rf_axis _ _ _ _ RF)). apply (seen_twice SUP).
  Qed.

  Lemma c75_neighbors : Supported s G -> forall (g : graph) nf ef, Built m s G g nf ef ->
    forall ns es (nb : Cell -> list Cell),
    Drains (node_indices_next m (g_s g)) (node_identifiers g) ns ->
    Drains (edge_references_next m g) (edge_references g) es ->
    (forall c, In c ns -> Drains (neighbors_next m g c) (neighbors g c) (nb c)) ->
    Permutation (flat_map (fun c => map (fun t => (c, t)) (nb c)) ns)
      (map (fun r => (er_source r, er_target r)) es ++
       if is_directed g then [] else map (fun r => (er_target r, er_source r)) es).
  Proof.
    intros SUP g nf ef HB ns es nb Hns Hes Hnb. pose proof (tr_supported _ _ _ _ SUP) as TR.
    assert (Hn : ns = geo_nodes G).
    { eapply Drains_det; [exact Hns|apply (c06 (st_supported _ _ _ _ SUP) g nf ef HB)]. }
    assert (Heb : forall c, In c ns -> exists it, edges m g c = Ok it /\
      Drains (edges_next m g) it (spec_edges G ef c)).
    { intros c Hc. apply (c12 TR g nf ef c HB). congruence. }
    pose proof (c75_edges SUP g nf ef HB ns es _ Hns Hes Heb) as P.
    apply (Permutation_map fst) in P. rewrite map_app, !map_map in P.
    rewrite map_flat_map in P.
    rewrite (flat_map_ext_in' _ _ _ (fun c => map (fun t => (c, t)) (nb c))) in P.
    2:{ intros c Hc. destruct (Heb c Hc) as (it & H1 & H2). rewrite Hn in Hc.
        destruct (c12_targets TR g nf ef c it _ _ HB Hc H1 H2 (Hnb c ltac:(rewrite Hn; auto))) as (<- & HF).
        rewrite map_map. apply map_ext_in. intros r Hr. rewrite Forall_forall in HF.
        unfold seen. cbn [fst]. rewrite (HF r Hr). reflexivity. }
    unfold seen in P. cbn [fst] in P. eapply Permutation_trans; [exact P|]. apply Permutation_app_head.
    destruct (is_directed g); [apply Permutation_refl|]. rewrite map_map. apply Permutation_refl.
  Qed.

  (** Directed shapes need not be regular. *)
  Lemma c75_directed : Traversable s G -> forall (g : graph) nf ef, Built m s G g nf ef ->
    is_directed g = true ->
    forall ns es (eb : Cell -> list (EdgeReference Cell E D)),
    Drains (node_indices_next m (g_s g)) (node_identifiers g) ns ->
    Drains (edge_references_next m g) (edge_references g) es ->
    (forall c, In c ns -> exists it, edges m g c = Ok it /\ Drains (edges_next m g) it (eb c)) ->
    flat_map eb ns = es.
  Proof.
    intros TR g nf ef HB Hdir ns es eb Hns Hes Heb.
    destruct (c75_lists TR g nf ef HB ns es eb Hns Hes Heb) as (-> & -> & ->).
    pose proof (traversable_stored _ _ _ _ TR) as STO. destruct (stored_refines _ _ _ _ m STO) as (cell & RF).
    pose proof (rf_axis _ _ _ _ RF) as AX.
    pose proof (RepProofs.built_rep RF _ _ _ HB) as [Hs _]. unfold is_directed in Hdir. rewrite Hs in Hdir.
    assert (Hax : map (ag_fwd (geo_ax G)) (ag_axes (geo_ax G)) = ag_dirs (geo_ax G)).
    { rewrite <- (firstn_dirs RF). rewrite firstn_all2; auto.
      rewrite (ao_directed _ _ _ AX) in Hdir.
      destruct (le_lt_dec (length (ag_dirs (geo_ax G))) (ax_COUNT (sh_axis s))) as [|Hlt]; auto.
      exfalso. destruct (nth_error (ag_dirs (geo_ax G)) (ax_COUNT (sh_axis s))) as [d|] eqn:Ed.
      - destruct (ao_directed_fwd _ _ _ AX Hdir d) as (a & <-).
        pose proof (ao_dnth_inv _ _ _ AX _ _ Ed) as H1. rewrite (ao_fwd_index _ _ _ AX) in H1.
        pose proof (to_index_lt AX a). lia.
      - apply nth_error_None in Ed. lia. }
    unfold spec_edge_references. apply flat_map_ext. intros c. unfold spec_edges.
    rewrite <- Hax, flat_map_map. apply flat_map_ext. intros a.
    destruct (geo_step G c (ag_fwd (geo_ax G) a)) as [c'|]; auto.
    rewrite (edge_name_fwd RF). reflexivity.
  Qed.

  (** The number of neighbours. *)
  Lemma c75_count : Supported s G -> forall (g : graph) nf ef, Built m s G g nf ef ->
    forall ns es (nb : Cell -> list Cell),
    Drains (node_indices_next m (g_s g)) (node_identifiers g) ns ->
    Drains (edge_references_next m g) (edge_references g) es ->
    (forall c, In c ns -> Drains (neighbors_next m g c) (neighbors g c) (nb c)) ->
    list_sum (map (fun c => length (nb c)) ns) =
      ((if is_directed g then 1 else 2) * length es)%nat.
  Proof.
    intros SUP g nf ef HB ns es nb Hns Hes Hnb.
    pose proof (Permutation_length (c75_neighbors SUP g nf ef HB ns es nb Hns Hes Hnb)) as HL.
    rewrite app_length, map_length in HL.
    assert (Hl : forall l, length (flat_map (fun c => map (fun t : Cell => (c, t)) (nb c)) l) =
      list_sum (map (fun c => length (nb c)) l)).
    { induction l as [|c l IH]; simpl; auto. rewrite app_length, map_length, IH. auto. }
    rewrite Hl in HL. rewrite HL. destruct (is_directed g); simpl; [lia|]. rewrite map_length. lia.
  Qed.
End C75.

(** ** C76 *)

Section C76.
  Context {E : Type} {S : LoopShape} {h v : Z} (ef : EdgeIndex -> E).

  Definition sq_moves : list (NodeIndex * SquareDirection) :=
    flat_map (fun n => flat_map (fun d =>
      match sq_neighbour S h v n d with Some _ => [(n, d)] | None => [] end) sq_directions) (sq_nodes h v).
  Definition sq_names : list EdgeIndex :=
    flat_map (fun n => flat_map (fun a =>
      match sq_neighbour S h v n (Foward a) with Some _ => [(n, a)] | None => [] end)
      [Horizontal; Vertical]) (sq_nodes h v).
  Definition sq_against (e : EdgeIndex) : list (NodeIndex * SquareDirection) :=
    match sq_neighbour S h v (fst e) (Foward (snd e)) with
    | Some t => [(t, Backward (snd e))] | None => [] end.
  Definition sq_ends : list (NodeIndex * SquareDirection) :=
    map (fun e => (fst e, Foward (snd e))) sq_names ++ flat_map sq_against sq_names.

  Lemma in_sq_moves : forall n d, In (n, d) sq_moves <->
    on_board h v n /\ sq_neighbour S h v n d <> None.
  Proof.
    intros n d. unfold sq_moves. rewrite in_flat_map. split.
    - intros (x & Hx & H). apply sq_in_nodes in Hx. apply in_flat_map in H. destruct H as (d' & _ & H).
      destruct (sq_neighbour S h v x d') eqn:E'; [|destruct H]. destruct H as [H|[]].
      injection H as -> ->. split; [auto|congruence].
    - intros (Hn & H). exists n. split; [apply sq_in_nodes; auto|]. apply in_flat_map. exists d.
      split; [destruct d as [[]|[]]; cbn; tauto|]. destruct (sq_neighbour S h v n d); [left; auto|congruence].
  Qed.

  Lemma in_sq_names : forall n a, In (n, a) sq_names <->
    on_board h v n /\ sq_neighbour S h v n (Foward a) <> None.
  Proof.
    intros n a. unfold sq_names. rewrite in_flat_map. split.
    - intros (x & Hx & H). apply sq_in_nodes in Hx. apply in_flat_map in H. destruct H as (d' & _ & H).
      destruct (sq_neighbour S h v x (Foward d')) eqn:E'; [|destruct H]. destruct H as [H|[]].
      injection H as -> ->. split; [auto|congruence].
    - intros (Hn & H). exists n. split; [apply sq_in_nodes; auto|]. apply in_flat_map. exists a.
      split; [destruct a; cbn; tauto|]. destruct (sq_neighbour S h v n (Foward a)); [left; auto|congruence].
  Qed.

  Lemma sq_moves_nodup : NoDup sq_moves.
  Proof.
    unfold sq_moves. apply NoDup_flat_map.
    - apply sq_nodes_nodup.
    - intros n _. apply NoDup_flat_map.
      + unfold sq_directions. repeat constructor; cbn; intuition discriminate.
      + intros d _. destruct (sq_neighbour S h v n d); [|constructor]. constructor; [intros []|constructor].
      + intros d d' y _ _ H H'.
        destruct (sq_neighbour S h v n d); [|destruct H].
        destruct (sq_neighbour S h v n d'); [|destruct H'].
        destruct H as [<-|[]]. destruct H' as [H'|[]]. congruence.
    - intros n n' y _ _ H H'. apply in_flat_map in H, H'. destruct H as (d & _ & H), H' as (d' & _ & H').
      destruct (sq_neighbour S h v n d); [|destruct H].
      destruct (sq_neighbour S h v n' d'); [|destruct H'].
      destruct H as [<-|[]]. destruct H' as [H'|[]]. congruence.
  Qed.

  Lemma sq_names_nodup : NoDup sq_names.
  Proof.
    unfold sq_names. apply NoDup_flat_map.
    - apply sq_nodes_nodup.
    - intros n _. apply NoDup_flat_map.
      + repeat constructor; cbn; intuition discriminate.
      + intros d _. destruct (sq_neighbour S h v n (Foward d)); [|constructor]. constructor; [intros []|constructor].
      + intros d d' y _ _ H H'.
        destruct (sq_neighbour S h v n (Foward d)); [|destruct H].
        destruct (sq_neighbour S h v n (Foward d')); [|destruct H'].
        destruct H as [<-|[]]. destruct H' as [H'|[]]. congruence.
    - intros n n' y _ _ H H'. apply in_flat_map in H, H'. destruct H as (d & _ & H), H' as (d' & _ & H').
      destruct (sq_neighbour S h v n (Foward d)); [|destruct H].
      destruct (sq_neighbour S h v n' (Foward d')); [|destruct H'].
      destruct H as [<-|[]]. destruct H' as [H'|[]]. congruence.
  Qed.

  Lemma sq_ends_nodup : NoDup sq_ends.
  Proof.
    unfold sq_ends. apply NoDup_app'.
    - apply FinFun.Injective_map_NoDup; [|apply sq_names_nodup]. intros [n a] [n' a'] H. cbn in H. congruence.
    - apply NoDup_flat_map; [apply sq_names_nodup| |].
      + intros e _. unfold sq_against. destruct (sq_neighbour _ _ _ _ _); [|constructor].
        constructor; [intros []|constructor].
      + intros [n a] [n' a'] y Hn Hn' H H'. unfold sq_against in *. cbn [fst snd] in *.
        apply in_sq_names in Hn, Hn'. destruct Hn as [Hn _], Hn' as [Hn' _].
        destruct (sq_neighbour S h v n (Foward a)) as [t|] eqn:Et; [|destruct H].
        destruct (sq_neighbour S h v n' (Foward a')) as [t'|] eqn:Et'; [|destruct H'].
        destruct H as [<-|[]]. destruct H' as [H'|[]]. injection H' as -> ->.
        apply (proj2 (neighbour_back n a t Hn)) in Et. apply (proj2 (neighbour_back n' a t Hn')) in Et'.
        congruence.
    - intros [n d] H H'. apply in_map_iff in H. destruct H as (e & H & _). injection H as <- <-.
      apply in_flat_map in H'. destruct H' as (e' & _ & H'). unfold sq_against in H'.
      destruct (sq_neighbour _ _ _ _ _); [|destruct H']. destruct H' as [H'|[]]. discriminate.
  Qed.

  Lemma sq_moves_ends : Permutation sq_moves sq_ends.
  Proof.
    apply NoDup_Permutation; [apply sq_moves_nodup|apply sq_ends_nodup|].
    intros [n d]. rewrite in_sq_moves. unfold sq_ends. rewrite in_app_iff, in_map_iff, in_flat_map. split.
    - intros (Hn & H). destruct d as [a|a].
      + left. exists (n, a). split; auto. apply in_sq_names. auto.
      + right. destruct (sq_neighbour S h v n (Backward a)) as [t|] eqn:Et; [|congruence].
        assert (Ht : on_board h v t) by (eapply neighbour_on_board; eauto).
        apply (proj1 (neighbour_back n a t Hn)) in Et. exists (t, a). split.
        * apply in_sq_names. split; [auto|congruence].
        * unfold sq_against. cbn [fst snd]. rewrite Et. left. auto.
    - intros [((x & a) & H & Hn)|((x & a) & Hn & H)].
      + injection H as <- <-. apply in_sq_names in Hn. auto.
      + apply in_sq_names in Hn. destruct Hn as [Hn _]. unfold sq_against in H. cbn [fst snd] in H.
        destruct (sq_neighbour S h v x (Foward a)) as [t|] eqn:Et; [|destruct H].
        destruct H as [H|[]]. injection H as <- <-.
        split; [eapply neighbour_on_board; eauto|].
        rewrite (proj2 (neighbour_back x a t Hn) Et). discriminate.
  Qed.

  Definition sq_move_view (p : NodeIndex * SquareDirection) : list (EdgeView E) :=
    match sq_edge_view S h v ef (fst p) (snd p) with Some x => [x] | None => [] end.

  Lemma sq_seen_twice :
    Permutation (flat_map (sq_edges_of S h v ef) (sq_nodes h v))
      (sq_all_edges S h v ef ++ map view_back (sq_all_edges S h v ef)).
  Proof.
    eapply Permutation_trans with (flat_map sq_move_view sq_moves).
    { apply perm_eq. unfold sq_moves. rewrite flat_map_flat_map. apply flat_map_ext. intros n.
      unfold sq_edges_of. rewrite flat_map_flat_map. apply flat_map_ext. intros d.
      unfold sq_move_view, sq_edge_view. destruct (sq_neighbour S h v n d) eqn:Et; [|reflexivity].
      cbn [flat_map fst snd]. rewrite Et. reflexivity. }
    eapply Permutation_trans; [apply Permutation_flat_map; exact sq_moves_ends|].
    apply perm_eq. unfold sq_ends. rewrite flat_map_app. f_equal.
    - rewrite flat_map_map. unfold sq_names, sq_all_edges. rewrite flat_map_flat_map. apply flat_map_ext. intros n.
      rewrite flat_map_flat_map. apply flat_map_ext. intros a. unfold sq_move_view, sq_edge_view.
      destruct (sq_neighbour S h v n (Foward a)) eqn:Et; [|reflexivity].
      cbn [flat_map fst snd]. rewrite Et. reflexivity.
    - unfold sq_names, sq_all_edges. rewrite !flat_map_flat_map, map_flat_map.
      apply flat_map_ext_in'. intros n Hn. apply sq_in_nodes in Hn.
      rewrite !flat_map_flat_map, map_flat_map. apply flat_map_ext. intros a. unfold sq_edge_view.
      destruct (sq_neighbour S h v n (Foward a)) as [t|] eqn:Et; [|reflexivity].
      unfold sq_against. cbn [flat_map fst snd app]. rewrite Et. cbn [flat_map app].
      unfold sq_move_view, sq_edge_view. cbn [fst snd].
      rewrite (proj2 (neighbour_back n a t Hn) Et). reflexivity.
  Qed.
End C76.

Section C76g.
  Context {N E : Type} {ix : IxType} {S : LoopShape} {m : mode} {h v : Z}
    (SZ : sq_size S h v) (FX : sq_index_fits ix h v).

  Lemma c76 : 1 <= v -> forall (g : SquareGraph N E ix S) nf ef, SqBuilt m h v g nf ef ->
    forall ns es (eb : NodeIndex -> list (SqEdgeReference E)),
    Drains (sg_node_indices_next (ix := ix) m) (sg_node_identifiers g) ns ->
    Drains (sg_edge_references_next m g) (sg_edge_references g) es ->
    (forall n, In n ns -> Drains (sg_edges_next m g) (sg_edges g n) (eb n)) ->
    exists vs all, map (sq_view ix S m) (flat_map eb ns) = map Ok vs /\
      map (sq_view ix S m) es = map Ok all /\ Permutation vs (all ++ map view_back all).
  Proof using SZ FX.
    intros Hv g nf ef B ns es eb Hns Hes Heb.
    assert (ns = sq_nodes h v) as ->.
    { eapply Drains_det; [exact Hns|]. apply (c43_identifiers SZ FX B Hv). }
    destruct (c46 SZ FX B) as (l & H1 & H2).
    assert (es = l) as -> by (eapply Drains_det; eauto).
    exists (flat_map (sq_edges_of S h v ef) (sq_nodes h v)), (sq_all_edges S h v ef).
    split; [|split; [exact H2|apply sq_seen_twice]].
    rewrite !map_flat_map. apply flat_map_ext_in'. intros n Hn.
    destruct (c45 SZ FX B n ltac:(apply sq_in_nodes; auto)) as (l' & H1' & H2' & _).
    assert (eb n = l') as -> by (eapply Drains_det; [apply Heb; auto|auto]). exact H2'.
  Qed.

  Lemma c76_count : 1 <= v -> forall (g : SquareGraph N E ix S) nf ef, SqBuilt m h v g nf ef ->
    forall ns es (nb : NodeIndex -> list NodeIndex),
    Drains (sg_node_indices_next (ix := ix) m) (sg_node_identifiers g) ns ->
    Drains (sg_edge_references_next m g) (sg_edge_references g) es ->
    (forall n, In n ns -> Drains (sg_neighbors_next (ix := ix) (S := S) m) (sg_neighbors g n) (nb n)) ->
    list_sum (map (fun n => length (nb n)) ns) = (2 * length es)%nat.
  Proof using SZ FX.
    intros Hv g nf ef B ns es nb Hns Hes Hnb.
    assert (ns = sq_nodes h v) as ->.
    { eapply Drains_det; [exact Hns|]. apply (c43_identifiers SZ FX B Hv). }
    destruct (c46 SZ FX B) as (l & H1 & H2).
    assert (es = l) as -> by (eapply Drains_det; eauto).
    assert (HL : length l = length (sq_all_edges S h v ef)).
    { apply (f_equal (@length _)) in H2. rewrite !map_length in H2. auto. }
    rewrite HL. pose proof (Permutation_length (sq_seen_twice (S := S) (h := h) (v := v) ef)) as P.
    rewrite app_length, map_length in P.
    replace (2 * _)%nat with (length (flat_map (sq_edges_of S h v ef) (sq_nodes h v))) by lia.
    assert (HN : forall n, In n (sq_nodes h v) -> length (nb n) = length (sq_edges_of S h v ef n)).
    { intros n Hn. transitivity (length (map snd (sq_edges_of S h v ef n))); [|apply map_length].
      rewrite c45_targets. f_equal.
      eapply Drains_det; [apply Hnb; auto|]. apply (c44 SZ FX B). apply sq_in_nodes; auto. }
    clear - HN. induction (sq_nodes h v) as [|n l IH]; simpl; auto.
    rewrite app_length, IH by (intros; apply HN; right; auto). rewrite (HN n) by (left; auto). auto.
  Qed.
End C76g.
