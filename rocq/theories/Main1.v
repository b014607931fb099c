(** * Main1: the properties of the lattice graphs, for every supported shape, and where possible
    for every shape. *)

From Verif Require Import Machine Store Axes Shapes Lattice Spec Basics AxisProofs GeoProofs
  ShapeProofs StoreProofs GraphProofs RepProofs IterProofs EdgeProofs VisitProofs.
From Coq Require Import ZifyBool ZifyNat.
Ltac Zify.zify_post_hook ::= Z.div_mod_to_equations.

Ltac refine_shape m H :=
  let cell := fresh "cell" in let RF := fresh "RF" in let RG := fresh "RG" in
  destruct (supported_refines _ _ _ _ m H) as (cell & RF);
  pose proof (supported_regular _ _ _ _ H) as RG.

Ltac refine_trav m H :=
  let cell := fresh "cell" in let RF := fresh "RF" in let RD := fresh "RD" in
  destruct (stored_refines _ _ _ _ m (traversable_stored _ _ _ _ H)) as (cell & RF);
  pose proof (traversable_readable _ _ _ _ H) as RD.

Ltac refine_store m H :=
  let cell := fresh "cell" in let RF := fresh "RF" in
  destruct (stored_refines _ _ _ _ m H) as (cell & RF).

Lemma map_flat_map : forall X Y Z (f : Y -> Z) (g : X -> list Y) l,
  map f (flat_map g l) = flat_map (fun x => map f (g x)) l.
Proof.
  intros. induction l as [|x l IH]; cbn [flat_map map]; auto. rewrite map_app, IH. auto.
Qed.

Section Stored.
  Context {A D N E : Type} {m : mode} {s : Shape Cell A D} {G : Geometry A D}
    (STO : Stored s G).
  Notation graph := (LatticeGraph Cell A D N E).

  Lemma c01 : forall (nf : Cell -> N) (ef : Cell -> A -> E), exists g : graph,
    new_with s (fun st c => (nf c, st)) (fun st c a => (ef c a, st)) m tt = Ok (g, tt) /\
    (forall c, In c (geo_nodes G) -> node_weight m g c = Ok (Some (nf c))) /\
    (forall c, locatable m G c -> ~ In c (geo_nodes G) -> node_weight m g c = Ok None).
  Proof using STO.
    intros nf ef. refine_store m STO.
    destruct (new_with_rep RF nf ef) as (g & H1 & HR). exists g. split; auto. split.
    - intros c Hc. eapply (rep_node_weight RF); eauto.
    - intros c [Hc Hx] Hn. destruct HR as [Hs _]. apply (off_board_node_weight RF); auto.
  Qed.

  Lemma c02 : forall (nf : Cell -> N) (ef : Cell -> A -> E), exists g : graph,
    new_with s (fun st c => (nf c, st)) (fun st c a => (ef c a, st)) m tt = Ok (g, tt) /\
    (forall c a, edge_exists G c a -> edge_weight m g (c, a) = Ok (Some (ef c a))) /\
    (forall c a, locatable m G c -> ~ edge_exists G c a -> edge_weight m g (c, a) = Ok None).
  Proof using STO.
    intros nf ef. refine_store m STO.
    destruct (new_with_rep RF nf ef) as (g & H1 & HR). exists g. split; auto. split.
    - intros c a Hc. eapply (rep_edge_weight RF); eauto.
    - intros c a [Hc Hx] Hn. destruct HR as [Hs _]. apply (off_board_edge_weight RF); auto.
  Qed.

  (** Current weights of any built graph. *)
  Lemma built_weights : forall (g : graph) nf ef, Built m s G g nf ef ->
    (forall c, In c (geo_nodes G) -> node_weight m g c = Ok (Some (nf c))) /\
    (forall c a, edge_exists G c a -> edge_weight m g (c, a) = Ok (Some (ef c a))) /\
    (forall c, locatable m G c -> ~ In c (geo_nodes G) -> node_weight m g c = Ok None) /\
    (forall c a, locatable m G c -> ~ edge_exists G c a -> edge_weight m g (c, a) = Ok None).
  Proof using STO.
    intros g nf ef HB. refine_store m STO.
    pose proof (built_rep RF _ _ _ HB) as HR. pose proof HR as [Hs _].
    split; [|split; [|split]].
    - intros c Hc. eapply (rep_node_weight RF); eauto.
    - intros c a Hc. eapply (rep_edge_weight RF); eauto.
    - intros c [Hc Hx] Hn. apply (off_board_node_weight RF); auto.
    - intros c a [Hc Hx] Hn. apply (off_board_edge_weight RF); auto.
  Qed.

  Lemma c03_ok : forall St (n : St -> Cell -> N * St) (e : St -> Cell -> A -> E * St) st,
    exists g st', new_with s n e m st = Ok (g, st') /\
      node_count m g = Ok (sh_horizontal s * sh_vertical s) /\
      Z.of_nat (length (geo_nodes G)) = sh_horizontal s * sh_vertical s.
  Proof using STO.
    intros St n e st. refine_store m STO.
    destruct (new_with_calls RF St n e st) as (g & nf & ef & H1 & H2 & _).
    exists g, (state_after n e (spec_calls G) st). split; auto. split.
    - unfold node_count. rewrite H2. apply (node_count_ok RF).
    - rewrite (nodes_length RF). pose proof (wh_range RF). lia.
  Qed.

  Lemma c04 : forall St (n : St -> Cell -> N * St) (e : St -> Cell -> A -> E * St) st,
    exists g, new_with s n e m st = Ok (g, state_after n e (spec_calls G) st) /\
      (forall l1 c l2, spec_calls G = l1 ++ CallNode c :: l2 ->
         node_weight m g c = Ok (Some (fst (n (state_after n e l1 st) c)))) /\
      (forall l1 c a l2, spec_calls G = l1 ++ CallEdge c a :: l2 ->
         edge_weight m g (c, a) = Ok (Some (fst (e (state_after n e l1 st) c a)))).
  Proof using STO.
    intros St n e st. refine_store m STO.
    destruct (new_with_calls RF St n e st) as (g & nf & ef & H1 & H2 & H3 & H4 & H5 & _).
    exists g. split; auto. split.
    - intros l1 c l2 Heq. eapply (content_node_weight RF); eauto.
      apply (in_spec_calls_node c). rewrite Heq. apply in_or_app. right. left. auto.
    - intros l1 c a l2 Heq. eapply (content_edge_weight RF); eauto.
      apply (in_spec_calls_edge RF c a). rewrite Heq. apply in_or_app. right. left. auto.
  Qed.

  Lemma c04_calls : NoDup (spec_calls G) /\
    (forall c, In (CallNode c) (spec_calls G) <-> In c (geo_nodes G)) /\
    (forall c a, In (CallEdge c a) (spec_calls G) <-> edge_exists G c a).
  Proof using STO.
    refine_store Debug STO. split; [apply (spec_calls_nodup RF)|].
    split; intros; [apply in_spec_calls_node | apply (in_spec_calls_edge RF)].
  Qed.

  Lemma c05 : forall (g : graph) nf ef, Built m s G g nf ef ->
    node_bound m g = Ok (Z.of_nat (length (geo_nodes G))) /\
    node_count m g = Ok (Z.of_nat (length (geo_nodes G))) /\
    NoDup (geo_nodes G) /\
    (forall i c, nth_error (geo_nodes G) i = Some c ->
       to_index m g c = Ok (Z.of_nat i) /\ from_index m g (Z.of_nat i) = Ok c).
  Proof using STO.
    intros g nf ef HB. refine_store m STO.
    pose proof (built_rep RF _ _ _ HB) as [Hs _].
    pose proof (wh_range RF) as W.
    assert (Hl : Z.of_nat (length (geo_nodes G)) = sh_horizontal s * sh_vertical s)
      by (rewrite (nodes_length RF); lia).
    unfold node_bound, node_count. rewrite Hs, Hl, (node_count_ok RF).
    split; auto. split; auto. split; [apply (nodes_nodup RF)|].
    intros i c Hi.
    assert (Hr : 0 <= Z.of_nat i < sh_horizontal s * sh_vertical s).
    { rewrite <- Hl. split; [lia|]. apply inj_lt. apply nth_error_Some. congruence. }
    pose proof (nodes_nth RF _ Hr) as Hn. rewrite Nat2Z.id in Hn. rewrite Hi in Hn.
    injection Hn as ->. destruct (index_split RF _ Hr) as (Hx & Hy & Hxy).
    unfold to_index, from_index. rewrite Hs. split.
    - rewrite (to_index_ok RF) by auto. cbn [bind unwrap]. f_equal. lia.
    - apply (index_to_coordinate_ok RF). auto.
  Qed.

  Lemma c05_off_board : forall (g : graph) nf ef c, Built m s G g nf ef ->
    locatable m G c -> ~ In c (geo_nodes G) -> to_index m g c = Fail FPanic.
  Proof using STO.
    intros g nf ef c HB [Hc Hx] Hn. refine_store m STO.
    pose proof (built_rep RF _ _ _ HB) as [Hs _].
    unfold to_index, sh_to_index. rewrite Hs, (rf_off_board _ _ _ _ RF) by auto. reflexivity.
  Qed.

  Lemma c06 : forall (g : graph) nf ef, Built m s G g nf ef ->
    Drains (node_indices_next m (g_s g)) (node_identifiers g) (geo_nodes G).
  Proof using STO.
    intros g nf ef HB. refine_store m STO. pose proof (built_rep RF _ _ _ HB) as [Hs _].
    rewrite Hs. eapply IterInv_drains; [apply (node_indices_inv RF)|].
    rewrite <- (map_id (geo_nodes G)). apply (node_pos_start RF).
  Qed.

  Lemma c07 : forall (g : graph) nf ef, Built m s G g nf ef ->
    Drains (node_references_next m g) (node_references g)
      (map (fun c => (c, nf c)) (geo_nodes G)).
  Proof using STO.
    intros g nf ef HB. refine_store m STO. pose proof (built_rep RF _ _ _ HB) as HR.
    eapply IterInv_drains; [eapply (node_references_inv RF); eauto|].
    apply (node_pos_start RF).
  Qed.

  Lemma c08 : forall (g : graph) nf ef l it, Built m s G g nf ef ->
    Consumed (node_indices_next m (g_s g)) (node_identifiers g) l it ->
    exists rest, geo_nodes G = l ++ rest /\
      Drains (node_indices_next m (g_s g)) it rest /\
      node_indices_size_hint m (g_s g) it
        = Ok (Z.of_nat (length rest), Some (Z.of_nat (length rest))) /\
      exact_len (node_indices_size_hint m (g_s g) it) = Ok (Z.of_nat (length rest)).
  Proof using STO.
    intros g nf ef l it HB HC. refine_store m STO. pose proof (built_rep RF _ _ _ HB) as [Hs _].
    rewrite Hs in *.
    destruct (IterInv_consumed _ _ _ _ _ _ _ (node_indices_inv RF) HC (geo_nodes G))
      as (rest & H1 & H2).
    { pose proof (node_pos_start RF Cell (fun c => c)) as H. rewrite map_id in H. exact H. }
    exists rest. split; auto. split; [eapply IterInv_drains; [apply (node_indices_inv RF)|auto]|].
    assert (Hh : node_indices_size_hint m s it
      = Ok (Z.of_nat (length rest), Some (Z.of_nat (length rest)))).
    { unfold node_indices_size_hint. rewrite (node_count_ok RF). cbn [bind].
      pose proof (node_pos_len RF _ _ _ _ H2) as Hl. destruct H2 as [Hi _].
      pose proof (wh_range RF) as W. rewrite IMAX1_val in W.
      rewrite usize_sub_ok by (rewrite USIZE_val; lia). cbn [bind]. rewrite <- Hl. reflexivity. }
    split; auto. rewrite Hh. unfold exact_len. cbn [bind]. rewrite Z.eqb_refl. reflexivity.
  Qed.

  Lemma c08_references : forall (g : graph) nf ef l it, Built m s G g nf ef ->
    Consumed (node_references_next m g) (node_references g) l it ->
    exists rest lower, map (fun c => (c, nf c)) (geo_nodes G) = l ++ rest /\
      Drains (node_references_next m g) it rest /\
      node_references_size_hint it = Ok (lower, None) /\ 0 <= lower <= Z.of_nat (length rest) /\
      exact_len (node_references_size_hint it) = Fail FPanic.
  Proof using STO.
    intros g nf ef l it HB HC. refine_store m STO. pose proof (built_rep RF _ _ _ HB) as HR.
    destruct (IterInv_consumed _ _ _ _ _ _ _ (node_references_inv RF g nf ef HR) HC
      (map (fun c => (c, nf c)) (geo_nodes G))) as (rest & H1 & H2).
    { apply (node_pos_start RF). }
    exists rest, 0. split; auto. split.
    { eapply IterInv_drains; [apply (node_references_inv RF g nf ef HR)|auto]. }
    split; [reflexivity|]. split; [lia|reflexivity].
  Qed.

  Lemma c09 : forall (g : graph) nf ef c dir, Built m s G g nf ef -> In c (geo_nodes G) ->
    Drains (neighbors_next m g c) (neighbors g c) (spec_neighbors G c) /\
    Drains (neighbors_next m g c) (neighbors_directed g c dir) (spec_neighbors G c).
  Proof using STO.
    intros g nf ef c dir HB Hc. refine_store m STO. pose proof (built_rep RF _ _ _ HB) as [Hs _].
    assert (H : Drains (neighbors_next m g c) 0%nat (spec_neighbors G c)).
    { eapply IterInv_drains; [apply (neighbors_inv RF); auto|]. apply nb_pos_start. }
    split; exact H.
  Qed.

  Lemma in_spec_neighbors : forall a b,
    In b (spec_neighbors G a) <-> exists d, geo_step G a d = Some b.
  Proof using STO.
    intros a b. refine_store Debug STO. unfold spec_neighbors. rewrite in_flat_map. split.
    - intros (d & Hd & H). exists d. destruct (geo_step G a d); [|destruct H].
      destruct H as [->|[]]. auto.
    - intros (d & Hd). exists d. split; [apply (all_dirs_in (rf_axis _ _ _ _ RF))|].
      rewrite Hd. left; auto.
  Qed.

  Lemma in_spec_edge_names : forall c a,
    In (c, a) (spec_edge_names G) <-> edge_exists G c a.
  Proof using STO.
    intros c a. refine_store Debug STO. unfold spec_edge_names, edge_exists.
    rewrite in_flat_map. split.
    - intros (c0 & Hc & H). rewrite in_flat_map in H. destruct H as (a0 & Ha & H).
      destruct (geo_step G c0 (ag_fwd (geo_ax G) a0)) eqn:Es; [|destruct H].
      destruct H as [H|[]]. injection H as -> ->. split; auto. congruence.
    - intros [Hc Hs]. exists c. split; auto. rewrite in_flat_map. exists a.
      split; [apply (all_axes_in (rf_axis _ _ _ _ RF))|].
      destruct (geo_step G c (ag_fwd (geo_ax G) a)); [left; auto|congruence].
  Qed.

  Lemma spec_edge_names_nodup : NoDup (spec_edge_names G).
  Proof using STO.
    refine_store Debug STO. unfold spec_edge_names. apply NoDup_flat_map.
    - apply (nodes_nodup RF).
    - intros c _. apply NoDup_flat_map.
      + apply (axes_nodup (rf_axis _ _ _ _ RF)).
      + intros a _. destruct (geo_step G c (ag_fwd (geo_ax G) a)); [|constructor].
        constructor; [intros []|constructor].
      + intros a a' y _ _ H H'.
        destruct (geo_step G c (ag_fwd (geo_ax G) a)); [|destruct H].
        destruct (geo_step G c (ag_fwd (geo_ax G) a')); [|destruct H'].
        destruct H as [<-|[]]. destruct H' as [H'|[]]. congruence.
    - intros c c' y _ _ H H'. rewrite in_flat_map in H, H'.
      destruct H as (a & _ & H). destruct H' as (a' & _ & H').
      destruct (geo_step G c (ag_fwd (geo_ax G) a)); [|destruct H].
      destruct (geo_step G c' (ag_fwd (geo_ax G) a')); [|destruct H'].
      destruct H as [<-|[]]. destruct H' as [H'|[]]. congruence.
  Qed.

  Lemma same_cell_eq : forall a b, same_cell a b = pair_eqb a b.
  Proof. reflexivity. Qed.

  Lemma write_op_ok : forall (g : graph) nf ef op, Built m s G g nf ef ->
    locatable m G (write_coord op) ->
    exists g', write_op m g op = Ok (fst (fst (write_spec G nf ef op)), g') /\
      Built m s G g' (snd (fst (write_spec G nf ef op))) (snd (write_spec G nf ef op)).
  Proof using STO.
    intros g nf ef op HB Hl. refine_store m STO. pose proof (built_rep RF _ _ _ HB) as [Hs _].
    destruct op as [c f|c a f]; unfold write_op; cbn [write_spec write_coord] in *.
    - destruct (in_dec cell_dec c (geo_nodes G)) as [Hin|Hn].
      + rewrite (proj2 (mem_true _ _) Hin). cbn [fst snd].
        destruct (built_node_write RF g nf ef c (option_map f) (f (nf c))
                    (fun c' => if same_cell c' c then f (nf c') else nf c') HB Hin eq_refl)
          as (g' & W1 & _ & W3).
        * rewrite same_cell_eq, (proj2 (pair_eqb_eq c c) eq_refl). reflexivity.
        * intros c' Hne. rewrite same_cell_eq. destruct (pair_eqb c' c) eqn:Ep; auto.
          apply pair_eqb_eq in Ep. congruence.
        * rewrite W1. cbn [bind]. eauto.
      + replace (mem c (geo_nodes G)) with false
          by (symmetry; apply not_true_iff_false; rewrite mem_true; auto).
        destruct Hl as [Hc Hx]. rewrite (off_board_node_write RF) by auto. cbn [bind fst snd]. eauto.
    - set (ex := mem c (geo_nodes G) &&
             match geo_step G c (ag_fwd (geo_ax G) a) with Some _ => true | None => false end).
      assert (Hex : ex = true <-> edge_exists G c a).
      { unfold ex, edge_exists. rewrite andb_true_iff, mem_true.
        destruct (geo_step G c (ag_fwd (geo_ax G) a)); intuition congruence. }
      destruct ex eqn:Ee.
      + assert (He : edge_exists G c a) by (apply Hex; auto). cbn [fst snd].
        set (ef' := fun c' a' => if same_cell c' c &&
               veqb (ag_vec (geo_ax G) (ag_fwd (geo_ax G) a')) (ag_vec (geo_ax G) (ag_fwd (geo_ax G) a))
             then f (ef c' a') else ef c' a').
        destruct (built_edge_write RF g nf ef c a (option_map f) (f (ef c a)) ef' HB He eq_refl)
          as (g' & W1 & _ & W3).
        * unfold ef'. rewrite same_cell_eq, (proj2 (pair_eqb_eq c c) eq_refl).
          rewrite (proj2 (veqb_eq _ _) eq_refl). reflexivity.
        * intros c' a' Hne. unfold ef'. rewrite same_cell_eq. destruct (pair_eqb c' c) eqn:Ep; auto.
          destruct (veqb _ _) eqn:Ev; auto. apply pair_eqb_eq in Ep. apply veqb_eq in Ev.
          apply (ao_vec_inj _ _ _ (rf_axis _ _ _ _ RF)) in Ev.
          apply (ao_fwd_inj _ _ _ (rf_axis _ _ _ _ RF)) in Ev. congruence.
        * rewrite W1. cbn [bind]. eauto.
      + assert (He : ~ edge_exists G c a) by (rewrite <- Hex; discriminate).
        destruct Hl as [Hc Hx]. rewrite (off_board_edge_write RF) by auto. cbn [bind fst snd]. eauto.
  Qed.

  Lemma write_run_ok : forall ops (g : graph) nf ef, Built m s G g nf ef ->
    Forall (fun op => locatable m G (write_coord op)) ops ->
    exists g', write_run m g ops = Ok (fst (fst (write_spec_run G nf ef ops)), g') /\
      Built m s G g' (snd (fst (write_spec_run G nf ef ops))) (snd (write_spec_run G nf ef ops)).
  Proof using STO.
    induction ops as [|op ops IH]; intros g nf ef HB HF; cbn [write_run write_spec_run].
    - exists g. auto.
    - inversion HF; subst. destruct (write_op_ok g nf ef op HB H1) as (g1 & E1 & B1).
      rewrite E1. cbn [bind]. destruct (write_spec G nf ef op) as [[b nf1] ef1]. cbn [fst snd] in *.
      destruct (IH g1 nf1 ef1 B1 H2) as (g2 & E2 & B2). rewrite E2. cbn [bind].
      destruct (write_spec_run G nf1 ef1 ops) as [[l nf2] ef2]. cbn [fst snd] in *. eauto.
  Qed.

  (** One write, all accessors. *)
  Lemma c19_node : forall (g : graph) nf ef c f, Built m s G g nf ef -> In c (geo_nodes G) ->
    exists g', node_weight_mut m g c (option_map f) = Ok (Some g') /\
      (forall nf', nf' c = f (nf c) -> (forall c', c' <> c -> nf' c' = nf c') ->
         Built m s G g' nf' ef).
  Proof using STO.
    intros g nf ef c f HB Hc. refine_store m STO.
    pose proof (fun nf' => built_node_write RF g nf ef c (option_map f) (f (nf c)) nf' HB Hc eq_refl) as H.
    destruct (H (fun c' => if pair_eqb c' c then f (nf c') else nf c')) as (g' & W1 & W2 & W3).
    - rewrite (proj2 (pair_eqb_eq c c) eq_refl). reflexivity.
    - intros c' Hne. destruct (pair_eqb c' c) eqn:Ep; auto. apply pair_eqb_eq in Ep. congruence.
    - exists g'. split; auto. intros nf' H1 H2.
      destruct (H nf' H1 H2) as (g2 & W1' & _ & W3'). congruence.
  Qed.

  Lemma c21_total : forall (g : graph) nf ef c a vm, Built m s G g nf ef -> locatable m G c ->
    ~ In c (geo_nodes G) ->
    sh_to_offset s m c = Ok None /\ node_weight m g c = Ok None /\
    edge_weight m g (c, a) = Ok None /\ vm_is_visited m s vm c = Ok false.
  Proof using STO.
    intros g nf ef c a vm HB [Hc Hx] Hn. refine_store m STO.
    pose proof (built_rep RF _ _ _ HB) as [Hs _].
    pose proof (rf_off_board _ _ _ _ RF c Hc Hn Hx) as Ho.
    split; auto. split; [apply (off_board_node_weight RF); auto|].
    split; [apply (off_board_edge_weight RF); auto; intros [H _]; auto|].
    unfold vm_is_visited. rewrite Ho. reflexivity.
  Qed.

  Lemma c21_extreme : forall (g : graph) nf ef c a vm, Built m s G g nf ef -> m = Debug ->
    geo_coord G c -> geo_extreme G c ->
    sh_to_offset s m c = Fail FPanic /\ node_weight m g c = Fail FPanic /\
    edge_weight m g (c, a) = Fail FPanic /\ vm_is_visited m s vm c = Fail FPanic.
  Proof using STO.
    intros g nf ef c a vm HB Hm Hc Hx. refine_store m STO.
    pose proof (built_rep RF _ _ _ HB) as [Hs _].
    pose proof (rf_extreme _ _ _ _ RF c Hc Hx Hm) as Ho.
    unfold node_weight, edge_weight, vm_is_visited. cbn [fst snd]. rewrite Hs, Ho. auto.
  Qed.

  Lemma c22 : forall (g : graph) nf ef c dir, Built m s G g nf ef -> locatable m G c ->
    ~ In c (geo_nodes G) ->
    edges m g c = unreachable_debug_checked m /\
    edges_directed m g c dir = unreachable_debug_checked m.
  Proof using STO.
    intros g nf ef c dir HB [Hc Hx] Hn. refine_store m STO.
    pose proof (built_rep RF _ _ _ HB) as [Hs _].
    unfold edges, edges_directed, edges_new_d. rewrite Hs, (rf_off_board _ _ _ _ RF) by auto. auto.
  Qed.

  Lemma c22_fault : forall (g : graph) nf ef c dir, Built m s G g nf ef -> locatable m G c ->
    ~ In c (geo_nodes G) ->
    edges m g c = Fail (match m with Debug => FPanic | Release => FUB end) /\
    edges_directed m g c dir = Fail (match m with Debug => FPanic | Release => FUB end).
  Proof using STO.
    intros g nf ef c dir HB Hl Hn. destruct (c22 g nf ef c dir HB Hl Hn) as [-> ->].
    clear. destruct m; auto.
  Qed.

  Lemma edge_names_weights : forall (g : graph) nf ef c a, Built m s G g nf ef -> locatable m G c ->
    (In (c, a) (spec_edge_names G) <-> exists x, edge_weight m g (c, a) = Ok (Some x)).
  Proof using STO.
    intros g nf ef c a HB Hl. rewrite in_spec_edge_names.
    pose proof (built_weights g nf ef HB) as (_ & H1 & _ & H2). split.
    - intros He. exists (ef c a). auto.
    - intros (x & Hx). unfold edge_exists.
      destruct (in_dec cell_dec c (geo_nodes G)) as [Hi|Hi].
      + split; auto. intros Hn. rewrite H2 in Hx; [discriminate|auto|intros [_ H]; auto].
      + rewrite H2 in Hx; [discriminate|auto|intros [H _]; auto].
  Qed.

  (** ** Visit map *)

  Lemma c23 : forall (g : graph) nf ef ops, Built m s G g nf ef ->
    Forall (visit_allowed m G) ops ->
    visit_run m g (visit_map g) ops = Ok (visit_spec_run (geo_nodes G) [] ops).
  Proof using STO.
    intros g nf ef ops HB HF. refine_store m STO. pose proof (built_rep RF _ _ _ HB) as [Hs _].
    apply (visit_run_ok RF); auto. apply (visit_map_rep RF). auto.
  Qed.

  (** ** Moves *)

  (** Every move from a board cell is the geometric step. *)
  Lemma move_geometric : forall c d, In c (geo_nodes G) ->
    sh_move_coord s m c d = Ok (geo_step G c d).
  Proof using STO. intros c d Hc. refine_store m STO. apply (rf_move _ _ _ _ RF). auto. Qed.

  Lemma c26_axis : forall a, exists d d', ax_foward (sh_axis s) m a = Ok d /\
    ax_backward (sh_axis s) m a = Ok d' /\ opposite (geo_ax G) d d'.
  Proof using STO.
    intros a. refine_store m STO. pose proof (rf_axis _ _ _ _ RF) as AX.
    destruct (ao_bwd _ _ _ AX a) as (d' & H1 & H2). exists (ag_fwd (geo_ax G) a), d'.
    split; [apply (ao_fwd _ _ _ AX)|]. auto.
  Qed.

  (** ** Unchecked variants *)

  Lemma c36_shape : forall c, In c (geo_nodes G) ->
    (exists o, sh_to_offset s m c = Ok (Some o) /\ sh_to_offset_unchecked s m c = Ok o) /\
    (forall d c', sh_move_coord s m c d = Ok (Some c') -> sh_move_coord_unchecked s m c d = Ok c').
  Proof using STO.
    intros c Hc. refine_store m STO. split.
    - destruct (on_board_offset RF c Hc) as (x & y & _ & _ & _ & H1 & H2). eauto.
    - intros d c' Hm. rewrite (rf_move _ _ _ _ RF) in Hm by auto. injection Hm as Hm.
      apply (rf_move_unchecked _ _ _ _ RF); auto.
  Qed.

  Lemma c36_graph : forall (g : graph) nf ef, Built m s G g nf ef ->
    (forall c, In c (geo_nodes G) -> exists x, node_weight m g c = Ok (Some x) /\
       node_weight_unchecked m g c = Ok x) /\
    (forall c a, edge_exists G c a -> exists x, edge_weight m g (c, a) = Ok (Some x) /\
       edge_weight_unchecked m g (c, a) = Ok x) /\
    (forall c f, In c (geo_nodes G) -> exists g',
       node_weight_mut m g c (option_map f) = Ok (Some g') /\
       node_weight_mut_unchecked m g c (option_map f) = Ok g') /\
    (forall c a f, edge_exists G c a -> exists g',
       edge_weight_mut m g (c, a) (option_map f) = Ok (Some g') /\
       edge_weight_mut_unchecked m g (c, a) (option_map f) = Ok g').
  Proof using STO.
    intros g nf ef HB. refine_store m STO. pose proof (built_rep RF _ _ _ HB) as HR.
    split; [|split; [|split]].
    - intros c Hc. exists (nf c). split; [eapply (rep_node_weight RF) | eapply (rep_node_unchecked RF)]; eauto.
    - intros c a Hc. exists (ef c a).
      split; [eapply (rep_edge_weight RF) | eapply (rep_edge_unchecked RF)]; eauto.
    - intros c f Hc. destruct (rep_node_write RF g nf ef c f HR Hc) as (g' & W1 & W2 & _). eauto.
    - intros c a f Hc. destruct (rep_edge_write RF g nf ef c a f HR Hc) as (g' & W1 & W2 & _). eauto.
  Qed.

  (** ** Size hints *)

  Lemma c39_neighbors : forall (g : graph) nf ef c l it, Built m s G g nf ef ->
    In c (geo_nodes G) -> Consumed (neighbors_next m g c) (neighbors g c) l it ->
    exists rest u, spec_neighbors G c = l ++ rest /\ Drains (neighbors_next m g c) it rest /\
      neighbors_size_hint m g it = Ok (0, Some u) /\ Z.of_nat (length rest) <= u.
  Proof using STO.
    intros g nf ef c l it HB Hc HC. refine_store m STO. pose proof (built_rep RF _ _ _ HB) as [Hs _].
    destruct (IterInv_consumed _ _ _ _ _ _ _ (neighbors_inv RF g c Hs Hc) HC
                (spec_neighbors G c) (nb_pos_start c)) as (rest & H1 & H2).
    exists rest. unfold neighbors_size_hint. rewrite Hs.
    pose proof (nb_pos_len RF _ _ _ H2) as Hlen. destruct H2 as [Hst Hr] eqn:Ed.
    assert (Hu : (ax_UNDIRECTED_COUNT (sh_axis s) <= 8)%nat).
    { destruct STO as [? ? ? ? []| | | | | | | |]; cbn; lia. }
    rewrite usize_sub_ok by (rewrite USIZE_val; lia). cbn [bind].
    eexists. split; auto. split; [eapply IterInv_drains; [apply (neighbors_inv RF); auto|]; exact H2|].
    split; [reflexivity|]. lia.
  Qed.

  (** ** Edge references *)

  Lemma in_spec_edges : forall ef c r, In r (spec_edges (E := E) G ef c) <->
    exists d c' x a, geo_step G c d = Some c' /\ edge_name G c d c' = Some (x, a) /\
      r = mkEdgeRef c c' (ef x a) d.
  Proof using STO.
    intros ef c r. refine_store Debug STO. unfold spec_edges. rewrite in_flat_map. split.
    - intros (d & _ & H). destruct (geo_step G c d) as [c'|] eqn:Es; [|destruct H].
      destruct (edge_name G c d c') as [[x a]|] eqn:En; [|destruct H].
      destruct H as [<-|[]]. exists d, c', x, a. auto.
    - intros (d & c' & x & a & H1 & H2 & ->). exists d.
      split; [apply (all_dirs_in (rf_axis _ _ _ _ RF))|]. rewrite H1, H2. left; auto.
  Qed.

  Lemma c15_drains : forall (g : graph) nf ef, Built m s G g nf ef ->
    Drains (edge_references_next m g) (edge_references g) (spec_edge_references G ef).
  Proof using STO.
    intros g nf ef HB. refine_store m STO. pose proof (built_rep RF _ _ _ HB) as HR.
    eapply IterInv_drains; [eapply (edge_references_inv RF); eauto|].
    apply (ers_pos_start RF).
  Qed.

  Lemma er_id_ok : forall (r : EdgeReference Cell E D) a,
    er_direction r = ag_fwd (geo_ax G) a -> er_id m s r = Ok (er_source r, a).
  Proof using STO.
    intros r a Hr. refine_store m STO. unfold er_id. rewrite Hr.
    destruct (ao_class _ _ _ (rf_axis _ _ _ _ RF) (ag_fwd (geo_ax G) a)) as
      [(a' & Hf & _ & Hfrom & _) | (Hdir & a' & Ho & _)].
    - rewrite Hfrom. cbn [bind]. apply (ao_fwd_inj _ _ _ (rf_axis _ _ _ _ RF)) in Hf. congruence.
    - exfalso. eapply (ao_undirected_opp _ _ _ (rf_axis _ _ _ _ RF)); eauto.
  Qed.

  Lemma er_id_bwd : forall (r : EdgeReference Cell E D) a, ag_directed (geo_ax G) = false ->
    opposite (geo_ax G) (er_direction r) (ag_fwd (geo_ax G) a) ->
    er_id m s r = Ok (er_source r, a).
  Proof using STO.
    intros r a Hdir Hr. refine_store m STO. unfold er_id.
    destruct (ao_class _ _ _ (rf_axis _ _ _ _ RF) (er_direction r)) as
      [(a' & Hf & _) | (_ & a' & Ho & _ & _ & Hfrom & _)].
    - exfalso. rewrite <- Hf in Hr. eapply (ao_undirected_opp _ _ _ (rf_axis _ _ _ _ RF)); eauto.
    - rewrite Hfrom. cbn [bind].
      pose proof (opposite_unique (rf_axis _ _ _ _ RF) _ _ _ Hr Ho) as H.
      apply (ao_fwd_inj _ _ _ (rf_axis _ _ _ _ RF)) in H. congruence.
  Qed.

  (** The ids of [edge_references], in order. *)
  Lemma edge_references_ids : forall ef,
    map (er_id m s) (spec_edge_references (E := E) G ef) = map Ok (spec_edge_names G).
  Proof using STO.
    intros ef. unfold spec_edge_references, spec_edge_names.
    induction (geo_nodes G) as [|c l IH]; cbn [flat_map map]; auto.
    rewrite !map_app, IH. f_equal. clear IH.
    induction (ag_axes (geo_ax G)) as [|a axs IH]; cbn [flat_map map]; auto.
    rewrite !map_app, IH. f_equal.
    destruct (geo_step G c (ag_fwd (geo_ax G) a)); auto.
    cbn [map]. rewrite (er_id_ok (mkEdgeRef c c0 (ef c a) (ag_fwd (geo_ax G) a)) a) by reflexivity.
    reflexivity.
  Qed.

  Lemma in_spec_edge_references : forall ef r, In r (spec_edge_references (E := E) G ef) <->
    exists c a c', In c (geo_nodes G) /\ geo_step G c (ag_fwd (geo_ax G) a) = Some c' /\
      r = mkEdgeRef c c' (ef c a) (ag_fwd (geo_ax G) a).
  Proof using STO.
    intros ef r. refine_store Debug STO. unfold spec_edge_references. rewrite in_flat_map. split.
    - intros (c & Hc & H). rewrite in_flat_map in H. destruct H as (a & _ & H).
      destruct (geo_step G c (ag_fwd (geo_ax G) a)) as [c'|] eqn:Es; [|destruct H].
      destruct H as [<-|[]]. exists c, a, c'. auto.
    - intros (c & a & c' & Hc & Hs & ->). exists c. split; auto. rewrite in_flat_map. exists a.
      split; [apply (all_axes_in (rf_axis _ _ _ _ RF))|]. rewrite Hs. left; auto.
  Qed.

  (** [id] is right for [edge_references], for forward references of [edges], and for
      backward references of [Incoming] on undirected graphs. *)
  Lemma c14_references : forall (g : graph) nf ef r, Built m s G g nf ef ->
    In r (spec_edge_references G ef) ->
    exists id, er_id m s r = Ok id /\ edge_weight m g id = Ok (Some (er_weight r)).
  Proof using STO.
    intros g nf ef r HB Hr. apply in_spec_edge_references in Hr.
    destruct Hr as (c & a & c' & Hc & Hs & ->). exists (c, a).
    split; [apply er_id_ok; reflexivity|]. cbn [er_weight].
    apply (built_weights g nf ef HB). split; auto. congruence.
  Qed.

  Lemma c14_edges : forall (g : graph) nf ef c r a, Built m s G g nf ef -> In c (geo_nodes G) ->
    In r (spec_edges G ef c) -> er_direction r = ag_fwd (geo_ax G) a ->
    exists id, er_id m s r = Ok id /\ edge_weight m g id = Ok (Some (er_weight r)).
  Proof using STO.
    intros g nf ef c r a HB Hc Hr Hd. refine_store m STO. apply in_spec_edges in Hr.
    destruct Hr as (d & c' & x & a' & Hs & Hn & ->). cbn [er_direction] in Hd. subst d.
    exists (c, a). split; [apply er_id_ok; reflexivity|]. cbn [er_weight].
    rewrite (edge_name_fwd RF) in Hn. injection Hn as <- <-.
    apply (built_weights g nf ef HB). split; auto. congruence.
  Qed.

  (** The same for what the iterator of the code yields. *)
  Lemma c14_references_code : forall (g : graph) nf ef l r, Built m s G g nf ef ->
    Drains (edge_references_next m g) (edge_references g) l -> In r l ->
    exists id, er_id m s r = Ok id /\ edge_weight m g id = Ok (Some (er_weight r)).
  Proof using STO.
    intros g nf ef l r HB Hl Hr. rewrite (Drains_det _ _ _ _ Hl (c15_drains _ _ _ HB)) in Hr.
    eapply c14_references; eauto.
  Qed.

  Lemma c15_ids : forall (g : graph) nf ef l, Built m s G g nf ef ->
    Drains (edge_references_next m g) (edge_references g) l ->
    map (er_id m s) l = map Ok (spec_edge_names G).
  Proof using STO.
    intros g nf ef l HB Hl. rewrite (Drains_det _ _ _ _ Hl (c15_drains _ _ _ HB)).
    apply edge_references_ids.
  Qed.
End Stored.

Section Traversable.
  Context {A D N E : Type} {m : mode} {s : Shape Cell A D} {G : Geometry A D}
    (TR : Traversable s G).
  Let STO : Stored s G := traversable_stored _ _ _ _ TR.
  Notation graph := (LatticeGraph Cell A D N E).

  Lemma spec_edges_targets : forall ef c, In c (geo_nodes G) ->
    map er_target (spec_edges (E := E) G ef c) = spec_neighbors G c.
  Proof using TR.
    intros ef c Hc. refine_trav Debug TR. unfold spec_edges, spec_neighbors.
    induction (ag_dirs (geo_ax G)) as [|d l IH]; cbn [flat_map map]; auto.
    rewrite map_app, IH. f_equal. destruct (geo_step G c d) as [c'|] eqn:Es; auto.
    destruct (edge_name_exists RF RD c d c' Hc Es) as (x & a & En & _). rewrite En. reflexivity.
  Qed.

  Lemma c12 : forall (g : graph) nf ef c, Built m s G g nf ef -> In c (geo_nodes G) ->
    exists it, edges m g c = Ok it /\ Drains (edges_next m g) it (spec_edges G ef c).
  Proof using TR.
    intros g nf ef c HB Hc. refine_trav m TR. pose proof (built_rep RF _ _ _ HB) as HR.
    destruct (edges_outgoing_pos RF RD g nf ef c AxisDirMarker HR Hc eq_refl eq_refl)
      as (o & it & H1 & H2 & H3).
    exists it. split; auto. eapply IterInv_drains; eauto.
  Qed.

  Lemma c16 : forall (g : graph) nf ef c, Built m s G g nf ef -> In c (geo_nodes G) ->
    exists it it' l, edges m g c = Ok it /\ edges_directed m g c Outgoing = Ok it' /\
      Drains (edges_next m g) it l /\ Drains (edges_next m g) it' l.
  Proof using TR.
    intros g nf ef c HB Hc. refine_trav m TR. pose proof (built_rep RF _ _ _ HB) as HR.
    destruct (edges_outgoing_pos RF RD g nf ef c AxisDirMarker HR Hc eq_refl eq_refl)
      as (o & it & H1 & H2 & H3).
    destruct (edges_outgoing_pos RF RD g nf ef c (PetMarker Outgoing) HR Hc eq_refl eq_refl)
      as (o' & it' & H1' & H2' & H3').
    exists it, it', (spec_edges G ef c). split; auto. split; auto.
    split; eapply IterInv_drains; [exact H2|exact H3|exact H2'|exact H3'].
  Qed.

  Lemma c17 : forall (g : graph) nf ef c, Built m s G g nf ef -> In c (geo_nodes G) ->
    ag_directed (geo_ax G) = false ->
    exists it it' l, edges m g c = Ok it /\ edges_directed m g c Incoming = Ok it' /\
      Drains (edges_next m g) it l /\
      Drains (edges_next m g) it'
        (map (fun r => mkEdgeRef (er_target r) (er_source r) (er_weight r) (er_direction r)) l) /\
      map (fun r => mkEdgeRef (er_target r) (er_source r) (er_weight r) (er_direction r)) l
        = spec_incoming G ef c.
  Proof using TR.
    intros g nf ef c HB Hc Hdir. refine_trav m TR. pose proof (built_rep RF _ _ _ HB) as HR.
    destruct (edges_incoming_pos RF RD g nf ef c HR Hc Hdir) as (o & it' & H1 & H2 & H3).
    destruct (c12 g nf ef c HB Hc) as (it & E1 & E2).
    exists it, it', (spec_edges G ef c).
    assert (Hm : map (fun r => mkEdgeRef (er_target r) (er_source r) (er_weight r) (er_direction r))
              (spec_edges G ef c) = spec_incoming G ef c).
    { rewrite <- (rev_list RF ef c Hdir). unfold spec_edges.
      induction (ag_dirs (geo_ax G)) as [|d l IH]; cbn [flat_map map]; auto.
      rewrite map_app, IH. f_equal. unfold ref_list, rev_ref.
      destruct (geo_step G c d) as [c'|]; auto.
      destruct (edge_name G c d c') as [[x a]|]; auto. }
    rewrite Hm. repeat split; auto. eapply IterInv_drains; eauto.
  Qed.

  Lemma c12_code : forall (g : graph) nf ef c it l, Built m s G g nf ef -> In c (geo_nodes G) ->
    edges m g c = Ok it -> Drains (edges_next m g) it l -> l = spec_edges G ef c.
  Proof using TR.
    intros g nf ef c it l HB Hc He Hl. destruct (c12 g nf ef c HB Hc) as (it' & E1 & E2).
    rewrite He in E1. injection E1 as <-. exact (Drains_det _ _ _ _ Hl E2).
  Qed.

  Lemma c12_targets : forall (g : graph) nf ef c it l ln, Built m s G g nf ef -> In c (geo_nodes G) ->
    edges m g c = Ok it -> Drains (edges_next m g) it l ->
    Drains (neighbors_next m g c) (neighbors g c) ln ->
    map er_target l = ln /\ Forall (fun r => er_source r = c) l.
  Proof using TR.
    intros g nf ef c it l ln HB Hc He Hl Hn. rewrite (c12_code _ _ _ _ _ _ HB Hc He Hl).
    rewrite (Drains_det _ _ _ _ Hn (proj1 (c09 STO g nf ef c Outgoing HB Hc))).
    split; [apply spec_edges_targets; auto|]. apply Forall_forall. intros r Hr.
    apply (in_spec_edges STO) in Hr. destruct Hr as (d & c' & x & a & _ & _ & ->). reflexivity.
  Qed.

  Lemma c14_edges_code : forall (g : graph) nf ef c it l r a, Built m s G g nf ef ->
    In c (geo_nodes G) -> edges m g c = Ok it -> Drains (edges_next m g) it l -> In r l ->
    er_direction r = ag_fwd (geo_ax G) a ->
    exists id, er_id m s r = Ok id /\ edge_weight m g id = Ok (Some (er_weight r)).
  Proof using TR.
    intros g nf ef c it l r a HB Hc He Hl Hr Hd. rewrite (c12_code _ _ _ _ _ _ HB Hc He Hl) in Hr.
    eapply (c14_edges STO); eauto.
  Qed.

  Lemma c17_code : forall (g : graph) nf ef c it l, Built m s G g nf ef -> In c (geo_nodes G) ->
    ag_directed (geo_ax G) = false ->
    edges_directed m g c Incoming = Ok it -> Drains (edges_next m g) it l ->
    l = spec_incoming G ef c.
  Proof using TR.
    intros g nf ef c it l HB Hc Hdir He Hl.
    destruct (c17 g nf ef c HB Hc Hdir) as (_ & it' & l' & _ & E1 & _ & E2 & E3).
    rewrite He in E1. injection E1 as <-. rewrite E3 in E2. exact (Drains_det _ _ _ _ Hl E2).
  Qed.

  (** On an undirected graph a reference of [edges] in a backward direction has the id of
      the forward edge of the cell itself: a wrong one, unless the cell is its own
      neighbour. *)
  Lemma c14_backward : forall (g : graph) nf ef c it l r a, Built m s G g nf ef ->
    In c (geo_nodes G) -> ag_directed (geo_ax G) = false ->
    edges m g c = Ok it -> Drains (edges_next m g) it l -> In r l ->
    opposite (geo_ax G) (er_direction r) (ag_fwd (geo_ax G) a) ->
    ef (er_target r) a <> ef c a ->
    exists id, er_id m s r = Ok id /\ edge_weight m g id <> Ok (Some (er_weight r)).
  Proof using TR.
    intros g nf ef c it l r a HB Hc Hdir He Hl Hr Ho Hne. refine_trav m TR.
    rewrite (c12_code _ _ _ _ _ _ HB Hc He Hl) in Hr. apply (in_spec_edges STO) in Hr.
    destruct Hr as (d & c' & x & a' & Hs & Hn & ->).
    cbn [er_direction er_target er_weight] in *.
    rewrite (edge_name_bwd RF c d a c' Hdir Ho) in Hn. injection Hn as <- <-.
    exists (c, a). split; [apply (er_id_bwd STO); auto|].
    pose proof (built_weights STO g nf ef HB) as (_ & H1 & _ & H2).
    destruct (geo_step G c (ag_fwd (geo_ax G) a)) as [c2|] eqn:Es.
    - rewrite H1 by (split; [auto|congruence]). intros H. injection H as H. congruence.
    - destruct (rf_coord_ok _ _ _ _ RF c Hc) as [Hlc Hx].
      rewrite H2; [discriminate|split; auto|intros [_ H]; auto].
  Qed.
End Traversable.

Section Supported.
  Context {A D N E : Type} {m : mode} {s : Shape Cell A D} {G : Geometry A D}
    (SUP : Supported s G).
  Let STO : Stored s G := st_supported _ _ _ _ SUP.
  Let TR : Traversable s G := tr_supported _ _ _ _ SUP.
  Notation graph := (LatticeGraph Cell A D N E).

  Lemma step_back : forall a b d, In a (geo_nodes G) -> geo_step G a d = Some b ->
    exists d', opposite (geo_ax G) d d' /\ geo_step G b d' = Some a.
  Proof using SUP.
    intros a b d Ha H. refine_shape Debug SUP.
    destruct (ao_opp _ _ _ (rf_axis _ _ _ _ RF) d) as (d' & Ho). exists d'. split; auto.
    eapply (rg_sym RG); eauto.
  Qed.

  Lemma c10 : forall (g : graph) nf ef a b la lb, Built m s G g nf ef ->
    In a (geo_nodes G) -> In b (geo_nodes G) ->
    Drains (neighbors_next m g a) (neighbors g a) la ->
    Drains (neighbors_next m g b) (neighbors g b) lb ->
    (In b la <-> In a lb).
  Proof using SUP.
    intros g nf ef a b la lb HB Ha Hb Da Db.
    rewrite (Drains_det _ _ _ _ Da (proj1 (c09 STO g nf ef a Outgoing HB Ha))).
    rewrite (Drains_det _ _ _ _ Db (proj1 (c09 STO g nf ef b Outgoing HB Hb))).
    rewrite !(in_spec_neighbors STO). split; intros (d & Hd).
    - destruct (step_back a b d Ha Hd) as (d' & _ & H). eauto.
    - destruct (step_back b a d Hb Hd) as (d' & _ & H). eauto.
  Qed.

  Lemma c11 : forall (g : graph) nf ef a b, Built m s G g nf ef -> In a (geo_nodes G) ->
    exists l r o, Drains (neighbors_next m g a) (neighbors g a) l /\
      is_adjacent m g a b = Ok r /\ sh_is_neighbor s m a b = Ok r /\
      (r = true <-> In b l) /\
      sh_get_direction s m a b = Ok o /\
      match o with
      | Some d => sh_move_coord s m a d = Ok (Some b)
      | None => ~ In b l
      end.
  Proof using SUP.
    intros g nf ef a b HB Ha. refine_shape m SUP. pose proof (built_rep RF _ _ _ HB) as [Hs _].
    destruct (is_adjacent_ok RF RG g a b Hs Ha) as (r & R1 & R2).
    exists (spec_neighbors G a), r. eexists. split; [apply (c09 STO g nf ef a Outgoing); auto|].
    split; auto. split; [unfold is_adjacent in R1; rewrite Hs in R1; auto|].
    split; [rewrite (in_spec_neighbors STO); auto|].
    split; [apply (get_direction_ok RF); intros; apply (rf_move _ _ _ _ RF); auto|].
    destruct (find _ (ag_dirs (geo_ax G))) as [d|] eqn:Ef.
    - apply find_some in Ef. destruct Ef as [_ Ef]. rewrite (rf_move _ _ _ _ RF) by auto.
      destruct (geo_step G a d); [|discriminate]. apply pair_eqb_eq in Ef. congruence.
    - rewrite (in_spec_neighbors STO). intros (d & Hd).
      eapply find_none in Ef; [|apply (all_dirs_in (rf_axis _ _ _ _ RF))]. cbv beta in Ef.
      rewrite Hd, (proj2 (pair_eqb_eq b b) eq_refl) in Ef. discriminate.
  Qed.

  Lemma c13 : forall (g : graph) nf ef a r it l, Built m s G g nf ef ->
    In a (geo_nodes G) -> ag_directed (geo_ax G) = false ->
    edges m g a = Ok it -> Drains (edges_next m g) it l -> In r l ->
    exists it' l' r', edges m g (er_target r) = Ok it' /\ Drains (edges_next m g) it' l' /\
      In r' l' /\ er_source r' = er_target r /\ er_target r' = er_source r /\
      er_weight r' = er_weight r /\
      opposite (geo_ax G) (er_direction r) (er_direction r').
  Proof using SUP.
    intros g nf ef a r it l HB Ha Hdir He Hl Hin. refine_shape m SUP.
    destruct (c12 TR g nf ef a HB Ha) as (it0 & E1 & E2). rewrite He in E1. injection E1 as <-.
    rewrite (Drains_det _ _ _ _ Hl E2) in Hin. apply (in_spec_edges STO) in Hin.
    destruct Hin as (d & b & x & ax & Hs & Hn & ->). cbn [er_target er_source er_weight er_direction].
    pose proof (rg_in RG _ _ _ Hs) as Hb.
    destruct (c12 TR g nf ef b HB Hb) as (it1 & F1 & F2).
    destruct (step_back a b d Ha Hs) as (d' & Ho & Hs').
    exists it1, (spec_edges G ef b), (mkEdgeRef b a (ef x ax) d').
    cbn [er_target er_source er_weight er_direction]. repeat split; auto.
    apply (in_spec_edges STO). exists d', a, x, ax. repeat split; auto.
    rewrite <- Hn. symmetry. apply (edge_name_shared RF); auto.
  Qed.

  Lemma c18_release : forall (g : graph) nf ef c, Built m s G g nf ef -> In c (geo_nodes G) ->
    ag_directed (geo_ax G) = true -> m = Release ->
    exists it, edges_directed m g c Incoming = Ok it /\
      Drains (edges_next m g) it (spec_incoming G ef c).
  Proof using SUP.
    intros g nf ef c HB Hc Hdir Hm. refine_shape m SUP. pose proof (built_rep RF _ _ _ HB) as HR.
    destruct (edges_incoming_directed_pos RF RG g nf ef c HR Hc Hdir Hm) as (o & it' & H1 & H2 & H3).
    exists it'. split; auto. eapply IterInv_drains; eauto.
  Qed.

  Lemma c18_debug : forall (g : graph) nf ef c, Built m s G g nf ef -> In c (geo_nodes G) ->
    ag_directed (geo_ax G) = true -> m = Debug -> spec_neighbors G c <> [] ->
    exists it, edges_directed m g c Incoming = Ok it /\ edges_next m g it = Fail FPanic.
  Proof using SUP.
    intros g nf ef c HB Hc Hdir Hm Hne. refine_shape m SUP. pose proof (built_rep RF _ _ _ HB) as HR.
    destruct (spec_neighbors G c) as [|b l] eqn:En; [congruence|].
    assert (Hb : In b (spec_neighbors G c)) by (rewrite En; left; auto).
    apply (in_spec_neighbors STO) in Hb. destruct Hb as (d & Hd).
    eapply (edges_incoming_directed_debug RF RG); eauto.
  Qed.

  (** Each neighbour [b] of [c] has exactly one incoming reference per direction. *)
  Lemma incoming_sources : forall ef c, In c (geo_nodes G) ->
    map er_source (spec_incoming (E := E) G ef c) = spec_neighbors G c.
  Proof using SUP.
    intros ef c Hc. refine_shape Debug SUP. unfold spec_incoming, spec_neighbors.
    rewrite map_flat_map. apply flat_map_ext. intros d. destruct (geo_step G c d) as [c'|] eqn:Es; auto.
    destruct (step_back c c' d Hc Es) as (d' & Ho & Hs').
    rewrite (find_opposite RF d d' Ho). pose proof (rg_in RG _ _ _ Es) as Hc'.
    destruct (edge_name_exists RF (regular_readable _ _ _ _ RG) c' d' c Hc' Hs') as (x & a & En & _). rewrite En. reflexivity.
  Qed.

  Lemma c14_incoming : forall (g : graph) nf ef c r a, Built m s G g nf ef -> In c (geo_nodes G) ->
    ag_directed (geo_ax G) = false ->
    In r (spec_incoming G ef c) -> opposite (geo_ax G) (er_direction r) (ag_fwd (geo_ax G) a) ->
    exists id, er_id m s r = Ok id /\ edge_weight m g id = Ok (Some (er_weight r)).
  Proof using SUP.
    intros g nf ef c r a HB Hc Hdir Hr Ho. refine_shape m SUP.
    rewrite <- (rev_list RF ef c Hdir) in Hr. rewrite in_flat_map in Hr.
    destruct Hr as (d & _ & Hr). unfold ref_list, rev_ref in Hr.
    destruct (geo_step G c d) as [c'|] eqn:Es; [|destruct Hr].
    destruct (edge_name G c d c') as [[x a']|] eqn:En; [|destruct Hr].
    destruct Hr as [<-|[]]. cbn [er_direction] in Ho. cbn [er_weight].
    exists (c', a). split; [apply (er_id_bwd STO); auto|].
    rewrite (edge_name_bwd RF c d a c' Hdir Ho) in En. injection En as <- <-.
    destruct (edge_name_exists RF (regular_readable _ _ _ _ RG) c d c' Hc Es) as (x & a' & En & He).
    rewrite (edge_name_bwd RF c d a c' Hdir Ho) in En. injection En as <- <-.
    apply (built_weights STO g nf ef HB). auto.
  Qed.

  Lemma c14_incoming_code : forall (g : graph) nf ef c it l r a, Built m s G g nf ef ->
    In c (geo_nodes G) -> ag_directed (geo_ax G) = false ->
    edges_directed m g c Incoming = Ok it -> Drains (edges_next m g) it l -> In r l ->
    opposite (geo_ax G) (er_direction r) (ag_fwd (geo_ax G) a) ->
    exists id, er_id m s r = Ok id /\ edge_weight m g id = Ok (Some (er_weight r)).
  Proof using SUP.
    intros g nf ef c it l r a HB Hc Hdir He Hl Hr Ho.
    rewrite (c17_code TR _ _ _ _ _ _ HB Hc Hdir He Hl) in Hr. eapply c14_incoming; eauto.
  Qed.

  (** A forward reference of [Incoming] on an undirected graph. *)
  Lemma c14_incoming_forward : forall (g : graph) nf ef c it l r a, Built m s G g nf ef ->
    In c (geo_nodes G) -> ag_directed (geo_ax G) = false ->
    edges_directed m g c Incoming = Ok it -> Drains (edges_next m g) it l -> In r l ->
    er_direction r = ag_fwd (geo_ax G) a ->
    ef (er_source r) a <> ef c a ->
    exists id, er_id m s r = Ok id /\ edge_weight m g id <> Ok (Some (er_weight r)).
  Proof using SUP.
    intros g nf ef c it l r a HB Hc Hdir He Hl Hr Hd Hne. refine_shape m SUP.
    rewrite (c17_code TR _ _ _ _ _ _ HB Hc Hdir He Hl) in Hr.
    rewrite <- (rev_list RF ef c Hdir) in Hr. rewrite in_flat_map in Hr.
    destruct Hr as (d & _ & Hr). unfold ref_list, rev_ref in Hr.
    destruct (geo_step G c d) as [c'|] eqn:Es; [|destruct Hr].
    destruct (edge_name G c d c') as [[x a']|] eqn:En; [|destruct Hr].
    destruct Hr as [<-|[]]. cbn [er_direction er_source er_weight] in *. subst d.
    rewrite (edge_name_fwd RF) in En. injection En as <- <-.
    exists (c', a). split; [apply (er_id_ok STO); reflexivity|].
    pose proof (built_weights STO g nf ef HB) as (_ & H1 & _ & H2).
    pose proof (rg_in RG _ _ _ Es) as Hc'.
    destruct (geo_step G c' (ag_fwd (geo_ax G) a)) as [c2|] eqn:Es2.
    - rewrite H1 by (split; [auto|congruence]). intros H. injection H as H. congruence.
    - destruct (rf_coord_ok _ _ _ _ RF c' Hc') as [Hl' Hx].
      rewrite H2; [discriminate|split; auto|intros [_ H]; auto].
  Qed.

  Lemma c18_sources : forall (g : graph) nf ef c it l ln, Built m s G g nf ef ->
    In c (geo_nodes G) -> ag_directed (geo_ax G) = true -> m = Release ->
    edges_directed m g c Incoming = Ok it -> Drains (edges_next m g) it l ->
    Drains (neighbors_next m g c) (neighbors g c) ln ->
    map er_source l = ln /\ Forall (fun r => er_target r = c) l.
  Proof using SUP.
    intros g nf ef c it l ln HB Hc Hdir Hm He Hl Hn.
    destruct (c18_release g nf ef c HB Hc Hdir Hm) as (it' & E1 & E2).
    rewrite He in E1. injection E1 as <-. rewrite (Drains_det _ _ _ _ Hl E2).
    rewrite (Drains_det _ _ _ _ Hn (proj1 (c09 STO g nf ef c Outgoing HB Hc))).
    split; [apply incoming_sources; auto|]. apply Forall_forall. intros r Hr.
    unfold spec_incoming in Hr. rewrite in_flat_map in Hr. destruct Hr as (d & _ & Hr).
    destruct (geo_step G c d); [|destruct Hr]. destruct (find _ _); [|destruct Hr].
    destruct (edge_name _ _ _ _) as [[? ?]|]; [|destruct Hr]. destruct Hr as [<-|[]]. reflexivity.
  Qed.

  (** On a directed graph the references of [Incoming] carry the direction seen from the
      target, so their ids name the edge leading on from the source. *)
  Lemma c14_incoming_directed : forall (g : graph) nf ef c it l r a, Built m s G g nf ef ->
    In c (geo_nodes G) -> ag_directed (geo_ax G) = true -> m = Release ->
    edges_directed m g c Incoming = Ok it -> Drains (edges_next m g) it l -> In r l ->
    er_direction r = ag_fwd (geo_ax G) a ->
    (forall b, opposite (geo_ax G) (ag_fwd (geo_ax G) a) (ag_fwd (geo_ax G) b) ->
      ef (er_source r) b <> ef (er_source r) a) ->
    exists id, er_id m s r = Ok id /\ edge_weight m g id <> Ok (Some (er_weight r)).
  Proof using SUP.
    intros g nf ef c it l r a HB Hc Hdir Hm He Hl Hr Hd Hinj. refine_shape m SUP.
    destruct (c18_release g nf ef c HB Hc Hdir Hm) as (it' & E1 & E2).
    rewrite He in E1. injection E1 as <-. rewrite (Drains_det _ _ _ _ Hl E2) in Hr.
    exists (er_source r, a). split; [apply (er_id_ok STO); auto|].
    unfold spec_incoming in Hr. rewrite in_flat_map in Hr. destruct Hr as (d & _ & Hr).
    destruct (geo_step G c d) as [c'|] eqn:Es; [|destruct Hr].
    destruct (step_back c c' d Hc Es) as (d' & Ho & Hs').
    rewrite (find_opposite RF d d' Ho) in Hr.
    destruct (edge_name G c' d' c) as [[x a']|] eqn:En; [|destruct Hr]. destruct Hr as [<-|[]].
    cbn [er_direction er_source er_weight] in *. subst d.
    pose proof (rg_in RG _ _ _ Es) as Hc'.
    destruct (ao_class _ _ _ (rf_axis _ _ _ _ RF) d') as [(b & Hf & _) | (Hu & _)]; [|congruence].
    subst d'. rewrite (edge_name_fwd RF) in En. injection En as <- <-.
    pose proof (built_weights STO g nf ef HB) as (_ & H1 & _ & H2).
    destruct (geo_step G c' (ag_fwd (geo_ax G) a)) as [c2|] eqn:Es2.
    - rewrite H1 by (split; [auto|congruence]). intros H. injection H as H.
      symmetry in H. revert H. apply Hinj; auto.
    - destruct (rf_coord_ok _ _ _ _ RF c' Hc') as [Hl' Hx].
      rewrite H2; [discriminate|split; auto|intros [_ H]; auto].
  Qed.

  (** ** Writes *)

  Lemma c20 : forall (g : graph) nf ef a b x y f, Built m s G g nf ef ->
    ag_directed (geo_ax G) = true -> In a (geo_nodes G) ->
    geo_step G a (ag_fwd (geo_ax G) x) = Some b ->
    opposite (geo_ax G) (ag_fwd (geo_ax G) x) (ag_fwd (geo_ax G) y) ->
    exists g', edge_weight_mut m g (a, x) (option_map f) = Ok (Some g') /\
      edge_weight m g' (a, x) = Ok (Some (f (ef a x))) /\
      edge_weight m g' (b, y) = Ok (Some (ef b y)) /\
      edge_weight m g (b, y) = Ok (Some (ef b y)).
  Proof using SUP.
    intros g nf ef a b x y f HB Hdir Ha Hs Ho. refine_shape m SUP.
    pose proof (rf_axis _ _ _ _ RF) as AX. pose proof (rg_in RG _ _ _ Hs) as Hb.
    assert (He : edge_exists G a x) by (split; [auto|congruence]).
    assert (He' : edge_exists G b y).
    { split; auto. rewrite (rg_sym RG a _ b _ Ha Hs Ho). discriminate. }
    assert (Hxy : x <> y).
    { intros <-. pose proof (ao_vec_nonzero _ _ _ AX (ag_fwd (geo_ax G) x)) as Hnz.
      unfold opposite, vneg in Ho. apply Hnz. destruct (ag_vec _ _) as [vx vy].
      cbn [fst snd] in Ho. injection Ho as H1 H2. f_equal; lia. }
    set (ef' := fun c' a' => if pair_eqb c' a && axis_eqb (s := s) a' x then f (ef c' a') else ef c' a').
    destruct (built_edge_write RF g nf ef a x (option_map f) (f (ef a x)) ef' HB He eq_refl)
      as (g' & W1 & _ & W3).
    - unfold ef'. rewrite (proj2 (pair_eqb_eq a a) eq_refl), (proj2 (axis_eqb_eq RF x x) eq_refl).
      reflexivity.
    - intros c' a' Hne. unfold ef'. destruct (pair_eqb c' a) eqn:E1; auto.
      destruct (axis_eqb (s := s) a' x) eqn:E2; auto. apply pair_eqb_eq in E1.
      apply (axis_eqb_eq RF) in E2. congruence.
    - exists g'. split; auto. pose proof (built_weights STO _ _ _ W3) as (_ & HW & _).
      pose proof (built_weights STO _ _ _ HB) as (_ & HW0 & _).
      split; [|split].
      + rewrite (HW a x He). unfold ef'.
        rewrite (proj2 (pair_eqb_eq a a) eq_refl), (proj2 (axis_eqb_eq RF x x) eq_refl). reflexivity.
      + rewrite (HW b y He'). unfold ef'.
        replace (axis_eqb (s := s) y x) with false.
        * rewrite andb_false_r. reflexivity.
        * symmetry. apply not_true_iff_false. rewrite (axis_eqb_eq RF). congruence.
      + auto.
  Qed.

  (** ** Coordinates outside of the board *)

  Lemma c26 : forall c d d' c', In c (geo_nodes G) -> sh_move_coord s m c d = Ok (Some c') ->
    opposite (geo_ax G) d d' ->
    In c' (geo_nodes G) /\ sh_move_coord s m c' d' = Ok (Some c).
  Proof using SUP.
    intros c d d' c' Hc Hm Ho. refine_shape m SUP.
    rewrite (rf_move _ _ _ _ RF) in Hm by auto. injection Hm as Hm.
    pose proof (rg_in RG _ _ _ Hm) as Hc'. split; auto.
    rewrite (rf_move _ _ _ _ RF) by auto.
    rewrite (rg_sym RG c d c' d' Hc Hm Ho). reflexivity.
  Qed.
End Supported.

Lemma rect_locatable : forall (A D : Type) (m : mode) (ax : AxisGeo A D) w h pos period c,
  let G := rect_geometry ax w h pos period in
  0 <= fst c < 2 ^ 64 -> 0 <= snd c < 2 ^ 64 -> locatable m G c.
Proof. intros A D m ax w h pos period c G H1 H2. split; [split; auto|]. intros _ []. Qed.
