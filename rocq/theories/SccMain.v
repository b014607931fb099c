(** * SccMain: post-orders on every shape, and [kosaraju_scc] on both graph types. *)

From Verif Require Import Machine Store Axes Shapes Lattice SquareGraph Traverse Clients Scc Spec
  SpecSquare Spec2 Spec4 Spec10 Spec11 Basics AxisProofs GeoProofs ShapeProofs StoreProofs LoopProofs
  OffboardProofs OffboardMore GraphProofs RepProofs VisitProofs Main1 Main2 TraverseProofs AnySearch
  SearchProofs SquareProofs SquareIter SquareMain SquareSearch ClientsProofs ClientsMain
  AnySearchMain PostAny SccProofs.
From Coq Require Import ZifyBool ZifyNat Permutation.
Ltac Zify.zify_post_hook ::= Z.div_mod_to_equations.

Section Lat.
  Context {A D N E : Type} {m : mode} {s : Shape Cell A D} {G : Geometry A D}
    (STO : Stored s G) (g : LatticeGraph Cell A D N E) (nf : Cell -> N) (ef : Cell -> A -> E)
    (HB : Built m s G g nf ef).
  Let SMALL : Z.of_nat (length (geo_nodes G)) <= 2 ^ 63 := stored_few STO.
  Notation reached := (Reached (neighbors g) (neighbors_next m g) (geo_nodes G)).

  Lemma degree_few : forall c, In c (geo_nodes G) -> (length (spec_neighbors G c) <= 8)%nat.
  Proof using STO.
    clear - STO. intros c _. assert (H : (length (ag_dirs (geo_ax G)) <= 8)%nat).
    { destruct STO as [A D s G SUP|b w h F|b w h F|b w h F|k b w h F Hf|k b w h F Hf|k b w h F Hf
        |k b w h F Hf|w h F]; try (cbn; lia). eapply dirs_few; eauto. }
    etransitivity; [|exact H]. unfold spec_neighbors. clear.
    induction (ag_dirs (geo_ax G)) as [|d l IH]; cbn [flat_map length]; [lia|].
    rewrite app_length. destruct (geo_step G c d); cbn [length]; lia.
  Qed.

  Lemma c98_post : forall start, In start (geo_nodes G) ->
    exists l, Drains (dpo_next (neighbors g) (neighbors_next m g) (vm_visit m (g_s g))
        (vm_is_visited m (g_s g))) (dpo_new (visit_map g) start) (l ++ [start]) /\
      NoDup (l ++ [start]) /\
      (forall c, In c (l ++ [start]) <-> exists n, reached start n c) /\
      (forall l1 c l2, l = l1 ++ c :: l2 ->
        exists p ln, In p (l2 ++ [start]) /\
          Drains (neighbors_next m g p) (neighbors g p) ln /\ In c ln) /\
      forall l1 c l2 ln x, l = l1 ++ c :: l2 -> Drains (neighbors_next m g c) (neighbors g c) ln ->
        In x ln -> In x (l2 ++ [start]) -> exists n, reached x n c.
  Proof using STO HB SMALL.
    intros start Hs. refine_store m STO. pose proof (RepProofs.built_rep RF _ _ _ HB) as [Hgs _].
    pose proof (visit_map_rep RF g Hgs) as HV.
    destruct (post_from (neighbors g) (neighbors_next m g) (vm_visit m (g_s g))
      (vm_is_visited m (g_s g)) cell_dec (geo_nodes G) (spec_neighbors G)
      (VMrep (s := s) (G := G) (cell := cell)) (any_nb STO g nf ef HB) degree_few
      (any_off STO g nf ef HB)
      (vr_visit g nf ef HB cell RF) (vr_visited g nf ef HB cell RF) (vr_ext cell) start Hs []
      ltac:(lia) (NoDup_nil _) ltac:(intros x []) ltac:(intros c x []) ltac:(intros [])
      (visit_map g) (visit_map g) HV HV)
      as (l0 & dm & fm & E1 & _ & _ & E2 & E3 & E4 & E5 & (l & El)). subst l0. cbn [app] in *.
    assert (HI : forall c, In c (l ++ [start]) -> In c (geo_nodes G)).
    { intros c Hc. apply E3 in Hc. destruct Hc as [[]|(n & Hc)]. inversion Hc; subst; auto. }
    exists l. split; [|split; [auto|split; [|split]]].
    - exists ([], (dm, fm)), ([], (dm, fm)). split; [exact E1|].
      split; apply dpo_done.
    - intros c. rewrite E3. cbn [In]. tauto.
    - intros l1 c l2 Eq. destruct (E4 l1 c (l2 ++ [start])) as [[_ X]|(p & P1 & P2 & P3)].
      + rewrite Eq, <- app_assoc. reflexivity.
      + destruct l2; discriminate.
      + exists p, (spec_neighbors G p). split; auto. split; auto. apply (any_nb STO g nf ef HB); auto.
    - intros l1 c l2 ln x Eq HD Hx Hl.
      assert (Eq' : l ++ [start] = l1 ++ c :: (l2 ++ [start])).
      { rewrite Eq, <- app_assoc. reflexivity. }
      assert (Hc : In c (geo_nodes G)).
      { apply HI. rewrite Eq'. apply in_or_app. right. left. auto. }
      apply (E5 l1 c (l2 ++ [start]) c x Eq'); auto.
      + apply in_or_app. right. left. auto.
      + rewrite (Drains_det _ _ _ _ (any_nb STO g nf ef HB c Hc) HD). auto.
      + apply HI. rewrite Eq'. apply in_or_app. right. right. auto.
  Qed.

  Notation leads a b := (exists n, reached a n b).

  Lemma lat_reset : forall (cell : Z -> Z -> Cell) (RF : Refines m s G cell) vm M,
    VMrep (s := s) (G := G) (cell := cell) vm M ->
    VMrep (s := s) (G := G) (cell := cell) (reset_map g vm) [].
  Proof using HB.
    intros cell RF vm M HV. pose proof (RepProofs.built_rep RF _ _ _ HB) as [Hgs _].
    destruct (visit_op_ok RF g vm M ResetMap Hgs HV I) as (vm' & H1 & H2).
    cbn [visit_op] in H1. injection H1 as <-. exact H2.
  Qed.

  Lemma c100 : exists ls, lattice_scc m g = Ok ls /\
    Permutation (concat ls) (geo_nodes G) /\
    (forall l1 l l2, ls = l1 ++ l :: l2 -> exists r l', l = r :: l' /\
       forall c, In c l <-> leads r c /\ ~ In c (concat l1)) /\
    (forall a b, In a (geo_nodes G) -> leads a b -> leads b a ->
       exists l, In l ls /\ In a l /\ In b l) /\
    ((forall l a b, In l ls -> In a l -> In b l -> leads a b) <->
     (forall a b, In a (geo_nodes G) -> leads a b -> leads b a)).
  Proof using STO HB SMALL.
    pose proof (c06 STO g nf ef HB) as HID. pose proof (any_nb STO g nf ef HB) as HNB.
    pose proof (any_off STO g nf ef HB) as HOF. pose proof degree_few as HDF.
    refine_store m STO. pose proof (RepProofs.built_rep RF _ _ _ HB) as [Hgs _].
    exact (kosaraju_any (node_identifiers g) (node_indices_next m (g_s g)) (neighbors g)
      (neighbors_next m g) (vm_visit m (g_s g))
      (vm_is_visited m (g_s g)) (visit_map g) (reset_map g) cell_dec (geo_nodes G) (spec_neighbors G)
      (VMrep (s := s) (G := G) (cell := cell)) HID (nodes_nodup RF) HNB HDF HOF
      (vr_visit g nf ef HB cell RF) (vr_visited g nf ef HB cell RF) (vr_ext cell)
      (visit_map_rep RF g Hgs) (lat_reset cell RF) SMALL).
  Qed.
End Lat.

(** ** Boards of doubled coordinates: to the right no step leads past column [w]. *)

Lemma double_left : forall w h c t, fits w h -> In c (board w h double_cell) -> fst c < w ->
  In t (spec_neighbors (double_code_geometry w h) c) -> fst t < w.
Proof.
  intros w h [x y] t F Hc Hw Ht.
  apply (in_spec_neighbors (st_double w h F)) in Ht. destruct Ht as (d & Hd).
  apply in_double in Hc. pose proof (fits_bounds _ _ F) as B. rewrite IMAX1_val in B.
  change (geo_step (double_code_geometry w h) (x, y) d)
    with (match double_move_r w h Release (x, y) d with Ok t => t | Fail _ => None end) in Hd.
  rewrite double_off in Hd; auto; cbn [fst snd] in *; try lia.
  unfold one_sided_step in Hd.
  destruct d; cbn [hexr_vec vadd fst snd] in Hd;
  repeat match goal with H : context [if ?x then _ else _] |- _ => destruct x eqn:? end;
    cbn [hd_opt] in Hd; try discriminate; injection Hd as <-; unfold vadd; cbn [fst snd]; lia.
Qed.

Lemma c100_double : forall N E m w h, fits w h -> 2 <= w -> 1 <= h ->
  forall (g : LatticeGraph Cell AxisR AxisDR N E) nf ef,
  Built m (double_shape w h) (double_code_geometry w h) g nf ef ->
  exists ls, lattice_scc m g = Ok ls /\
    ~ (forall l a b, In l ls -> In a l -> In b l -> exists n,
         Reached (neighbors g) (neighbors_next m g) (geo_nodes (double_code_geometry w h)) a n b).
Proof.
  intros N E m w h F Hw Hh g nf ef HB. pose proof (st_double w h F) as STO.
  destruct (c100 STO g nf ef HB) as (ls & E1 & _ & _ & _ & E2).
  exists ls. split; auto. intros HS. pose proof (proj1 E2 HS) as SYM. clear E2 HS.
  pose proof (fits_bounds _ _ F) as B. rewrite IMAX1_val in B.
  set (x := 2 * ((w + 1) / 2)).
  assert (Ha : In (x, 0) (board w h double_cell)) by (apply in_double; unfold x; lia).
  assert (Hb : In (x - 2, 0) (board w h double_cell)) by (apply in_double; unfold x; lia).
  assert (LE : forall n c, Reached (neighbors g) (neighbors_next m g)
    (geo_nodes (double_code_geometry w h)) (x - 2, 0) n c -> fst c < w).
  { intros n c. induction 1 as [|n b c l H IH HD Hc Hcb]; [cbn [fst]; unfold x; lia|].
    assert (Hbb : In b (board w h double_cell)) by (inversion H; subst; auto).
    apply (double_left w h b c F Hbb IH).
    rewrite (Drains_det _ _ _ _ (any_nb STO g nf ef HB b Hbb) HD). auto. }
  destruct (SYM (x, 0) (x - 2, 0) Ha) as (n & Hn).
  - exists 1%nat. eapply reached_step; [constructor|apply (any_nb STO g nf ef HB); exact Ha| |exact Hb].
    apply (in_spec_neighbors STO). exists RW.
    change (geo_step (double_code_geometry w h) (x, 0) RW)
      with (match double_move_r w h Release (x, 0) RW with Ok t => t | Fail _ => None end).
    rewrite double_off; auto; cbn [fst snd]; try (unfold x; lia).
    unfold one_sided_step. cbn [hexr_vec vadd fst snd].
    destruct (_ && _)%bool eqn:Eb; [cbn [hd_opt]; f_equal; apply pair_eq; lia|exfalso].
    unfold x in Eb. lia.
  - apply LE in Hn. cbn [fst] in Hn. unfold x in Hn. lia.
Qed.

Section One.
  Context {A D N E : Type} {m : mode} {s : Shape Cell A D} {G : Geometry A D}
    (SUP : Supported s G) (g : LatticeGraph Cell A D N E) (nf : Cell -> N) (ef : Cell -> A -> E)
    (HB : Built m s G g nf ef).
  Let STO := st_supported _ _ _ _ SUP.
  Let SMALL : Z.of_nat (length (geo_nodes G)) <= 2 ^ 63 := stored_few STO.

  Lemma c100_one : exists l,
    lattice_scc m g = Ok (match geo_nodes G with [] => [] | _ => [l] end) /\
    Permutation l (geo_nodes G).
  Proof using SUP HB SMALL.
    pose proof (c06 STO g nf ef HB) as HID. pose proof (any_nb STO g nf ef HB) as HNB.
    pose proof (any_off STO g nf ef HB) as HOF. pose proof (degree_few STO) as HDF.
    assert (HA : forall a b, In a (geo_nodes G) -> In b (geo_nodes G) ->
      exists n, Reached (neighbors g) (neighbors_next m g) (geo_nodes G) a n b).
    { intros a b Ha Hb. destruct (c98_dfs STO g nf ef HB a Ha) as (l & L1 & L2 & L3 & L4 & _).
      apply L4. apply (lat_reach SUP a Ha l); auto.
      - apply L4. exists 0%nat. constructor.
      - intros c Hc. apply L4 in Hc. destruct Hc as (n & Hc). inversion Hc; subst; auto.
      - intros c c' Hc Hi. apply L4 in Hc. apply L4. destruct Hc as (n & Hc). exists (S n).
        assert (Hcn : In c (geo_nodes G)) by (inversion Hc; subst; auto).
        eapply reached_step; [exact Hc|apply HNB; auto|auto|].
        apply (in_spec_neighbors STO) in Hi. destruct Hi as (d & Hd).
        eapply (rg_in (supported_regular _ _ _ _ SUP)); eauto. }
    refine_store m STO. pose proof (RepProofs.built_rep RF _ _ _ HB) as [Hgs _].
    exact (kosaraju_one (node_identifiers g) (node_indices_next m (g_s g)) (neighbors g)
      (neighbors_next m g) (vm_visit m (g_s g))
      (vm_is_visited m (g_s g)) (visit_map g) (reset_map g) cell_dec (geo_nodes G) (spec_neighbors G)
      (VMrep (s := s) (G := G) (cell := cell)) HID (nodes_nodup RF) HNB HDF HOF
      (vr_visit g nf ef HB cell RF) (vr_visited g nf ef HB cell RF) (vr_ext cell)
      (visit_map_rep RF g Hgs) (lat_reset g nf ef HB cell RF) SMALL HA).
  Qed.
End One.

Section Sq.
  Context {N E : Type} {ix : IxType} {S : LoopShape} {m : mode} {h v : Z}
    (SZ : sq_size S h v) (FX : sq_index_fits ix h v).
  Context (g : SquareGraph N E ix S) (nf : NodeIndex -> N) (ef : EdgeIndex -> E)
    (B : SqBuilt m h v g nf ef).
  Notation next := (fun _ : NodeIndex => sg_neighbors_next (ix := ix) (S := S) m).
  Notation nodes := (sq_nodes h v).

  Lemma sq_leads : forall a b, In a nodes -> In b nodes ->
    exists n, Reached (sg_neighbors g) next nodes a n b.
  Proof using SZ FX B.
    intros a b Ha Hb.
    pose proof (bfs_any (sg_neighbors g) next svm_visit svm_is_visited cell_dec nodes
      (sq_neighbours S h v) (SVM (h := h) (v := v)) (sqc_nb SZ FX g nf ef B)
      ltac:(intros c Hc; pose proof (sqc_deg (S := S) (h := h) (v := v) c Hc); lia)
      ltac:(intros c x Hc Hx Hn; exfalso; apply Hn; eapply sqc_in; eauto)
      (svr_visit (g := g)) (svr_visited (g := g)) svr_ext a Ha (sg_visit_map g) (svm_fresh SZ B))
      as (it & l & _ & _ & _ & _ & L4 & _).
    apply L4. apply (sqc_reach (S := S) a Ha l); auto.
    - apply L4. exists 0%nat. constructor.
    - intros c Hc. apply L4 in Hc. destruct Hc as (n & Hc). inversion Hc; subst; auto.
    - intros c c' Hc Hi. apply L4 in Hc. apply L4. destruct Hc as (n & Hc). exists (Datatypes.S n).
      assert (Hcn : In c nodes) by (inversion Hc; subst; auto).
      eapply reached_step; [exact Hc|apply (sqc_nb SZ FX g nf ef B); auto|auto|].
      eapply sqc_in; eauto.
  Qed.

  Lemma c100_square : 1 <= v -> exists l,
    square_scc m g = Ok (match nodes with [] => [] | _ => [l] end) /\ Permutation l nodes.
  Proof using SZ FX B.
    intros Hv. destruct (c43_identifiers SZ FX B Hv) as [HID _].
    exact (kosaraju_one (sg_node_identifiers g) (sg_node_indices_next (ix := ix) m)
      (sg_neighbors g) next svm_visit svm_is_visited (sg_visit_map g) (sg_reset_map g)
      cell_dec nodes (sq_neighbours S h v) (SVM (h := h) (v := v)) HID (sq_nodes_nodup h v)
      (sqc_nb SZ FX g nf ef B) (sqc_deg (S := S) (h := h) (v := v))
      ltac:(intros c x Hc Hx Hn; exfalso; apply Hn; eapply sqc_in; eauto)
      (svr_visit (g := g)) (svr_visited (g := g)) svr_ext (svm_fresh SZ B)
      ltac:(intros vm M HV; destruct (svm_op (g := g) vm M ResetMap HV I) as (vm' & H1 & H2);
            cbn [sq_visit_op] in H1; injection H1 as <-; exact H2)
      (sq_nodes_few SZ) sq_leads).
  Qed.

  (** Without rows there are no nodes, but [node_identifiers] yields some (C43). *)
  Lemma c100_no_rows : v = 0 -> 2 <= h -> square_scc m g = Fail FPanic.
  Proof using SZ FX B.
    intros Hv Hh. pose proof (c43_no_rows SZ FX B Hv) as HD.
    pose proof (svm_fresh SZ B) as (V1 & V2). destruct (V2 1 ltac:(lia)) as (b & B1 & B2 & _).
    subst v. cbn [Z.to_nat] in B2. destruct b; [|discriminate].
    unfold square_scc, kosaraju_scc, finish_order.
    rewrite (for_each_exact _ _ _ _ _ _ _ _ HD).
    2:{ rewrite map_length. unfold zrange. rewrite map_length, seq_length.
        destruct SZ as (S1 & S2 & S3). destruct (loops_v S); lia. }
    assert (EZ : zrange (h - 1) = 0 :: map Z.of_nat (seq 1 (Z.to_nat (h - 2)))).
    { unfold zrange. replace (Z.to_nat (h - 1)) with (Datatypes.S (Z.to_nat (h - 2))) by lia.
      reflexivity. }
    rewrite EZ. cbn [map fold_outcome].
    assert (E1 : svm_is_visited (sg_visit_map g) (1 + 0, 0) = Ok false).
    { unfold svm_is_visited. cbn [fst snd]. change (1 + 0) with 1.
      rewrite (vec_index_ok _ _ _ _ Z.le_0_1 B1). reflexivity. }
    assert (E2 : svm_visit (sg_visit_map g) (1 + 0, 0) = Fail FPanic).
    { unfold svm_visit. cbn [fst snd]. change (1 + 0) with 1.
      rewrite (vec_index_ok _ _ _ _ Z.le_0_1 B1). reflexivity. }
    rewrite E1. cbn [bind].
    assert (E3 : forall o, Scc.push_all (dpo_next (sg_neighbors g) next svm_visit svm_is_visited)
      ([(1 + 0, 0)], (sg_visit_map g, sg_visit_map g)) o = Fail FPanic).
    { intros o. unfold Scc.push_all. eapply loop_rounds; [apply R_fail|reflexivity]. cbn [fst snd].
      assert (E4 : dpo_next (sg_neighbors g) next svm_visit svm_is_visited
        ([(1 + 0, 0)], (sg_visit_map g, sg_visit_map g)) = Fail FPanic).
      { unfold dpo_next. eapply loop_rounds; [apply R_fail|reflexivity]. unfold dpo_round.
        rewrite E2. reflexivity. }
      rewrite E4. reflexivity. }
    rewrite E3. reflexivity.
  Qed.
End Sq.
