(** * Main2: stateful construction, refusals, visit histories, size hints, axis laws. *)

From Verif Require Import Machine Store Axes Shapes Lattice Spec Basics AxisProofs GeoProofs
  ShapeProofs StoreProofs GraphProofs RepProofs IterProofs EdgeProofs VisitProofs Main1.
From Coq Require Import ZifyBool ZifyNat.
Ltac Zify.zify_post_hook ::= Z.div_mod_to_equations.

(** ** Arrays are determined by their elements *)

Lemma array_ext : forall X (a b : Array2 X) w h, 0 <= w -> 0 <= h ->
  array_wf a w h -> array_wf b w h ->
  (forall x y, 0 <= x < w -> 0 <= y < h -> array_get a x y = array_get b x y) -> a = b.
Proof.
  intros X [ra ca la] [rb cb lb] w h Hw Hh (A1 & A2 & A3) (B1 & B2 & B3) H.
  cbn [nrows ncols cells] in *. subst. f_equal. apply nth_error_ext. intros i.
  destruct (Nat.ltb i (length la)) eqn:Ei.
  - apply Nat.ltb_lt in Ei.
    assert (Hi : 0 <= Z.of_nat i < w * h) by lia.
    assert (0 < h) by nia.
    pose proof (Z.div_mod (Z.of_nat i) h ltac:(lia)) as Hd.
    pose proof (Z.mod_pos_bound (Z.of_nat i) h ltac:(lia)) as Hm.
    assert (Hq : 0 <= Z.of_nat i / h < w) by nia.
    specialize (H (Z.of_nat i / h) (Z.of_nat i mod h) Hq Hm).
    unfold array_get, in_bounds, flat_index in H. cbn [nrows ncols cells] in H.
    replace ((0 <=? Z.of_nat i / h) && (Z.of_nat i / h <? w) && (0 <=? Z.of_nat i mod h) &&
             (Z.of_nat i mod h <? h)) with true in H by lia.
    replace (Z.to_nat (Z.of_nat i / h * h + Z.of_nat i mod h)) with i in H by lia. exact H.
  - apply Nat.ltb_ge in Ei.
    rewrite (proj2 (nth_error_None la i)) by lia.
    rewrite (proj2 (nth_error_None lb i)) by lia. reflexivity.
Qed.

Section Stored.
  Context {A D N E : Type} {m : mode} {s : Shape Cell A D} {G : Geometry A D}
    (STO : Stored s G).
  Notation graph := (LatticeGraph Cell A D N E).

  (** Construction with stateful closures makes the same graph as construction with the
      pure closures that return the values recorded on the way. *)
  Lemma stateful_pure : forall St (n : St -> Cell -> N * St) (e : St -> Cell -> A -> E * St) st g st',
    new_with s n e m st = Ok (g, st') ->
    exists nf ef, new_with s (fun u c => (nf c, u)) (fun u c a => (ef c a, u)) m tt = Ok (g, tt).
  Proof using STO.
    intros St n e st g st' H. refine_store m STO.
    destruct (new_with_calls RF St n e st) as (g0 & nf & ef & H1 & H2 & H3 & H4 & H5 & H6 & H7).
    rewrite H in H1. injection H1 as <- ->.
    set (nf1 := fun c => match nf c with Some x => x | None => fst (n st c) end).
    set (ef1 := fun c a => match ef c a with Some x => x | None => fst (e st c a) end).
    exists nf1, ef1. destruct (new_with_rep RF nf1 ef1) as (g1 & N1 & [N2 N3]).
    rewrite N1. do 2 f_equal.
    assert (HC : Content (s := s) (cell := cell) (g_nodes g) (g_edges g)
                   (fun c => Some (nf1 c)) (opt_edge (G := G) ef1)).
    { eapply (content_ext RF); [exact H3| |].
      - intros c Hc. unfold nf1. apply (in_spec_calls_node (G := G)) in Hc. apply in_split in Hc.
        destruct Hc as (l1 & l2 & Heq). rewrite (H4 _ _ _ Heq). reflexivity.
      - intros c a Hc. unfold opt_edge, ef1.
        destruct (geo_step G c (ag_fwd (geo_ax G) a)) eqn:Es.
        + assert (He : edge_exists G c a) by (split; [auto|congruence]).
          apply (in_spec_calls_edge RF) in He. apply in_split in He.
          destruct He as (l1 & l2 & Heq). rewrite (H5 _ _ _ _ Heq). reflexivity.
        + apply H7. intros [_ Hx]. congruence. }
    pose proof (bounds RF) as B.
    destruct HC as (C1 & C2 & C3 & C4). destruct N3 as (D1 & D2 & D3 & D4).
    destruct g as [gn ge gs], g1 as [gn1 ge1 gs1]. cbn [g_nodes g_edges g_s] in *. subst. f_equal.
    - symmetry. eapply array_ext with (w := sh_horizontal s) (h := sh_vertical s); try lia; auto.
      intros x y Hx Hy. rewrite C2, D2 by auto. reflexivity.
    - symmetry. apply nth_error_ext. intros i.
      destruct (Nat.ltb i (ax_COUNT (sh_axis s))) eqn:Ei.
      + apply Nat.ltb_lt in Ei. pose proof (rf_axis _ _ _ _ RF) as AX.
        rewrite (ao_count _ _ _ AX) in Ei.
        destruct (nth_error (ag_axes (geo_ax G)) i) as [a|] eqn:Ea;
          [|apply nth_error_None in Ea; lia].
        pose proof (ao_nth_inv _ _ _ AX _ _ Ea) as <-.
        destruct (C4 a) as (arr & E1 & E2 & E3). destruct (D4 a) as (arr' & F1 & F2 & F3).
        rewrite E1, F1. f_equal.
        eapply array_ext with (w := sh_horizontal s) (h := sh_vertical s); try lia; auto.
        intros x y Hx Hy. rewrite E3, F3 by auto. reflexivity.
      + apply Nat.ltb_ge in Ei.
        rewrite (proj2 (nth_error_None ge i)) by lia.
        rewrite (proj2 (nth_error_None ge1 i)) by lia. reflexivity.
  Qed.

  (** ** Visit map *)

  Lemma visit_state_ok : forall (g : graph) nf ef ops, Built m s G g nf ef ->
    Forall (visit_allowed m G) ops ->
    exists vm, visit_state m g (visit_map g) ops = Ok vm /\
      (forall c, locatable m G c -> exists vm',
         vm_unvisit m s vm c = Ok (mem c (geo_nodes G), vm')) /\
      (forall c, locatable m G c ->
         vm_is_visited m s vm c = Ok (mem c (marked_after (geo_nodes G) [] ops))).
  Proof using STO.
    intros g nf ef ops HB HF. refine_store m STO. pose proof (built_rep RF _ _ _ HB) as [Hs _].
    pose proof (visit_map_rep RF g Hs) as HV. revert HV. generalize (visit_map g).
    generalize (@nil Cell). induction HF as [|op ops Hop HF IH]; intros marked vm HV.
    - cbn [visit_state marked_after]. exists vm. split; auto. split.
      + intros c Hl. destruct HV as (V1 & V2 & V3). unfold vm_unvisit.
        destruct (in_dec cell_dec c (geo_nodes G)) as [Hin|Hn].
        * rewrite (proj2 (mem_true _ _) Hin).
          destruct (on_board_offset RF c Hin) as (x & y & Hx & Hy & -> & Ho & _). rewrite Ho.
          cbn [bind fst snd]. destruct (V2 x Hx) as (b & B1 & B2 & B3).
          rewrite (vec_index_ok _ _ _ _ (proj1 Hx) B1). cbn [bind].
          unfold bits_set. replace ((0 <=? y) && (y <? Z.of_nat (length b))) with true by lia.
          cbn [bind]. eauto.
        * replace (mem c (geo_nodes G)) with false
            by (symmetry; apply not_true_iff_false; rewrite mem_true; auto).
          destruct Hl as [Hc Hx]. rewrite (rf_off_board _ _ _ _ RF) by auto. cbn [bind]. eauto.
      + intros c Hl.
        destruct (visit_op_ok RF g vm marked (IsVisited c) Hs HV Hl) as (vm' & H1 & _).
        cbn [visit_op visit_spec fst] in H1. rewrite Hs in H1.
        destruct (vm_is_visited m s vm c); cbn [bind] in H1; congruence.
    - cbn [visit_state marked_after].
      destruct (visit_op_ok RF g vm marked op Hs HV) as (vm' & H1 & H2).
      { destruct op; exact Hop. }
      rewrite H1. cbn [bind]. apply IH. auto.
  Qed.

  (** ** Size hints *)

  Lemma ucount_small : 1 <= Z.of_nat (ax_UNDIRECTED_COUNT (sh_axis s)) <= 8.
  Proof using STO. destruct STO as [? ? ? ? []| | | | | | | |]; cbn; lia. Qed.

  Lemma stored_few : Z.of_nat (length (geo_nodes G)) <= 2 ^ 63.
  Proof using STO.
    refine_store Debug STO. rewrite (rf_nodes _ _ _ _ RF).
    pose proof (fits_bounds _ _ (rf_fits _ _ _ _ RF)) as B. rewrite IMAX1_val in B.
    rewrite board_length by lia. change (2 ^ 63) with 9223372036854775808. lia.
  Qed.

  (** From 2^64 directions on the multiplication in that hint overflows. *)
  Lemma c39_overflow : forall (g : graph) nf ef, Built m s G g nf ef ->
    2 ^ 64 <= Z.of_nat (length (geo_nodes G)) * Z.of_nat (ax_UNDIRECTED_COUNT (sh_axis s)) ->
    edge_references_size_hint m g (edge_references g) =
    match m with
    | Debug => Fail FPanic
    | Release => Ok (0, Some ((Z.of_nat (length (geo_nodes G)) *
        Z.of_nat (ax_UNDIRECTED_COUNT (sh_axis s))) mod 2 ^ 64))
    end.
  Proof using STO.
    intros g nf ef HB Hsz. refine_store m STO.
    pose proof (built_rep RF _ _ _ HB) as HR. pose proof HR as [Hs _].
    pose proof (wh_range RF) as W. rewrite IMAX1_val in W.
    assert (Hl : Z.of_nat (length (geo_nodes G)) = sh_horizontal s * sh_vertical s)
      by (rewrite (nodes_length RF); lia).
    unfold edge_references_size_hint, node_count. rewrite Hs, (node_count_ok RF).
    cbn [bind edge_references ers_index].
    rewrite usize_sub_ok by (rewrite USIZE_val; lia). cbn [bind].
    rewrite Z.sub_0_r, <- Hl. unfold usize_mul, wrap_usize.
    replace (_ && _) with false by (rewrite USIZE_val; lia).
    destruct m; [reflexivity|]. unfold edge_references. cbn [bind ers_e].
    rewrite usize_add_ok; [rewrite Z.add_0_r; reflexivity|].
    rewrite Z.add_0_r. apply Z.mod_pos_bound. rewrite USIZE_val. lia.
  Qed.

  Lemma hint_edges : forall (g : graph) c o k ref it l cell (RF : Refines m s G cell), g_s g = s ->
    (forall d c', (length (ref d c') <= 1)%nat) ->
    ed_pos (E := E) (s := s) (G := G) c o k ref it l ->
    exists u, edges_size_hint m g it = Ok (0, Some u) /\ Z.of_nat (length l) <= u <= 8 /\
      u <= Z.of_nat (eb (s := s) k).
  Proof using STO.
    intros g c o k ref it l cell RF Hs Hle HP.
    pose proof (ed_pos_len RF _ _ _ _ _ _ Hle HP) as (H1 & H2 & H3).
    pose proof (eb_le RF k) as Hb. pose proof ucount_small as Hu.
    rewrite (ao_ucount _ _ _ (rf_axis _ _ _ _ RF)) in Hu.
    unfold edges_size_hint. rewrite H3, Hs. fold (eb (s := s) k).
    rewrite usize_sub_ok by (rewrite USIZE_val; lia). cbn [bind]. eexists. split; [reflexivity|]. lia.
  Qed.

  Lemma cell_refs_len : forall ef c cell (RF : Refines m s G cell),
    (length (cell_refs (E := E) (G := G) ef c) <= ax_UNDIRECTED_COUNT (sh_axis s))%nat.
  Proof using STO.
    intros ef c cell RF. unfold cell_refs. eapply Nat.le_trans; [apply flat_map_le|].
    - intros a. destruct (geo_step G c (ag_fwd (geo_ax G) a)); simpl; auto.
    - pose proof (eb_le RF AxisMarker) as H. unfold eb, edges_bound in H. cbn [dt_DIRECTED] in H.
      rewrite <- (ao_ucount _ _ _ (rf_axis _ _ _ _ RF)) in H.
      rewrite <- (ao_count _ _ _ (rf_axis _ _ _ _ RF)). exact H.
  Qed.

  Lemma flat_map_len : forall X Y (f : X -> list Y) n l, (forall x, (length (f x) <= n)%nat) ->
    (length (flat_map f l) <= length l * n)%nat.
  Proof.
    intros X Y f n l H. induction l as [|x l IH]; cbn [flat_map length]; auto.
    rewrite app_length. specialize (H x). lia.
  Qed.

  Lemma c39_references : forall (g : graph) nf ef l it, Built m s G g nf ef ->
    Z.of_nat (length (geo_nodes G)) * Z.of_nat (ax_UNDIRECTED_COUNT (sh_axis s)) < 2 ^ 64 ->
    Consumed (edge_references_next m g) (edge_references g) l it ->
    exists rest u, spec_edge_references G ef = l ++ rest /\
      Drains (edge_references_next m g) it rest /\
      edge_references_size_hint m g it = Ok (0, Some u) /\ Z.of_nat (length rest) <= u.
  Proof using STO.
    intros g nf ef l it HB Hsz HC. refine_store m STO.
    pose proof (built_rep RF _ _ _ HB) as HR. pose proof HR as [Hs _].
    destruct (IterInv_consumed _ _ _ _ _ _ _ (edge_references_inv RF g nf ef HR) HC
                (spec_edge_references G ef) (ers_pos_start RF g ef)) as (rest & H1 & H2).
    exists rest.
    assert (Hd : Drains (edge_references_next m g) it rest)
      by (eapply IterInv_drains; [eapply (edge_references_inv RF); eauto|auto]).
    destruct H2 as (Hi & l1 & Hr & He).
    pose proof (wh_range RF) as W. rewrite IMAX1_val in W.
    assert (Hl : Z.of_nat (length (geo_nodes G)) = sh_horizontal s * sh_vertical s)
      by (rewrite (nodes_length RF); lia).
    pose proof ucount_small as Hu. set (uc := ax_UNDIRECTED_COUNT (sh_axis s)) in *.
    unfold edge_references_size_hint, node_count. rewrite Hs, (node_count_ok RF). cbn [bind].
    rewrite usize_sub_ok by (rewrite USIZE_val; lia). cbn [bind].
    rewrite usize_mul_ok by (rewrite USIZE_val; nia). cbn [bind].
    assert (Hrest : Z.of_nat (length (flat_map (cell_refs (G := G) ef)
                      (skipn (Z.to_nat (ers_index it)) (geo_nodes G))))
                    <= (sh_horizontal s * sh_vertical s - ers_index it) * Z.of_nat uc).
    { pose proof (flat_map_len _ _ (cell_refs (G := G) ef) uc
                    (skipn (Z.to_nat (ers_index it)) (geo_nodes G))
                    (fun c => cell_refs_len ef c cell RF)) as H.
      rewrite skipn_length in H. nia. }
    rewrite Hr, app_length, Nat2Z.inj_add. rewrite Hr in H1.
    destruct (ers_e it) as [e|].
    - destruct He as (Hi1 & c & o & _ & HP).
      destruct (hint_edges g c o AxisMarker _ e l1 cell RF Hs (out_ref_le ef c) HP) as (u & U1 & U2 & U3).
      assert (Heb : (eb (s := s) AxisMarker <= uc)%nat)
        by (pose proof (eb_le RF AxisMarker) as Hb; rewrite <- (ao_ucount _ _ _ (rf_axis _ _ _ _ RF)) in Hb; exact Hb).
      rewrite U1. cbn [bind]. rewrite usize_add_ok by (rewrite USIZE_val; nia). cbn [bind].
      eexists. split; [exact H1|]. split; [rewrite <- Hr; exact Hd|]. split; [reflexivity|]. lia.
    - subst l1. cbn [bind]. rewrite usize_add_ok by (rewrite USIZE_val; nia). cbn [bind].
      eexists. split; [exact H1|]. split; [rewrite <- Hr; exact Hd|]. split; [reflexivity|].
      cbn [length]. lia.
  Qed.
End Stored.

Lemma c39_edges_rest : forall A D N E m (s : Shape Cell A D) G (g : LatticeGraph Cell A D N E)
  c o k ref it l l0 it' cell (RF : Refines m s G cell), Stored s G -> g_s g = s ->
  (forall d c', (length (ref d c') <= 1)%nat) ->
  IterInv (edges_next m g) (ed_pos (s := s) (G := G) c o k ref) ->
  ed_pos (s := s) (G := G) c o k ref it l0 ->
  Consumed (edges_next m g) it l it' ->
  exists rest u, Drains (edges_next m g) it (l ++ rest) /\ Drains (edges_next m g) it' rest /\
    edges_size_hint m g it' = Ok (0, Some u) /\ Z.of_nat (length rest) <= u.
Proof.
  intros A D N E m s G g c o k ref it l l0 it' cell RF STO Hs Hle H2 H3 HC.
  destruct (IterInv_consumed _ _ _ _ _ _ _ H2 HC l0 H3) as (rest & -> & H4).
  destruct (hint_edges STO g c o k ref it' rest cell RF Hs Hle H4) as (u & U1 & U2).
  exists rest, u. split; [eapply IterInv_drains; eauto|]. split; [eapply IterInv_drains; eauto|].
  split; auto. lia.
Qed.

Lemma c39_edges : forall A D N E m (s : Shape Cell A D) G (g : LatticeGraph Cell A D N E)
  nf ef c k it l it', Traversable s G -> Built m s G g nf ef -> In c (geo_nodes G) ->
  (k = AxisDirMarker \/ k = PetMarker Outgoing \/
   k = PetMarker Incoming /\ ag_directed (geo_ax G) = false) ->
  edges_new_d m g c k = Ok it -> Consumed (edges_next m g) it l it' ->
  exists rest u, Drains (edges_next m g) it (l ++ rest) /\ Drains (edges_next m g) it' rest /\
    edges_size_hint m g it' = Ok (0, Some u) /\ Z.of_nat (length rest) <= u.
Proof.
  intros A D N E m s G g nf ef c k it l it' TR HB Hc Hk He HC. refine_trav m TR.
  pose proof (traversable_stored _ _ _ _ TR) as STO.
  pose proof (built_rep RF _ _ _ HB) as HR. pose proof HR as [Hs _].
  destruct Hk as [->|[->|[-> Hk]]].
  - destruct (edges_outgoing_pos RF RD g nf ef c AxisDirMarker HR Hc eq_refl eq_refl)
      as (o & it0 & H1 & H2 & H3). rewrite He in H1. injection H1 as <-.
    eapply c39_edges_rest; eauto. apply out_ref_le.
  - destruct (edges_outgoing_pos RF RD g nf ef c (PetMarker Outgoing) HR Hc eq_refl eq_refl)
      as (o & it0 & H1 & H2 & H3). rewrite He in H1. injection H1 as <-.
    eapply c39_edges_rest; eauto. apply out_ref_le.
  - destruct (edges_incoming_pos RF RD g nf ef c HR Hc Hk) as (o & it0 & H1 & H2 & H3).
    unfold edges_directed in H1. rewrite He in H1. injection H1 as <-.
    eapply c39_edges_rest; eauto. apply rev_ref_le.
Qed.

Lemma c39_edges_directed : forall A D N E m (s : Shape Cell A D) G (g : LatticeGraph Cell A D N E)
  nf ef c it l it', Supported s G -> Built m s G g nf ef -> In c (geo_nodes G) ->
  ag_directed (geo_ax G) = true -> m = Release ->
  edges_new_d m g c (PetMarker Incoming) = Ok it -> Consumed (edges_next m g) it l it' ->
  exists rest u, Drains (edges_next m g) it (l ++ rest) /\ Drains (edges_next m g) it' rest /\
    edges_size_hint m g it' = Ok (0, Some u) /\ Z.of_nat (length rest) <= u.
Proof.
  intros A D N E m s G g nf ef c it l it' SUP HB Hc Hd Hm He HC. refine_shape m SUP.
  pose proof (st_supported _ _ _ _ SUP) as STO.
  pose proof (built_rep RF _ _ _ HB) as HR. pose proof HR as [Hs _].
  destruct (edges_incoming_directed_pos RF RG g nf ef c HR Hc Hd Hm) as (o & it0 & H1 & H2 & H3).
  unfold edges_directed in H1. rewrite He in H1. injection H1 as <-.
  eapply c39_edges_rest; eauto. apply in_ref_le.
Qed.

(** ** Refusal of boards that cannot be allocated *)

Lemma c03_panic : forall C A D N E St (s : Shape C A D) (n : St -> C -> N * St)
  (e : St -> C -> A -> E * St) m st,
  0 <= sh_horizontal s -> 0 <= sh_vertical s -> ~ fits (sh_horizontal s) (sh_vertical s) ->
  new_with s n e m st = Fail FPanic.
Proof.
  intros C A D N E St s n e m st Hw Hh Hf.
  assert (Ha : alloc_ok (sh_horizontal s) (sh_vertical s) = false).
  { unfold alloc_ok, fits in *. rewrite IMAX1_val. lia. }
  unfold new_with, new_uninit, array_uninit. rewrite Ha. reflexivity.
Qed.

(** ** Axes *)

Lemma known_axis_ok : forall A D (ax : AxisOps A D) geo m, KnownAxis ax geo -> AxisOK m ax geo.
Proof.
  intros A D ax geo m H.
  destruct H; auto using square_axis_ok, dsquare_axis_ok, diagonal_axis_ok, ddiagonal_axis_ok,
    hexr_axis_ok, dhexr_axis_ok, hexq_axis_ok, dhexq_axis_ok.
Qed.

Section Axis.
  Context {A D : Type} {ax : AxisOps A D} {geo : AxisGeo A D} (m : mode) (K : KnownAxis ax geo).

  Lemma axis_index : forall i a, ax_from_index ax i = Some a <-> ax_to_index ax a = i.
  Proof using K.
    pose proof (known_axis_ok _ _ _ _ Debug K) as AX. intros i a. rewrite (ao_from_index _ _ _ AX).
    split; [apply (ao_nth_inv _ _ _ AX)|]. intros <-. apply (ao_nth _ _ _ AX).
  Qed.
  Lemma axis_index_total : forall i, (exists a, ax_from_index ax i = Some a) <-> (i < ax_COUNT ax)%nat.
  Proof using K.
    pose proof (known_axis_ok _ _ _ _ Debug K) as AX. intros i.
    rewrite (ao_from_index _ _ _ AX), (ao_count _ _ _ AX), <- nth_error_Some.
    destruct (nth_error (ag_axes geo) i); split; intros H; try congruence; eauto.
    destruct H; discriminate.
  Qed.
  Lemma axis_index_unchecked : forall i a, ax_from_index ax i = Some a ->
    ax_from_index_unchecked ax m i = Ok a.
  Proof using K.
    pose proof (known_axis_ok _ _ _ _ m K) as AX. intros i a. rewrite (ao_from_index _ _ _ AX).
    apply (ao_from_index_unchecked _ _ _ AX).
  Qed.
  Lemma dir_index : forall i d, dir_from_index (ax_dir ax) i = Some d <-> dir_to_index (ax_dir ax) d = i.
  Proof using K.
    pose proof (known_axis_ok _ _ _ _ Debug K) as AX. intros i d. rewrite (ao_dir_from_index _ _ _ AX).
    split; [apply (ao_dnth_inv _ _ _ AX)|]. intros <-. apply (ao_dnth _ _ _ AX).
  Qed.
  Lemma dir_index_total : forall i,
    (exists d, dir_from_index (ax_dir ax) i = Some d) <-> (i < ax_UNDIRECTED_COUNT ax)%nat.
  Proof using K.
    pose proof (known_axis_ok _ _ _ _ Debug K) as AX. intros i.
    rewrite (ao_dir_from_index _ _ _ AX), (ao_ucount _ _ _ AX), <- nth_error_Some.
    destruct (nth_error (ag_dirs geo) i); split; intros H; try congruence; eauto.
    destruct H; discriminate.
  Qed.
  Lemma dir_index_unchecked : forall i d, dir_from_index (ax_dir ax) i = Some d ->
    dir_from_index_unchecked (ax_dir ax) m i = Ok d.
  Proof using K.
    pose proof (known_axis_ok _ _ _ _ m K) as AX. intros i d. rewrite (ao_dir_from_index _ _ _ AX).
    apply (ao_dir_from_index_unchecked _ _ _ AX).
  Qed.
  Lemma axis_orient : forall a, exists f b, ax_foward ax m a = Ok f /\ ax_backward ax m a = Ok b /\
    opposite geo f b /\
    ax_from_direction ax m f = Ok a /\ ax_is_forward_direction ax m f = Ok true /\
    (ax_DIRECTED ax = false ->
       ax_from_direction ax m b = Ok a /\ ax_is_forward_direction ax m b = Ok false).
  Proof using K.
    pose proof (known_axis_ok _ _ _ _ m K) as AX. intros a.
    destruct (ao_bwd _ _ _ AX a) as (b & H1 & H2). exists (ag_fwd geo a), b.
    split; [apply (ao_fwd _ _ _ AX)|]. split; auto. split; auto.
    destruct (ao_class _ _ _ AX (ag_fwd geo a)) as [(a' & F1 & _ & F2 & F3)|(Hd & a' & Ho & _)].
    2:{ exfalso. eapply (ao_undirected_opp _ _ _ AX); eauto. }
    apply (ao_fwd_inj _ _ _ AX) in F1. subst a'. split; auto. split; auto.
    rewrite (ao_directed _ _ _ AX). intros Hd.
    destruct (ao_class _ _ _ AX b) as [(a' & F1 & _)|(_ & a' & Ho & _ & _ & F4 & F5 & _)].
    - subst b. exfalso. eapply (ao_undirected_opp _ _ _ AX); eauto.
    - apply (opposite_sym (g := geo)) in H2.
      pose proof (opposite_unique AX _ _ _ Ho H2) as H.
      apply (ao_fwd_inj _ _ _ AX) in H. subst a'. auto.
  Qed.
  (** Every direction belongs to an axis, in one orientation. *)
  Lemma dir_orient : forall d, exists a, ax_from_direction ax m d = Ok a /\
    ((ax_foward ax m a = Ok d /\ ax_is_forward_direction ax m d = Ok true) \/
     (ax_DIRECTED ax = false /\ ax_backward ax m a = Ok d /\
      ax_is_forward_direction ax m d = Ok false)).
  Proof using K.
    pose proof (known_axis_ok _ _ _ _ m K) as AX. intros d. rewrite (ao_directed _ _ _ AX).
    destruct (ao_class _ _ _ AX d) as [(a & F1 & _ & F2 & F3)|(Hd & a & Ho & _ & _ & F4 & F5 & _)].
    - exists a. split; auto. left. rewrite <- F1 at 1. split; auto. apply (ao_fwd _ _ _ AX).
    - exists a. split; auto. right. split; auto. split; auto.
      destruct (ao_bwd _ _ _ AX a) as (b & H1 & H2). apply (opposite_sym (g := geo)) in Ho.
      pose proof (opposite_unique AX _ _ _ H2 Ho) as ->. auto.
  Qed.
  Lemma directed_backward : ax_DIRECTED ax = true -> forall a, exists b a', ax_backward ax m a = Ok b /\
    ax_from_direction ax m b = Ok a' /\ a' <> a /\
    exists b', ax_backward ax m a' = Ok b' /\ ax_from_direction ax m b' = Ok a.
  Proof using K.
    pose proof (known_axis_ok _ _ _ _ m K) as AX. rewrite (ao_directed _ _ _ AX). intros Hd a.
    destruct (axis_orient a) as (f & b & H1 & H2 & H3 & H4 & _).
    destruct (dir_orient b) as (a' & K1 & [[K2 K3]|[K2 _]]);
      [|rewrite (ao_directed _ _ _ AX) in K2; congruence].
    destruct (axis_orient a') as (f' & b' & H1' & H2' & H3' & H4' & _).
    assert (f' = b) by congruence. subst f'.
    assert (b' = f).
    { apply (opposite_sym (g := geo)) in H3. exact (opposite_unique AX _ _ _ H3' H3). }
    subst b'. exists b, a'. repeat split; auto.
    - intros ->. assert (b = f) by congruence. subst b.
      apply (ao_vec_nonzero _ _ _ AX f). unfold opposite, vneg in H3.
      destruct (ag_vec geo f) as [vx vy]. cbn [fst snd] in H3. injection H3 as Hx Hy. f_equal; lia.
    - exists f. auto.
  Qed.
End Axis.
