(** * KruskalMain: components and spanning trees of [LatticeGraph] and of [SquareGraph]. *)

From Coq Require Import Permutation.
From Verif Require Import Machine Store Axes Shapes Lattice SquareGraph Traverse Astar Spec
  SpecSquare Spec4 Spec5 Basics AxisProofs GeoProofs ShapeProofs StoreProofs GraphProofs RepProofs
  EdgeProofs VisitProofs Main1 Main2 DistProofs TraverseProofs AstarProofs SearchProofs SquareProofs
  SquareIter SquareMain SquareSearch AstarMain HandshakeProofs Kruskal Spec7 KruskalProofs KruskalRun.
From Coq Require Import ZifyBool ZifyNat.

Notation ends := Spec7.ends.

Definition cell_dec : forall a b : Cell, {a = b} + {a <> b}.
Proof. repeat decide equality. Defined.

(** ** [LatticeGraph] *)

Section Lat.
  Context {A D N E : Type} {m : mode} {s : Shape Cell A D} {G : Geometry A D}
    (STO : Stored s G) (g : LatticeGraph Cell A D N E) (nf : Cell -> N) (ef : Cell -> A -> E)
    (HB : Built m s G g nf ef)
    (CL : forall r, In r (spec_edge_references G ef) -> In (er_target r) (geo_nodes G)).

  Notation refs := (spec_edge_references G ef).
  Notation from := (fun e : EdgeReference Cell E D => Ok (er_source e)).
  Notation target := (fun e : EdgeReference Cell E D => Ok (er_target e)).

  Lemma kl_length : Z.of_nat (length refs) + 1 < 2 ^ 72.
  Proof.
    refine_store m STO. pose proof (ucount_small STO) as Hu.
    pose proof (flat_map_len _ _ (cell_refs (G := G) ef) _ (geo_nodes G)
      (fun c => cell_refs_len (m := m) STO ef c cell RF)) as HX.
    change (flat_map (cell_refs (G := G) ef) (geo_nodes G)) with refs in HX.
    pose proof (stored_few STO). nia.
  Qed.

  Lemma kl_ends : forall e, In e refs -> In (er_source e) (geo_nodes G) /\ In (er_target e) (geo_nodes G).
  Proof.
    intros e He. split; [|apply CL; auto]. apply in_flat_map in He. destruct He as (c & Hc & He).
    apply in_flat_map in He. destruct He as (a & _ & He).
    destruct (geo_step G c (ag_fwd (geo_ax G) a)); [|destruct He]. destruct He as [<-|[]]. auto.
  Qed.

  Definition pairs : list (Cell * Cell) := map (fun e => (er_source e, er_target e)) refs.

  Section UF.
    Context {T : Type} (U : UFOps T) (UOK : UFOK U).

    Lemma kl_count :
      connected_components U (node_bound m g) (to_index m g) (edge_references g)
        (edge_references_next m g) from target = Ok (Z.of_nat (ncl cell_dec (geo_nodes G) pairs)).
    Proof.
      destruct (c05 STO g nf ef HB) as (B1 & B2 & B3 & B4).
      rewrite (components_count (Ed := EdgeReference Cell E D) cell_dec U UOK)
        with (weight := fun _ => 0) (nodes := geo_nodes G) (l := refs) (src := er_source) (tgt := er_target); auto.
      - do 3 f_equal. unfold Spec7.ends, pairs. rewrite map_map. auto.
      - intros i c Hi. apply B4. auto.
      - apply (c15_drains STO g nf ef HB).
      - apply kl_length.
      - apply kl_ends.
    Qed.

    Lemma c82_components : exists reps,
      connected_components U (node_bound m g) (to_index m g) (edge_references g)
        (edge_references_next m g) from target = Ok (Z.of_nat (length reps)) /\
      Components (geo_nodes G) pairs reps.
    Proof.
      destruct (components_exist cell_dec (geo_nodes G) pairs) as (reps & R1 & R2).
      exists reps. split; auto. rewrite R2. apply kl_count.
    Qed.
  End UF.
End Lat.

Section Tree.
  Context {A D N : Type} {m : mode} {s : Shape Cell A D} {G : Geometry A D}
    (STO : Stored s G) (g : LatticeGraph Cell A D N Z) (nf : Cell -> N) (ef : Cell -> A -> Z)
    (HB : Built m s G g nf ef)
    (HINT : m = Release \/
       Z.of_nat (length (geo_nodes G)) * Z.of_nat (ax_UNDIRECTED_COUNT (sh_axis s)) < 2 ^ 64)
    (CL : forall r, In r (spec_edge_references G ef) -> In (er_target r) (geo_nodes G)).
  Notation from := (fun e : EdgeReference Cell Z D => Ok (er_source e)).
  Notation target := (fun e : EdgeReference Cell Z D => Ok (er_target e)).

  Lemma c84_forest : forall T (U : UFOps T), UFOK U -> forall H : HeapOps (Cell * Cell), HeapOK H ->
    exists it K R,
    mst_new U H (node_bound m g) (edge_references g) (edge_references_next m g)
      (edge_references_size_hint m g (edge_references g)) from target er_weight (node_references g)
      = Ok it /\
    Drains (mst_next U H (to_index m g) (node_references_next m g)) it
      (map (fun c => ENode (nf c)) (geo_nodes G) ++ R) /\
    Forall2 (Stands_for (geo_nodes G)) R K /\
    MinSpanningForest (geo_nodes G) (map seen (spec_edge_references G ef)) K.
  Proof.
    intros T U UOK H HOK. destruct (c05 STO g nf ef HB) as (B1 & B2 & B3 & B4).
    assert (exists u, edge_references_size_hint m g (edge_references g) = Ok (0, Some u)) as (u & R3).
    { destruct (Z_lt_le_dec (Z.of_nat (length (geo_nodes G)) * Z.of_nat (ax_UNDIRECTED_COUNT (sh_axis s)))
        (2 ^ 64)) as [Hsz|Hsz].
      - destruct (c39_references STO g nf ef [] (edge_references g) HB Hsz (Consumed_nil _ _))
          as (rest & u & _ & _ & R3 & _). eauto.
      - pose proof (c39_overflow STO g nf ef HB Hsz) as R3.
        destruct HINT as [EM|HI]; [|exfalso; lia]. destruct m; [discriminate|]. eauto. }
    apply mst_finds with (src := er_source) (tgt := er_target) (hint := (0, Some u)); auto.
    - exact cell_dec.
    - intros i c Hi. apply B4. auto.
    - apply (c15_drains STO g nf ef HB).
    - apply (kl_length (m := m) STO ef); auto.
    - apply (kl_ends ef CL).
    - apply (c07 STO g nf ef HB).
  Qed.
End Tree.

Lemma c84_hint : forall A D N (m : mode) (s : Shape Cell A D) (G : Geometry A D), Stored s G ->
  forall (g : LatticeGraph Cell A D N Z) nf ef, Built m s G g nf ef -> m = Debug ->
  2 ^ 64 <= Z.of_nat (length (geo_nodes G)) * Z.of_nat (ax_UNDIRECTED_COUNT (sh_axis s)) ->
  forall T (U : UFOps T) (H : HeapOps (Cell * Cell)),
  mst_new U H (node_bound m g) (edge_references g) (edge_references_next m g)
    (edge_references_size_hint m g (edge_references g)) (fun e => Ok (er_source e))
    (fun e => Ok (er_target e)) er_weight (node_references g) = Fail FPanic.
Proof.
  intros A D N m s G STO g nf ef HB EM Hsz T U H. destruct (c05 STO g nf ef HB) as (B1 & _).
  unfold mst_new. rewrite B1. cbn [bind]. rewrite (c39_overflow STO g nf ef HB Hsz), EM. reflexivity.
Qed.

Section LatConn.
  Context {A D : Type} {s : Shape Cell A D} {G : Geometry A D} (SUP : Supported s G).

  Lemma sup_closed : forall E (ef : Cell -> A -> E) r, In r (spec_edge_references G ef) ->
    In (er_target r) (geo_nodes G).
  Proof.
    intros E ef r Hr. apply in_flat_map in Hr. destruct Hr as (c & Hc & Hr).
    apply in_flat_map in Hr. destruct Hr as (a & _ & Hr).
    destruct (geo_step G c (ag_fwd (geo_ax G) a)) as [c'|] eqn:Es; [|destruct Hr].
    destruct Hr as [<-|[]]. cbn [er_target]. eapply (rg_in (supported_regular _ _ _ _ SUP)); eauto.
  Qed.

  Lemma sup_linked : forall E (ef : Cell -> A -> E) a b, In a (geo_nodes G) -> In b (geo_nodes G) ->
    Linked (pairs (G := G) ef) a b.
  Proof.
    intros E ef a b Ha Hb. destruct (lat_conn SUP ef (fun _ => 0) a Ha b Hb) as (p & k & HR).
    induction HR as [c|a e p k b He HR IH]; [apply linked_refl|].
    assert (Ht : In (er_target e) (geo_nodes G)) by (apply (lat_in SUP ef a e); auto).
    eapply linked_trans; [|apply IH; auto].
    assert (Hi : In (seen e) (map seen (flat_map (spec_edges G ef) (geo_nodes G)))).
    { apply in_map. apply in_flat_map. eauto. }
    eapply Permutation_in in Hi; [|apply (seen_twice SUP ef)].
    assert (Hsrc : er_source e = a).
    { unfold spec_edges in He. apply in_flat_map in He. destruct He as (d & _ & He).
      destruct (geo_step G a d); [|destruct He]. destruct (edge_name G a d c) as [[x y]|]; [|destruct He].
      destruct He as [<-|[]]. auto. }
    assert (P : forall r, In r (spec_edge_references G ef) ->
      Linked (pairs (G := G) ef) (er_source r) (er_target r)).
    { intros r Hr. apply linked_edge. unfold pairs. apply in_map_iff. eauto. }
    rewrite <- Hsrc. apply in_app_or in Hi. destruct Hi as [Hi|Hi].
    - apply in_map_iff in Hi. destruct Hi as (r & E1 & Hr). unfold seen in E1. injection E1 as <- <- _. auto.
    - destruct (ag_directed (geo_ax G)); [destruct Hi|].
      apply in_map_iff in Hi. destruct Hi as (r & E1 & Hr). unfold seen, seen_back in E1.
      injection E1 as <- <- _. apply linked_sym. auto.
  Qed.
End LatConn.

Section LatSup.
  Context {A D N : Type} {m : mode} {s : Shape Cell A D} {G : Geometry A D}
    (SUP : Supported s G).

  Lemma c82_connected : forall E (g : LatticeGraph Cell A D N E) nf ef, Built m s G g nf ef ->
    forall T (U : UFOps T), UFOK U ->
    connected_components U (node_bound m g) (to_index m g) (edge_references g)
      (edge_references_next m g) (fun e => Ok (er_source e)) (fun e => Ok (er_target e)) =
    Ok (match geo_nodes G with [] => 0 | _ => 1 end).
  Proof.
    intros E g nf ef HB T U UOK.
    rewrite (kl_count (st_supported _ _ _ _ SUP) g nf ef HB (sup_closed SUP E ef) U UOK).
    rewrite (ncl_one cell_dec) by (apply (sup_linked SUP)).
    destruct (geo_nodes G); auto.
  Qed.

  Lemma c84_tree : (m = Release \/
      Z.of_nat (length (geo_nodes G)) * Z.of_nat (ax_UNDIRECTED_COUNT (sh_axis s)) < 2 ^ 64) ->
    forall (g : LatticeGraph Cell A D N Z) nf ef, Built m s G g nf ef ->
    forall T (U : UFOps T), UFOK U -> forall H : HeapOps (Cell * Cell), HeapOK H ->
    exists it K R,
    mst_new U H (node_bound m g) (edge_references g) (edge_references_next m g)
      (edge_references_size_hint m g (edge_references g)) (fun e => Ok (er_source e))
      (fun e => Ok (er_target e)) er_weight (node_references g) = Ok it /\
    Drains (mst_next U H (to_index m g) (node_references_next m g)) it
      (map (fun c => ENode (nf c)) (geo_nodes G) ++ R) /\
    Forall2 (Stands_for (geo_nodes G)) R K /\
    MinSpanningForest (geo_nodes G) (map seen (spec_edge_references G ef)) K /\
    Connects (geo_nodes G) K /\ length K = pred (length (geo_nodes G)).
  Proof.
    intros HINT g nf ef HB T U UOK H HOK.
    destruct (c84_forest (st_supported _ _ _ _ SUP) g nf ef HB HINT (sup_closed SUP Z ef) T U UOK H HOK)
      as (it & K & R & P1 & P2 & P3 & P4).
    exists it, K, R. repeat (split; [solve [auto]|]).
    assert (HC : Connects (geo_nodes G) (map seen (spec_edge_references G ef))).
    { intros a b Ha Hb. unfold Spec7.ends. rewrite map_map. apply (sup_linked SUP Z ef a b Ha Hb). }
    split; [eapply mst_connects; eauto|].
    eapply mst_length; eauto.
    - exact cell_dec.
    - apply (c05 (st_supported _ _ _ _ SUP) g nf ef HB).
    - intros a b w Hi. apply in_map_iff in Hi. destruct Hi as (r & E1 & Hr). unfold seen in E1.
      injection E1 as <- <- _. apply (kl_ends (G := G) ef (sup_closed SUP Z ef) r Hr).
  Qed.
End LatSup.

(** ** [SquareGraph] *)

Section Sq.
  Context {N E : Type} {ix : IxType} {S : LoopShape} {m : mode} {h v : Z}
    (SZ : sq_size S h v) (FX : sq_index_fits ix h v).
  Context (g : SquareGraph N E ix S) (nf : NodeIndex -> N) (ef : EdgeIndex -> E)
    (B : SqBuilt m h v g nf ef).
  Notation nodes := (sq_nodes h v).
  Notation all := (sq_all_edges S h v ef).
  Notation from := (sr_source (ix := ix) (S := S) (E := E) m).
  Notation target := (sr_target (ix := ix) (S := S) (E := E) m).
  Notation view_ends := (fun x : EdgeView E => fst (plain_view x)).

  Definition sq_src (e : SqEdgeReference E) : NodeIndex :=
    match from e with Ok t => t | Fail _ => (0, 0) end.

  Lemma ks_views : forall l, map (sq_view ix S m) l = map Ok all ->
    map (fun e => (sq_src e, sq_tgt (ix := ix) (S := S) (m := m) e, sr_weight e)) l = map plain_view all /\
    forall e, In e l -> from e = Ok (sq_src e) /\ target e = Ok (sq_tgt (ix := ix) (S := S) (m := m) e) /\
      In (sq_src e, sq_tgt (ix := ix) (S := S) (m := m) e, sr_weight e) (map plain_view all).
  Proof.
    intros l. generalize all. induction l as [|e l IH]; intros vs HV; destruct vs as [|x vs]; try discriminate.
    - split; auto. intros e [].
    - cbn [map] in HV. injection HV as HV1 HV2. destruct (IH vs HV2) as [IH1 IH2].
      unfold sq_view in HV1.
      assert (E0 : from e = Ok (sq_src e) /\ target e = Ok (sq_tgt (ix := ix) (S := S) (m := m) e) /\
        (sq_src e, sq_tgt (ix := ix) (S := S) (m := m) e, sr_weight e) = plain_view x).
      { unfold sq_src, sq_tgt. destruct (from e) as [a|]; [|discriminate]. cbn [bind] in HV1.
        destruct (target e) as [b|]; [|discriminate]. cbn [bind] in HV1. injection HV1 as <-. auto. }
      destruct E0 as (E1 & E2 & E3). cbn [map]. split; [congruence|].
      intros e' [<-|He]; [split; auto; split; auto; left; auto|].
      destruct (IH2 e' He) as (I1 & I2 & I3). split; auto. split; auto. right; auto.
  Qed.

  Lemma ks_ends : forall a b w, In (a, b, w) (map plain_view all) -> In a nodes /\ In b nodes.
  Proof.
    intros a b w Hi. apply in_map_iff in Hi. destruct Hi as (x & Hx & Hi). apply in_all_edges in Hi.
    destruct Hi as (n & ax & Hn & Hv). unfold sq_edge_view in Hv.
    destruct (sq_neighbour S h v n (Foward ax)) as [t|] eqn:Et; [|discriminate]. injection Hv as <-.
    cbn [plain_view] in Hx. injection Hx as <- <- _.
    split; apply sq_in_nodes; auto. eapply neighbour_on_board; eauto.
  Qed.

  Lemma ks_length : Z.of_nat (length all) + 1 < 2 ^ 72.
  Proof.
    assert (HX : (length all <= length nodes * 2)%nat).
    { apply flat_map_len. intros n. cbn [flat_map]. rewrite !app_length.
      destruct (sq_edge_view S h v ef n (Foward Horizontal)), (sq_edge_view S h v ef n (Foward Vertical));
        cbn [length]; lia. }
    pose proof (sq_nodes_length SZ) as HN. destruct SZ as (H1 & H2 & H3). destruct (loops_v S); nia.
  Qed.

  Lemma ks_linked : forall a b, on_board h v a -> on_board h v b ->
    Linked (map view_ends all) a b.
  Proof.
    intros a b Ha Hb. pose proof Ha as Ha'. apply sq_in_nodes in Ha'.
    destruct (sqa_closer (m := m) SZ FX ef (fun _ => 0) b Hb a Ha') as (p & k & HR & _).
    clear Ha. induction HR as [c|a e p k b He HR IH]; [apply linked_refl|].
    pose proof (sqa_in (m := m) SZ FX ef a e Ha' He) as Ht.
    eapply linked_trans; [|apply IH; auto].
    destruct (sqa_target (m := m) SZ FX ef a e Ha' He) as (_ & d & Hd).
    assert (Hi : In (sq_edge_name a d (sq_tgt (ix := ix) (S := S) (m := m) e),
      ef (sq_edge_name a d (sq_tgt (ix := ix) (S := S) (m := m) e)), a, sq_tgt (ix := ix) (S := S) (m := m) e)
      (flat_map (sq_edges_of S h v ef) nodes)).
    { apply in_flat_map. exists a. split; auto. apply in_edges_of. exists d. unfold sq_edge_view.
      rewrite Hd. auto. }
    eapply Permutation_in in Hi; [|apply (sq_seen_twice (S := S) (h := h) (v := v) ef)].
    apply in_app_or in Hi. destruct Hi as [Hi|Hi].
    - apply linked_edge. apply in_map_iff. eexists. split; [|exact Hi]. auto.
    - apply linked_sym, linked_edge. apply in_map_iff in Hi. destruct Hi as ([[[i w] x] y] & E1 & Hi).
      cbn [view_back] in E1. injection E1 as _ _ <- <-. apply in_map_iff. eexists. split; [|exact Hi]. auto.
  Qed.

  Lemma ks_bound : Ok (sg_node_bound g) = Ok (Z.of_nat (length nodes)).
  Proof.
    destruct (c42 SZ FX B) as (-> & _). rewrite (sq_nodes_length SZ). auto.
  Qed.

  Lemma c83_connected : forall T (U : UFOps T), UFOK U ->
    connected_components U (Ok (sg_node_bound g)) (sg_to_index m g) (sg_edge_references g)
      (sg_edge_references_next m g) from target = Ok (if v =? 0 then 0 else 1).
  Proof.
    intros T U UOK. destruct (c46 SZ FX B) as (l & L1 & L2). destruct (ks_views l L2) as (V1 & V2).
    destruct (c43_order SZ B) as (O1 & O2 & O3).
    assert (LL : length l = length all).
    { apply (f_equal (@length _)) in L2. rewrite !map_length in L2. auto. }
    rewrite (components_count (Ed := SqEdgeReference E) cell_dec U UOK)
      with (weight := fun _ => 0) (nodes := nodes) (l := l) (src := sq_src)
        (tgt := sq_tgt (ix := ix) (S := S) (m := m)); auto.
    - f_equal. rewrite (ncl_one cell_dec).
      + pose proof (sq_nodes_length SZ) as HN. destruct SZ as (H1 & H2 & H3).
        destruct nodes as [|c ns]; cbn [length] in HN.
        * destruct (Z.eqb_spec v 0); auto. destruct (loops_v S); nia.
        * destruct (Z.eqb_spec v 0); auto. subst v. lia.
      + intros a b Ha Hb. apply sq_in_nodes in Ha, Hb.
        match goal with |- Linked ?es _ _ => replace es with (map view_ends all) end;
          [apply ks_linked; auto|].
        unfold Spec7.ends. rewrite map_map. cbn [see fst].
        apply (f_equal (map fst)) in V1. rewrite !map_map in V1. cbn [fst] in V1. auto.
    - apply ks_bound.
    - rewrite LL. apply ks_length.
    - intros e He. apply V2; auto.
    - intros e He. apply V2; auto.
    - intros e He. eapply ks_ends. apply V2; auto.
  Qed.
End Sq.

Section SqTree.
  Context {N : Type} {ix : IxType} {S : LoopShape} {m : mode} {h v : Z}
    (SZ : sq_size S h v) (FX : sq_index_fits ix h v).

  Lemma c85_tree : forall (g : SquareGraph N Z ix S) nf ef, SqBuilt m h v g nf ef ->
    forall T (U : UFOps T), UFOK U -> forall H : HeapOps (NodeIndex * NodeIndex), HeapOK H ->
    exists it K R,
    mst_new U H (Ok (sg_node_bound g)) (sg_edge_references g) (sg_edge_references_next m g)
      (Ok (0, None)) (sr_source (ix := ix) (S := S) m) (sr_target (ix := ix) (S := S) m) sr_weight
      (sg_node_references g) = Ok it /\
    Drains (mst_next U H (sg_to_index m g) (sg_node_references_next (ix := ix) m)) it
      (map (fun n => ENode (nf n)) (sq_nodes h v) ++ R) /\
    Forall2 (Stands_for (sq_nodes h v)) R K /\
    MinSpanningForest (sq_nodes h v) (map plain_view (sq_all_edges S h v ef)) K /\
    Connects (sq_nodes h v) K /\ length K = pred (length (sq_nodes h v)).
  Proof.
    intros g nf ef B T U UOK H HOK.
    destruct (c46 SZ FX B) as (l & L1 & L2). destruct (ks_views ef l L2) as (V1 & V2).
    destruct (c43_order SZ B) as (O1 & O2 & O3).
    assert (LL : length l = length (sq_all_edges S h v ef)).
    { apply (f_equal (@length _)) in L2. rewrite !map_length in L2. auto. }
    assert (exists it K R,
      mst_new U H (Ok (sg_node_bound g)) (sg_edge_references g) (sg_edge_references_next m g)
        (Ok (0, None)) (sr_source (ix := ix) (S := S) m) (sr_target (ix := ix) (S := S) m) sr_weight
        (sg_node_references g) = Ok it /\
      Drains (mst_next U H (sg_to_index m g) (sg_node_references_next (ix := ix) m)) it
        (map (fun n => ENode (nf n)) (sq_nodes h v) ++ R) /\
      Forall2 (Stands_for (sq_nodes h v)) R K /\
      MinSpanningForest (sq_nodes h v) (map (see (@sr_weight Z) (sq_src (ix := ix) (S := S) (m := m) (E := Z))
        (sq_tgt (ix := ix) (S := S) (m := m) (E := Z))) l) K) as (it & K & R & P1 & P2 & P3 & P4).
    { apply mst_finds with (hint := (0, @None Z)); auto.
      - exact cell_dec.
      - apply (ks_bound SZ FX g nf ef B).
      - rewrite LL. apply (ks_length SZ).
      - intros e He. apply V2; auto.
      - intros e He. apply V2; auto.
      - intros e He. eapply (ks_ends ef). apply V2; auto.
      - apply (c43_references SZ FX B). }
    exists it, K, R. split; auto. split; auto. split; auto.
      assert (EQ : map (see (@sr_weight Z) (sq_src (ix := ix) (S := S) (m := m) (E := Z))
        (sq_tgt (ix := ix) (S := S) (m := m) (E := Z))) l = map plain_view (sq_all_edges S h v ef))
        by exact V1.
      rewrite EQ in P4. split; auto.
      assert (HC : Connects (sq_nodes h v) (map plain_view (sq_all_edges S h v ef))).
      { intros a b Ha Hb. apply sq_in_nodes in Ha, Hb. unfold Spec7.ends. rewrite map_map.
        apply (ks_linked (m := m) (ix := ix) SZ FX ef a b Ha Hb). }
      split; [eapply mst_connects; eauto|].
      eapply mst_length; eauto; [exact cell_dec|].
      intros a b w Hi. apply (ks_ends ef a b w Hi).
  Qed.
End SqTree.
