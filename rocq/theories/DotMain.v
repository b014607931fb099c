(** * DotMain: what [Dot] writes of the two graphs (C135, C136). *)

From Verif Require Import Machine Store Axes Shapes Lattice SquareGraph Traverse Spec SpecSquare
  Spec4 Spec5 Basics AxisProofs GeoProofs ShapeProofs StoreProofs GraphProofs RepProofs
  EdgeProofs VisitProofs Main1 Main2 TraverseProofs AnySearch SquareProofs SquareIter
  SquareMain HandshakeProofs SquareSearch AstarMain KruskalMain FloydMain Dot Spec29.
From Coq Require Import Permutation ZifyBool ZifyNat.

Lemma fold_map : forall X Y (f : X -> Y) (body : list Y -> X -> outcome (list Y)) l out,
  (forall out x, In x l -> body out x = Ok (out ++ [f x])) ->
  fold_outcome body l out = Ok (out ++ map f l).
Proof.
  intros X Y f body l. induction l as [|x l IH]; intros out H; cbn [fold_outcome map].
  - rewrite app_nil_r. reflexivity.
  - rewrite H by (left; auto). cbn [bind]. rewrite IH; [rewrite <- app_assoc; reflexivity|].
    intros o y Hy. apply H. right. auto.
Qed.

Lemma numbered_map : forall X Y (f : X -> Y) nodes num, Numbers nodes num ->
  map (fun c => (num c, f c)) nodes = numbered (map f nodes).
Proof.
  intros X Y f nodes num H. unfold numbered. rewrite map_length.
  assert (K : forall k l, (forall i c, nth_error l i = Some c -> num c = Z.of_nat (k + i)) ->
    map (fun c => (num c, f c)) l = combine (map Z.of_nat (seq k (length l))) (map f l)).
  { intros k l. revert k. induction l as [|c l IH]; intros k Hl; [reflexivity|].
    cbn [map length seq combine]. f_equal.
    - f_equal. rewrite (Hl 0%nat c eq_refl). f_equal. lia.
    - apply IH. intros i x Hx. rewrite (Hl (Datatypes.S i) x Hx). f_equal. lia. }
  apply (K 0%nat). exact H.
Qed.

(** ** Any graph *)

Section Any.
  Context {C N E Nodes Edges R : Type} (directed : bool) (to_index : C -> outcome Z)
    (nodes : Nodes) (nodes_next : Nodes -> outcome (option (C * N) * Nodes))
    (edges : Edges) (edges_next : Edges -> outcome (option R * Edges))
    (source target : R -> outcome C) (weight : R -> E)
    (board : list C) (nf : C -> N) (es : list R) (src tgt : R -> C)
    (HN : Drains nodes_next nodes (map (fun c => (c, nf c)) board))
    (HE : Drains edges_next edges es)
    (HNL : Z.of_nat (length board) + 1 < 2 ^ 72) (HEL : Z.of_nat (length es) + 1 < 2 ^ 72)
    (HI : forall i c, nth_error board i = Some c -> to_index c = Ok (Z.of_nat i))
    (HS : forall e, In e es -> source e = Ok (src e) /\ In (src e) board)
    (HT : forall e, In e es -> target e = Ok (tgt e) /\ In (tgt e) board).

  Lemma dot_ok : forall num, Numbers board num ->
    dot directed to_index nodes nodes_next edges edges_next source target weight =
    Ok (mkDot directed (numbered (map nf board))
      (map (fun e => (num (src e), num (tgt e), weight e)) es)).
  Proof.
    intros num HNum.
    assert (K : forall c, In c board -> to_index c = Ok (num c)).
    { intros c Hc. destruct (In_nth_error _ _ Hc) as (i & Hi). rewrite (HI i c Hi), (HNum i c Hi). auto. }
    unfold dot.
    rewrite (for_each_exact _ _ _ _ _ _ _ _ HN) by (rewrite map_length; auto).
    rewrite (fold_map _ _ (fun p => (num (fst p), snd p))).
    2:{ intros out [c w] Hc. apply in_map_iff in Hc. destruct Hc as (x & [= <- <-] & Hx).
        cbn [fst snd]. rewrite K by auto. reflexivity. }
    cbn [bind app]. rewrite map_map. cbn [fst snd].
    rewrite (for_each_exact _ _ _ _ _ _ _ _ HE HEL).
    rewrite (fold_map _ _ (fun e => (num (src e), num (tgt e), weight e))).
    2:{ intros out e He. destruct (HS e He) as [S1 S2], (HT e He) as [T1 T2].
        rewrite S1. cbn [bind]. rewrite K by auto. cbn [bind]. rewrite T1. cbn [bind].
        rewrite K by auto. reflexivity. }
    cbn [bind app]. rewrite (numbered_map _ _ nf _ _ HNum). reflexivity.
  Qed.
End Any.

(** ** LatticeGraph *)

Lemma c135_text : forall A D N E (m : mode) (s : Shape Cell A D) (G : Geometry A D), Supported s G ->
  forall (g : LatticeGraph Cell A D N E) nf ef, Built m s G g nf ef ->
  exists t,
    dot (is_directed g) (to_index m g) (node_references g) (node_references_next m g)
      (edge_references g) (edge_references_next m g) (fun e => Ok (er_source e))
      (fun e => Ok (er_target e)) er_weight = Ok t /\
    dot_directed t = is_directed g /\
    dot_nodes t = numbered (map nf (geo_nodes G)) /\
    forall num eb, Numbers (geo_nodes G) num ->
    (forall c, In c (geo_nodes G) -> exists it, edges m g c = Ok it /\ Drains (edges_next m g) it (eb c)) ->
    Permutation
      (flat_map (fun c => map (fun r => (num c, num (er_target r), er_weight r)) (eb c)) (geo_nodes G))
      (dot_edges t ++ if dot_directed t then [] else map swapped (dot_edges t)).
Proof.
  intros A D N E m s G SUP g nf ef HB. pose proof (st_supported _ _ _ _ SUP) as STO.
  destruct (c05 STO g nf ef HB) as (B1 & B2 & B3 & B4).
  set (n0 := fun c => match to_index m g c with Ok z => z | Fail _ => 0 end).
  assert (HN0 : Numbers (geo_nodes G) n0).
  { intros i c Hi. unfold n0. rewrite (proj1 (B4 i c Hi)). reflexivity. }
  set (refs := spec_edge_references G ef).
  assert (HC : forall e, In e refs -> In (er_source e) (geo_nodes G) /\ In (er_target e) (geo_nodes G)).
  { intros e He. exact (kl_ends (G := G) ef (sup_closed SUP E ef) e He). }
  eexists. split.
  { apply (dot_ok (is_directed g) (to_index m g) (node_references g) (node_references_next m g)
      (edge_references g) (edge_references_next m g) (fun e => Ok (er_source e))
      (fun e => Ok (er_target e)) er_weight (geo_nodes G) nf refs er_source er_target).
    - apply (c07 STO g nf ef HB).
    - apply (c15_drains STO g nf ef HB).
    - pose proof (stored_few STO). lia.
    - apply (kl_length (m := m) STO ef).
    - intros i c Hi. apply B4. auto.
    - intros e He. split; auto. apply HC; auto.
    - intros e He. split; auto. apply HC; auto.
    - exact HN0. }
  cbn [dot_directed dot_nodes dot_edges]. split; [reflexivity|]. split; [reflexivity|].
  intros num eb HNum HEB.
  assert (EQ : forall c, In c (geo_nodes G) -> n0 c = num c).
  { intros c Hc. destruct (In_nth_error _ _ Hc) as (i & Hi). rewrite (HN0 i c Hi), (HNum i c Hi). auto. }
  pose proof (c75_edges (m := m) SUP g nf ef HB (geo_nodes G) refs eb (c06 STO g nf ef HB)
    (c15_drains STO g nf ef HB) HEB) as P.
  apply (Permutation_map (fun x : Cell * Cell * E => let '(a, b, w) := x in (num a, num b, w))) in P.
  rewrite map_map, map_app in P. 
  assert (E1 : map (fun e => (n0 (er_source e), n0 (er_target e), er_weight e)) refs =
    map (fun x : Cell * Cell * E => let '(a, b, w) := x in (num a, num b, w)) (map seen refs)).
  { rewrite map_map. apply map_ext_in. intros e He. destruct (HC e He). cbn [seen]. rewrite !EQ by auto. auto. }
  rewrite E1.
  assert (E2 : flat_map (fun c => map (fun r => (num c, num (er_target r), er_weight r)) (eb c)) (geo_nodes G) =
    map (fun r => let '(a, b, w) := seen r in (num a, num b, w)) (flat_map eb (geo_nodes G))).
  { clear P. rewrite !flat_map_concat_map, concat_map, map_map. f_equal. apply map_ext_in. intros c Hc.
    apply map_ext_in. intros r Hr. unfold seen.
    destruct (HEB c Hc) as (it & I1 & I2).
    replace (er_source r) with c; auto. symmetry.
    destruct (c12 (m := m) (tr_supported _ _ _ _ SUP) g nf ef c HB Hc) as (it' & J1 & J2).
    rewrite I1 in J1. injection J1 as <-. rewrite (Drains_det _ _ _ _ I2 J2) in Hr.
    exact (edges_source _ _ _ Hr). }
  rewrite E2. eapply Permutation_trans; [exact P|]. apply Permutation_app_head.
  destruct (is_directed g); [reflexivity|]. rewrite !map_map. reflexivity.
Qed.

(** ** SquareGraph *)

Section Sq.
  Context {N E : Type} {ix : IxType} {S : LoopShape} {m : mode} {h v : Z}
    (SZ : sq_size S h v) (FX : sq_index_fits ix h v).
  Context (g : SquareGraph N E ix S) (nf : NodeIndex -> N) (ef : EdgeIndex -> E)
    (B : SqBuilt m h v g nf ef).
  Notation nodes := (sq_nodes h v).
  Notation all := (sq_all_edges S h v ef).

  Lemma c136_text : exists t,
    dot (sg_is_directed g) (sg_to_index m g) (sg_node_references g)
      (sg_node_references_next (ix := ix) m) (sg_edge_references g) (sg_edge_references_next m g)
      (sr_source (ix := ix) (S := S) m) (sr_target (ix := ix) (S := S) m) sr_weight = Ok t /\
    dot_directed t = false /\
    dot_nodes t = numbered (map nf nodes) /\
    forall num eb, Numbers nodes num ->
    (forall n, on_board h v n -> Drains (sg_edges_next m g) (sg_edges g n) (eb n)) ->
    exists views, map (sq_view ix S m) (flat_map eb nodes) = map Ok views /\
      Permutation (map (fun x => let '(a, b, w) := plain_view x in (num a, num b, w)) views)
        (dot_edges t ++ map swapped (dot_edges t)).
  Proof using SZ FX B.
    destruct (c46 SZ FX B) as (l & L1 & L2). destruct (ks_views ef l L2) as (V1 & V2).
    destruct (c43_order SZ B) as (O1 & O2 & O3).
    assert (LL : length l = length all).
    { apply (f_equal (@length _)) in L2. rewrite !map_length in L2. auto. }
    set (n0 := fun c => match sg_to_index m g c with Ok z => z | Fail _ => 0 end).
    assert (HN0 : Numbers nodes n0).
    { intros i c Hi. unfold n0. rewrite (O3 i c Hi). reflexivity. }
    assert (HC : forall e, In e l -> In (sq_src (ix := ix) (S := S) (m := m) e) nodes /\
      In (sq_tgt (ix := ix) (S := S) (m := m) e) nodes).
    { intros e He. destruct (V2 e He) as (_ & _ & V3). eapply (ks_ends ef); exact V3. }
    eexists. split.
    { apply (dot_ok (sg_is_directed g) (sg_to_index m g) (sg_node_references g)
        (sg_node_references_next (ix := ix) m) (sg_edge_references g) (sg_edge_references_next m g)
        (sr_source (ix := ix) (S := S) m) (sr_target (ix := ix) (S := S) m) sr_weight
        nodes nf l (sq_src (ix := ix) (S := S) (m := m)) (sq_tgt (ix := ix) (S := S) (m := m))).
      - apply (c43_references SZ FX B).
      - exact L1.
      - pose proof (sq_nodes_few SZ). change (2 ^ 63) with 9223372036854775808 in *.
        change (2 ^ 72) with 4722366482869645213696. lia.
      - rewrite LL. apply (ks_length SZ ef).
      - exact O3.
      - intros e He. destruct (V2 e He) as (V3 & _). split; auto. apply HC; auto.
      - intros e He. destruct (V2 e He) as (_ & V3 & _). split; auto. apply HC; auto.
      - exact HN0. }
    cbn [dot_directed dot_nodes dot_edges]. split; [reflexivity|]. split; [reflexivity|].
    intros num eb HNum HEB.
    assert (EQ : forall c, In c nodes -> n0 c = num c).
    { intros c Hc. destruct (In_nth_error _ _ Hc) as (i & Hi). rewrite (HN0 i c Hi), (HNum i c Hi). auto. }
    set (f := fun x : NodeIndex * NodeIndex * E => let '(a, b, w) := x in (num a, num b, w)).
    assert (E1 : map (fun e => (n0 (sq_src (ix := ix) (S := S) (m := m) e),
      n0 (sq_tgt (ix := ix) (S := S) (m := m) e), sr_weight e)) l = map f (map plain_view all)).
    { rewrite <- V1, map_map. apply map_ext_in. intros e He. destruct (HC e He). cbn [f].
      rewrite !EQ by auto. auto. }
    rewrite E1.
    assert (K : exists views, map (sq_view ix S m) (flat_map eb nodes) = map Ok views /\
      Permutation views (all ++ map view_back all)).
    { destruct (Z_lt_le_dec 0 v) as [Hv|Hv].
      - destruct (c76 SZ FX ltac:(lia) g nf ef B nodes l eb) as (vs & al & K1 & K2 & K3).
        + apply (c43_identifiers SZ FX B). lia.
        + exact L1.
        + intros n Hn. apply HEB. apply O2. auto.
        + exists vs. split; auto. rewrite L2 in K2.
          assert (al = all) as ->; auto. clear - K2. revert al K2.
          induction all as [|x xs IH]; intros [|y ys] H; try discriminate; auto.
          cbn [map] in H. injection H as -> H. f_equal. symmetry. symmetry in H. rewrite (IH ys); auto.
      - assert (EN : nodes = []).
        { destruct nodes eqn:En; auto. pose proof (sq_nodes_length SZ) as HN. rewrite En in HN.
          cbn [length] in HN. destruct SZ as (Z1 & Z2 & _). nia. }
        unfold sq_all_edges. rewrite EN. exists []. split; constructor. }
    destruct K as (views & K1 & K2). exists views. split; auto.
    apply (Permutation_map (fun x => f (plain_view x))) in K2.
    replace (map (fun x => let '(a, b, w) := plain_view x in (num a, num b, w)) views)
      with (map (fun x => f (plain_view x)) views) by reflexivity.
    eapply Permutation_trans; [exact K2|]. rewrite map_app, !map_map. apply Permutation_app_head.
    match goal with |- Permutation ?x ?y => replace x with y; [reflexivity|] end.
    apply map_ext. intros [[[e w] a] b]. reflexivity.
  Qed.
End Sq.
