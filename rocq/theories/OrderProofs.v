(** * OrderProofs: the derived order of the ids against the order of the indices. *)

From Coq Require Import Sorted.
From Verif Require Import Machine Store Axes Shapes Lattice SquareGraph Spec SpecSquare
  Basics AxisProofs GeoProofs ShapeProofs StoreProofs GraphProofs RepProofs Main1
  SquareProofs SquareIter SquareMain Order Spec12.
From Coq Require Import ZifyBool ZifyNat.
Ltac Zify.zify_post_hook ::= Z.div_mod_to_equations.

Lemma coord_cmp_lt : forall a b, coord_cmp a b = Lt <->
  fst a < fst b \/ fst a = fst b /\ snd a < snd b.
Proof.
  intros [x y] [x' y']. unfold coord_cmp. cbn [fst snd].
  destruct (Z.compare_spec x x'); [rewrite Z.compare_lt_iff|..]; split; intros; try lia; congruence.
Qed.

Lemma coord_cmp_eq : forall a b, coord_cmp a b = Eq <-> a = b.
Proof.
  intros [x y] [x' y']. unfold coord_cmp. cbn [fst snd].
  destruct (Z.compare_spec x x'); split; intros K; try discriminate; try (injection K as ? ?; lia).
  - apply Z.compare_eq in K. congruence.
  - injection K as ? ?. apply Z.compare_eq_iff. auto.
Qed.

Lemma coord_cmp_gt : forall a b, coord_cmp a b = Gt <-> coord_cmp b a = Lt.
Proof.
  intros [x y] [x' y']. unfold coord_cmp. cbn [fst snd].
  rewrite (Z.compare_antisym x x'), (Z.compare_antisym y y').
  destruct (x ?= x'), (y ?= y'); simpl; split; congruence.
Qed.

(** Column by column is the order of the pairs. *)
Lemma rect_cmp : forall h x y x' y', 0 <= y < h -> 0 <= y' < h ->
  coord_cmp (x, y) (x', y') = (x * h + y ?= x' * h + y').
Proof.
  intros h x y x' y' Hy Hy'. unfold coord_cmp. cbn [fst snd].
  destruct (Z.compare_spec x x') as [->|L|L].
  - destruct (Z.compare_spec y y'); symmetry;
      [apply Z.compare_eq_iff|apply Z.compare_lt_iff|apply Z.compare_gt_iff]; lia.
  - symmetry. apply Z.compare_lt_iff. nia.
  - symmetry. apply Z.compare_gt_iff. nia.
Qed.

Section Lat.
  Context {A D N E : Type} {m : mode} {s : Shape Cell A D} {G : Geometry A D}
    (STO : Stored s G) (g : LatticeGraph Cell A D N E) (nf : Cell -> N) (ef : Cell -> A -> E)
    (HB : Built m s G g nf ef) (w h : Z).

  Lemma ord_index : forall cell x y, geo_nodes G = board w h cell ->
    0 <= x < w -> 0 <= y < h -> to_index m g (cell x y) = Ok (x * h + y).
  Proof using STO HB.
    intros cell x y HG Hx Hy. destruct (c05 STO g nf ef HB) as (_ & _ & _ & H).
    destruct (H (Z.to_nat (x * h + y)) (cell x y)) as [H1 _].
    - rewrite HG. apply board_nth; auto.
    - rewrite H1. f_equal. nia.
  Qed.

  Lemma c86_rect : geo_nodes G = board w h (fun x y => (x, y)) ->
    forall a b i j, In a (geo_nodes G) -> In b (geo_nodes G) ->
      to_index m g a = Ok i -> to_index m g b = Ok j -> coord_cmp a b = (i ?= j).
  Proof using STO HB.
    intros HG a b i j Ha Hb Hi Hj. rewrite HG, in_board in Ha, Hb.
    destruct Ha as (x & y & Hx & Hy & ->), Hb as (x' & y' & Hx' & Hy' & ->).
    rewrite (ord_index (fun x y => (x, y)) x y HG) in Hi by auto.
    rewrite (ord_index (fun x y => (x, y)) x' y' HG) in Hj by auto.
    injection Hi as <-. injection Hj as <-. apply rect_cmp; auto.
  Qed.

  Lemma c86_axial : forall co, geo_nodes G = board w h (axial_cell co) -> co = 0 \/ co = 1 ->
    (forall a b i j, In a (geo_nodes G) -> In b (geo_nodes G) ->
      to_index m g a = Ok i -> to_index m g b = Ok j -> coord_cmp a b = (i ?= j)) <->
    (w <= 0 \/ h + co <= 2).
  Proof using STO HB.
    intros co HG Hco. split.
    - intros H. destruct (Z_le_gt_dec w 0) as [|Hw]; [auto|]. right.
      destruct (Z_le_gt_dec (h + co) 2) as [|Hh]; [auto|]. exfalso.
      assert (In1 : forall y, 0 <= y < h -> In (axial_cell co 0 y) (geo_nodes G)).
      { intros y Hy. rewrite HG, in_board. exists 0, y. repeat split; auto; lia. }
      assert (K : coord_cmp (axial_cell co 0 (1 - co)) (axial_cell co 0 (2 - co))
                  = (0 * h + (1 - co) ?= 0 * h + (2 - co))).
      { apply H; [apply In1; lia|apply In1; lia| |].
        - apply (ord_index _ 0 (1 - co) HG); lia.
        - apply (ord_index _ 0 (2 - co) HG); lia. }
      rewrite (proj2 (Z.compare_lt_iff _ _)) in K by lia.
      apply coord_cmp_lt in K. unfold axial_cell in K. cbn [fst snd] in K.
      replace (1 - co + co) with 1 in K by lia. replace (2 - co + co) with 2 in K by lia.
      change (1 / 2) with 0 in K. change (2 / 2) with 1 in K. lia.
    - intros HW a b i j Ha Hb Hi Hj. rewrite HG, in_board in Ha, Hb.
      destruct Ha as (x & y & Hx & Hy & ->), Hb as (x' & y' & Hx' & Hy' & ->).
      rewrite (ord_index _ x y HG) in Hi by auto. rewrite (ord_index _ x' y' HG) in Hj by auto.
      injection Hi as <-. injection Hj as <-. unfold axial_cell.
      replace ((y + co) / 2) with 0 by lia. replace ((y' + co) / 2) with 0 by lia.
      rewrite !Z.sub_0_r. apply rect_cmp; auto.
  Qed.

  Lemma c86_double : geo_nodes G = board w h double_cell ->
    (forall a b i j, In a (geo_nodes G) -> In b (geo_nodes G) ->
      to_index m g a = Ok i -> to_index m g b = Ok j -> coord_cmp a b = (i ?= j)) <->
    (w <= 0 \/ h <= 2).
  Proof using STO HB.
    intros HG. split.
    - intros H. destruct (Z_le_gt_dec w 0) as [|Hw]; [auto|]. right.
      destruct (Z_le_gt_dec h 2) as [|Hh]; [auto|]. exfalso.
      assert (In1 : forall y, 0 <= y < h -> In (double_cell 0 y) (geo_nodes G)).
      { intros y Hy. rewrite HG, in_board. exists 0, y. repeat split; auto; lia. }
      assert (K : coord_cmp (double_cell 0 1) (double_cell 0 2) = (0 * h + 1 ?= 0 * h + 2)).
      { apply H; [apply In1; lia|apply In1; lia| |].
        - apply (ord_index _ 0 1 HG); lia.
        - apply (ord_index _ 0 2 HG); lia. }
      rewrite (proj2 (Z.compare_lt_iff _ _)) in K by lia. vm_compute in K. discriminate.
    - intros HW a b i j Ha Hb Hi Hj. rewrite HG, in_board in Ha, Hb.
      destruct Ha as (x & y & Hx & Hy & ->), Hb as (x' & y' & Hx' & Hy' & ->).
      rewrite (ord_index _ x y HG) in Hi by auto. rewrite (ord_index _ x' y' HG) in Hj by auto.
      injection Hi as <-. injection Hj as <-. unfold double_cell.
      rewrite <- rect_cmp by auto. unfold coord_cmp. cbn [fst snd].
      rewrite !Z.mod_small by lia.
      destruct (Z.compare_spec x x') as [->|L|L].
      + destruct (Z.compare_spec y y') as [->|L|L].
        * rewrite Z.compare_refl. reflexivity.
        * rewrite (proj2 (Z.compare_lt_iff _ _)) by lia. reflexivity.
        * rewrite (proj2 (Z.compare_gt_iff _ _)) by lia. reflexivity.
      + rewrite (proj2 (Z.compare_lt_iff _ _)) by lia. reflexivity.
      + rewrite (proj2 (Z.compare_gt_iff _ _)) by lia. reflexivity.
  Qed.
End Lat.

Lemma co_r_01 : forall b, co_r b = 0 \/ co_r b = 1.
Proof. destruct b; auto. Qed.
Lemma co_q_01 : forall b, co_q b = 0 \/ co_q b = 1.
Proof. destruct b; auto. Qed.

Lemma c86_layouts : forall (A D : Type) (s : Shape Cell A D) (G : Geometry A D), Stored s G ->
  exists w h, 0 <= w /\ 0 <= h /\
    (geo_nodes G = board w h (fun x y => (x, y)) \/
     (exists co, (co = 0 \/ co = 1) /\ geo_nodes G = board w h (axial_cell co)) \/
     geo_nodes G = board w h double_cell).
Proof.
  intros A D s G STO. destruct STO as [A D s G SUP| | | | | | | |];
    [destruct SUP|..]; exists w, h;
    (match goal with F : fits _ _ |- _ => destruct F as (F1 & F2 & _) end);
    (split; [assumption|]); (split; [assumption|]); cbn;
    solve [left; reflexivity | right; right; reflexivity |
           right; left; eexists; split; [|reflexivity]; auto using co_r_01, co_q_01].
Qed.

(** ** [SquareGraph] *)

Lemma c87_nodes : forall (N E : Type) (ix : IxType) (S : LoopShape) (m : mode) (h v : Z),
  sq_size S h v ->
  forall (g : SquareGraph N E ix S) nf ef, SqBuilt m h v g nf ef ->
  forall a b i j, on_board h v a -> on_board h v b ->
    sg_to_index m g a = Ok i -> sg_to_index m g b = Ok j -> coord_cmp a b = (i ?= j).
Proof.
  intros N E ix S m h v SZ g nf ef HB [x y] [x' y'] i j [Hx Hy] [Hx' Hy'] Hi Hj.
  cbn [fst snd] in *.
  destruct (c43_order SZ HB) as (_ & _ & H).
  assert (K : forall x y, 0 <= x < h -> 0 <= y < v -> sg_to_index m g (x, y) = Ok (x * v + y)).
  { intros x0 y0 Hx0 Hy0. rewrite (H (Z.to_nat (x0 * v + y0)) (x0, y0)).
    - f_equal. nia.
    - apply (board_nth h v (fun x y => (x, y))); auto. }
  rewrite K in Hi, Hj by auto. injection Hi as <-. injection Hj as <-. apply rect_cmp; auto.
Qed.

Notation lt_e := (fun a b => edge_index_cmp a b = Lt).

Lemma sorted_app : forall X (R : X -> X -> Prop) l1 l2,
  StronglySorted R l1 -> StronglySorted R l2 ->
  (forall a b, In a l1 -> In b l2 -> R a b) -> StronglySorted R (l1 ++ l2).
Proof.
  induction l1; intros l2 H1 H2 H; simpl; auto.
  inversion H1; subst. constructor.
  - apply IHl1; auto. intros; apply H; simpl; auto.
  - apply Forall_app. split; auto. apply Forall_forall. intros; apply H; simpl; auto.
Qed.

Lemma sorted_flat_map : forall X Y (R : Y -> Y -> Prop) (Q : X -> X -> Prop) (f : X -> list Y) l,
  StronglySorted Q l -> (forall x, In x l -> StronglySorted R (f x)) ->
  (forall a b, In a l -> In b l -> Q a b ->
     forall y z, In y (f a) -> In z (f b) -> R y z) ->
  StronglySorted R (flat_map f l).
Proof.
  induction l; intros HS HF HR; simpl; [constructor|].
  inversion HS; subst. apply sorted_app.
  - apply HF; simpl; auto.
  - apply IHl; auto; intros; [apply HF|eapply HR with (a := a0) (b := b)]; simpl; eauto.
  - intros y z Hy Hz. apply in_flat_map in Hz. destruct Hz as (b & Hb & Hz).
    rewrite Forall_forall in H2. apply HR with (a := a) (b := b); simpl; auto.
Qed.

Lemma sorted_zrange : forall n, StronglySorted Z.lt (zrange n).
Proof.
  intros n. destruct (Z_le_gt_dec n 0) as [L|L]; [rewrite zrange_nonpos by auto; constructor|].
  assert (K : forall k, 0 <= k -> StronglySorted Z.lt (zrange k)).
  { apply natlike_ind; [constructor|]. intros k Hk IH. unfold Z.succ.
    rewrite zrange_succ by auto. apply sorted_app; auto.
    - repeat constructor.
    - intros a b Ha [<-|[]]. apply in_zrange in Ha. lia. }
  apply K; lia.
Qed.

Lemma sorted_nodes : forall h v, StronglySorted (fun a b => coord_cmp a b = Lt) (sq_nodes h v).
Proof.
  intros h v. unfold sq_nodes, board. apply sorted_flat_map with (Q := Z.lt).
  - apply sorted_zrange.
  - intros x _.
    pose proof (sorted_zrange v) as K. induction K as [|y l K IH F]; [constructor|].
    cbn [map]. constructor; [exact IH|]. apply Forall_map. eapply Forall_impl; [|exact F].
    intros z L. apply coord_cmp_lt. simpl. lia.
  - intros a b _ _ L y z Hy Hz. apply in_map_iff in Hy, Hz.
    destruct Hy as (? & <- & _), Hz as (? & <- & _). apply coord_cmp_lt. simpl. lia.
Qed.

Lemma c87_edges : forall (E : Type) (S : LoopShape) (h v : Z) (ef : EdgeIndex -> E),
  StronglySorted lt_e (map view_id (sq_all_edges S h v ef)).
Proof.
  intros E S h v ef. unfold sq_all_edges. rewrite flat_map_concat_map, concat_map, map_map,
    <- flat_map_concat_map.
  assert (V : forall n a x, In x (map view_id
      (match sq_edge_view S h v ef n (Foward a) with Some x => [x] | None => [] end)) -> x = (n, a)).
  { intros n a x. unfold sq_edge_view. destruct sq_neighbour; simpl; [|tauto].
    intros [<-|[]]. reflexivity. }
  apply sorted_flat_map with (Q := fun a b => coord_cmp a b = Lt); [apply sorted_nodes| |].
  - intros n _. rewrite flat_map_concat_map, concat_map, map_map, <- flat_map_concat_map.
    apply sorted_flat_map with (Q := fun a b => sq_axis_cmp a b = Lt).
    + repeat constructor.
    + intros a _. destruct sq_edge_view; repeat constructor.
    + intros a b _ _ L y z Hy Hz. apply V in Hy, Hz. subst. unfold edge_index_cmp. cbn [fst snd].
      rewrite (proj2 (coord_cmp_eq n n)) by auto. exact L.
  - intros n n' _ _ L y z Hy Hz.
    apply in_map_iff in Hy, Hz. destruct Hy as (y0 & <- & Hy), Hz as (z0 & <- & Hz).
    apply in_flat_map in Hy, Hz. destruct Hy as (a & _ & Hy), Hz as (b & _ & Hz).
    apply (in_map view_id) in Hy, Hz. apply V in Hy, Hz. rewrite Hy, Hz.
    unfold edge_index_cmp. cbn [fst snd]. rewrite L. reflexivity.
Qed.

(** Sorted lists: items compare like their places. *)
Lemma sorted_in_order : forall X (cmp : X -> X -> comparison),
  (forall a, cmp a a = Eq) -> (forall a b, cmp a b = Gt <-> cmp b a = Lt) ->
  forall l, StronglySorted (fun a b => cmp a b = Lt) l -> in_order cmp l.
Proof.
  intros X cmp Hr Hg l HS.
  assert (K : forall i j a b, (i < j)%nat -> nth_error l i = Some a -> nth_error l j = Some b ->
    cmp a b = Lt).
  { induction HS as [|x l HS IH F]; intros i j a b L Ha Hb.
    - destruct i; discriminate.
    - destruct j as [|j]; [lia|]. destruct i as [|i]; simpl in *.
      + injection Ha as <-. rewrite Forall_forall in F. apply F. eapply nth_error_In; eauto.
      + apply (IH i j); auto; lia. }
  intros i j a b Ha Hb. destruct (Nat.compare_spec i j) as [->|L|L].
  - rewrite Ha in Hb. injection Hb as <-. apply Hr.
  - eapply K; eauto.
  - apply Hg. eapply K; eauto.
Qed.

Lemma in_order_sorted : forall X (cmp : X -> X -> comparison) l, in_order cmp l ->
  StronglySorted (fun a b => cmp a b = Lt) l.
Proof.
  intros X cmp l. induction l as [|x l IH]; intros H; constructor.
  - apply IH. intros i j a b Ha Hb. apply (H (S i) (S j) a b); auto.
  - apply Forall_forall. intros y Hy. apply In_nth_error in Hy. destruct Hy as (j & Hj).
    rewrite (H 0%nat (S j) x y); auto.
Qed.

Lemma coord_cmp_refl : forall a, coord_cmp a a = Eq.
Proof. intros. apply coord_cmp_eq. reflexivity. Qed.

Lemma edge_index_cmp_refl : forall a, edge_index_cmp a a = Eq.
Proof. intros [n []]; unfold edge_index_cmp; rewrite coord_cmp_refl; reflexivity. Qed.

Lemma edge_index_cmp_gt : forall a b, edge_index_cmp a b = Gt <-> edge_index_cmp b a = Lt.
Proof.
  intros [n a] [n' a']. unfold edge_index_cmp. cbn [fst snd].
  destruct (coord_cmp n n') eqn:K.
  - apply coord_cmp_eq in K. subst. rewrite coord_cmp_refl. destruct a, a'; simpl; split; congruence.
  - apply coord_cmp_gt in K. rewrite K. split; congruence.
  - apply coord_cmp_gt in K. rewrite K. split; congruence.
Qed.

Lemma c87_references : forall (N E : Type) (ix : IxType) (S : LoopShape) (m : mode) (h v : Z),
  sq_size S h v -> sq_index_fits ix h v ->
  forall (g : SquareGraph N E ix S) nf ef, SqBuilt m h v g nf ef ->
  exists l, Drains (sg_edge_references_next m g) (sg_edge_references g) l /\
    in_order edge_index_cmp (map sr_id l).
Proof.
  intros N E ix S m h v SZ FX g nf ef B. destruct (c46 SZ FX B) as (l & L1 & L2).
  exists l. split; auto.
  assert (EQ : map sr_id l = map view_id (sq_all_edges S h v ef)).
  { revert L2. generalize (sq_all_edges S h v ef). clear. induction l as [|e l IH]; intros [|x vs] HV;
      try discriminate; [reflexivity|]. cbn [map] in HV. injection HV as HV1 HV2. cbn [map]. f_equal; auto.
    unfold sq_view in HV1. destruct (sr_source m e); [|discriminate]. cbn [bind] in HV1.
    destruct (sr_target m e); [|discriminate]. cbn [bind] in HV1. injection HV1 as <-. reflexivity. }
  rewrite EQ. apply sorted_in_order; [exact edge_index_cmp_refl|exact edge_index_cmp_gt|].
  apply c87_edges.
Qed.

(** ** Axes, directions and the edge ids of [LatticeGraph] *)

Lemma ranked_index : forall (A D : Type) (ax : AxisOps A D) ra rd, Ranked ax ra rd ->
  (forall a, ra a = ax_to_index ax a) /\ (forall d, rd d = dir_to_index (ax_dir ax) d).
Proof. intros A D ax ra rd []; split; intros []; reflexivity. Qed.

Lemma c102_axes : forall (A D : Type) (ax : AxisOps A D) ra rd, Ranked ax ra rd ->
  (forall a b, rank_cmp ra a b = Nat.compare (ax_to_index ax a) (ax_to_index ax b)) /\
  (forall d e, rank_cmp rd d e =
     Nat.compare (dir_to_index (ax_dir ax) d) (dir_to_index (ax_dir ax) e)) /\
  (forall a b, rank_cmp ra a b = Eq <-> a = b) /\
  (forall d e, rank_cmp rd d e = Eq <-> d = e).
Proof.
  intros A D ax ra rd K. destruct (ranked_index _ _ _ _ _ K) as [H1 H2].
  split; [intros; unfold rank_cmp; rewrite !H1; reflexivity|].
  split; [intros; unfold rank_cmp; rewrite !H2; reflexivity|].
  destruct K; split; intros [] []; split; intros T; try discriminate; reflexivity.
Qed.

Lemma c102_ranked : forall (A D : Type) (s : Shape Cell A D) (G : Geometry A D), Stored s G ->
  exists ra rd, Ranked (sh_axis s) ra rd.
Proof.
  intros A D s G STO. destruct STO as [A D s G SUP| | | | | | | |];
    [destruct SUP|..]; eexists; eexists; constructor.
Qed.

Lemma axes_sorted : forall (A D : Type) (s : Shape Cell A D) (G : Geometry A D), Stored s G ->
  StronglySorted (fun a b => (ax_to_index (sh_axis s) a < ax_to_index (sh_axis s) b)%nat)
    (ag_axes (geo_ax G)).
Proof.
  intros A D s G STO. destruct STO as [A D s G SUP| | | | | | | |];
    [destruct SUP|..]; cbn; repeat constructor.
Qed.

Section Ids.
  Context {A D N E : Type} {m : mode} {s : Shape Cell A D} {G : Geometry A D}
    (STO : Stored s G) (g : LatticeGraph Cell A D N E) (nf : Cell -> N) (ef : Cell -> A -> E)
    (HB : Built m s G g nf ef) (ra : A -> nat) (rd : D -> nat) (HR : Ranked (sh_axis s) ra rd).

  Lemma edge_id_cmp_refl : forall a, edge_id_cmp ra a a = Eq.
  Proof.
    intros [c a]. unfold edge_id_cmp, rank_cmp. rewrite coord_cmp_refl. apply Nat.compare_refl.
  Qed.

  Lemma edge_id_cmp_gt : forall a b, edge_id_cmp ra a b = Gt <-> edge_id_cmp ra b a = Lt.
  Proof.
    intros [n a] [n' a']. unfold edge_id_cmp, rank_cmp. cbn [fst snd].
    destruct (coord_cmp n n') eqn:K.
    - apply coord_cmp_eq in K. subst. rewrite coord_cmp_refl, (Nat.compare_antisym (ra a') (ra a)).
      destruct (Nat.compare (ra a') (ra a)); simpl; split; congruence.
    - apply coord_cmp_gt in K. rewrite K. split; congruence.
    - apply coord_cmp_gt in K. rewrite K. split; congruence.
  Qed.

  Lemma nodes_in_order :
    (forall a b i j, In a (geo_nodes G) -> In b (geo_nodes G) ->
      to_index m g a = Ok i -> to_index m g b = Ok j -> coord_cmp a b = (i ?= j)) ->
    StronglySorted (fun a b => coord_cmp a b = Lt) (geo_nodes G).
  Proof using STO HB.
    intros H. apply in_order_sorted. intros i j a b Ha Hb.
    destruct (c05 STO g nf ef HB) as (_ & _ & _ & K).
    rewrite (H a b (Z.of_nat i) (Z.of_nat j)).
    - destruct (Nat.compare_spec i j);
        [apply Z.compare_eq_iff|apply Z.compare_lt_iff|apply Z.compare_gt_iff]; lia.
    - eapply nth_error_In; eauto.
    - eapply nth_error_In; eauto.
    - apply K; auto.
    - apply K; auto.
  Qed.

  Lemma names_sorted : StronglySorted (fun a b => coord_cmp a b = Lt) (geo_nodes G) ->
    StronglySorted (fun a b => edge_id_cmp ra a b = Lt) (spec_edge_names G).
  Proof using STO HR.
    intros HS. destruct (ranked_index _ _ _ _ _ HR) as [RA _].
    assert (V : forall c (a : A) x, In x
      (match geo_step G c (ag_fwd (geo_ax G) a) with Some _ => [(c, a)] | None => [] end) ->
      x = (c, a)).
    { intros c a x. destruct geo_step; simpl; [|tauto]. intros [<-|[]]. reflexivity. }
    unfold spec_edge_names.
    apply sorted_flat_map with (Q := fun a b => coord_cmp a b = Lt); [exact HS| |].
    - intros c _.
      apply sorted_flat_map with (Q := fun a b =>
        (ax_to_index (sh_axis s) a < ax_to_index (sh_axis s) b)%nat); [apply (axes_sorted _ _ _ _ STO)| |].
      + intros a _. destruct geo_step; repeat constructor.
      + intros a b _ _ L y z Hy Hz. apply V in Hy, Hz. subst. unfold edge_id_cmp, rank_cmp.
        cbn [fst snd]. rewrite coord_cmp_refl, !RA. apply Nat.compare_lt_iff. exact L.
    - intros c c' _ _ L y z Hy Hz. apply in_flat_map in Hy, Hz.
      destruct Hy as (a & _ & Hy), Hz as (b & _ & Hz). apply V in Hy, Hz. subst.
      unfold edge_id_cmp. cbn [fst snd]. rewrite L. reflexivity.
  Qed.

  Lemma c102_edges :
    (forall a b i j, In a (geo_nodes G) -> In b (geo_nodes G) ->
      to_index m g a = Ok i -> to_index m g b = Ok j -> coord_cmp a b = (i ?= j)) ->
    exists l ids, Drains (edge_references_next m g) (edge_references g) l /\
      map (er_id m s) l = map Ok ids /\ in_order (edge_id_cmp ra) ids.
  Proof using STO HB HR.
    intros H. exists (spec_edge_references G ef), (spec_edge_names G).
    pose proof (c15_drains STO g nf ef HB) as DR.
    split; [exact DR|]. split; [exact (c15_ids STO g nf ef _ HB DR)|].
    apply sorted_in_order; [exact edge_id_cmp_refl|exact edge_id_cmp_gt|].
    apply names_sorted, nodes_in_order, H.
  Qed.
End Ids.

(** ** Axial boards *)

Lemma sorted_flat_map_inv : forall X Y (R : Y -> Y -> Prop) (f : X -> list Y) l,
  StronglySorted R (flat_map f l) ->
  forall i j x y u v, (i < j)%nat -> nth_error l i = Some x -> nth_error l j = Some y ->
  In u (f x) -> In v (f y) -> R u v.
Proof.
  intros X Y R f. induction l as [|z l IH]; intros HS i j x y u v L Hx Hy Hu Hv.
  - destruct i; discriminate.
  - cbn [flat_map] in HS. destruct j as [|j]; [lia|]. cbn [nth_error] in Hy.
    assert (SP : forall l1 l2, StronglySorted R (l1 ++ l2) -> StronglySorted R l2 /\
      forall a b, In a l1 -> In b l2 -> R a b).
    { clear. induction l1 as [|a l1 IH]; intros l2 H; [split; [exact H|intros a b []]|].
      simpl in H. inversion H as [|? ? H1 H2]; subst. destruct (IH _ H1) as [K1 K2].
      split; [exact K1|]. intros b c [<-|Hb] Hc; [|auto].
      rewrite Forall_forall in H2. apply H2, in_or_app. auto. }
    destruct (SP _ _ HS) as [S1 S2]. destruct i as [|i]; cbn [nth_error] in Hx.
    + injection Hx as <-. apply S2; [exact Hu|]. apply in_flat_map. exists y. split; [|exact Hv].
      eapply nth_error_In; eauto.
    + apply (IH S1 i j x y); auto; lia.
Qed.

Lemma place_step_some : forall A D (ax : AxisGeo A D) nodes pos period c d c',
  In c' nodes -> same_place period (vadd (pos c) (ag_vec ax d)) (pos c') = true ->
  place_step ax nodes pos period c d <> None.
Proof.
  intros A D ax nodes pos period c d c' H1 H2 H3. unfold place_step in H3.
  eapply find_none in H3; [|exact H1]. cbv beta in H3. congruence.
Qed.

(** Two cells of the first column that both begin an edge, the later one with the smaller
    coordinate. *)
Lemma axial_disorder : forall (A D : Type) (G : Geometry A D) (ra : A -> nat) co w h y y' a a',
  geo_nodes G = board w h (axial_cell co) -> 0 < w -> 0 <= y -> y < y' -> y' < h ->
  (y + co) / 2 < (y' + co) / 2 ->
  In a (ag_axes (geo_ax G)) -> In a' (ag_axes (geo_ax G)) ->
  geo_step G (axial_cell co 0 y) (ag_fwd (geo_ax G) a) <> None ->
  geo_step G (axial_cell co 0 y') (ag_fwd (geo_ax G) a') <> None ->
  ~ in_order (edge_id_cmp ra) (spec_edge_names G).
Proof.
  intros A D G ra co w h y y' a a' HG Hw H0 HL Hh HD Ha Ha' Hs Hs' HO.
  apply in_order_sorted in HO. unfold spec_edge_names in HO.
  assert (K : edge_id_cmp ra (axial_cell co 0 y, a) (axial_cell co 0 y', a') = Lt).
  { eapply (sorted_flat_map_inv _ _ _ _ _ HO (Z.to_nat y) (Z.to_nat y')); [lia| | | |].
    - rewrite HG. replace (Z.to_nat y) with (Z.to_nat (0 * h + y)) by lia. apply board_nth; lia.
    - rewrite HG. replace (Z.to_nat y') with (Z.to_nat (0 * h + y')) by lia. apply board_nth; lia.
    - apply in_flat_map. exists a. split; [exact Ha|]. destruct (geo_step G (axial_cell co 0 y) (ag_fwd (geo_ax G) a)); [simpl; auto|congruence].
    - apply in_flat_map. exists a'. split; [exact Ha'|]. destruct (geo_step G (axial_cell co 0 y') (ag_fwd (geo_ax G) a')); [simpl; auto|congruence]. }
  assert (C : coord_cmp (axial_cell co 0 y) (axial_cell co 0 y') = Gt).
  { apply coord_cmp_gt, coord_cmp_lt. unfold axial_cell. cbn [fst snd]. left. lia. }
  unfold edge_id_cmp in K. cbn [fst snd] in K. rewrite C in K. discriminate.
Qed.

Lemma place_step_flat : forall A D (ax : AxisGeo A D) nodes pos c d c',
  In c' nodes -> fst (pos c) + fst (ag_vec ax d) = fst (pos c') ->
  snd (pos c) + snd (ag_vec ax d) = snd (pos c') ->
  place_step ax nodes pos (0, 0) c d <> None.
Proof.
  intros A D ax nodes pos c d c' H1 H2 H3. apply (place_step_some _ _ _ _ _ _ _ _ c'); [exact H1|].
  unfold same_place, vadd. cbn [fst snd]. rewrite H2, H3, !Z.sub_diag. reflexivity.
Qed.

Ltac open_geo := cbn [geo_ax geo_nodes geo_step axial_r_geometry axial_q_geometry axial_geometry
  directed_axes hexr_axes hexq_axes ag_axes ag_dirs ag_fwd ag_directed ag_vec In].
Ltac row_step co x y :=
  apply place_step_flat with (c' := axial_cell co x y);
  [apply in_board; exists x, y; repeat split; lia
  |unfold axial_cell, axial_r_pos, axial_q_pos; cbn [fst snd ag_vec directed_axes hexr_axes hexq_axes hexr_vec hexq_vec]; lia
  |unfold axial_cell, axial_r_pos, axial_q_pos; cbn [fst snd ag_vec directed_axes hexr_axes hexq_axes hexr_vec hexq_vec]; lia].
Ltac disorder co w h y a x1 y1 y' a' x2 y2 :=
  apply (axial_disorder _ _ _ _ co w h y y' a a'); open_geo;
  [reflexivity|lia|lia|lia|lia|lia|tauto|tauto|row_step co x1 y1|row_step co x2 y2].

Lemma axial_names_disorder : forall (A D : Type) (s : Shape Cell A D) (G : Geometry A D) co w h,
  AxialBoard s G co w h -> ~ small_axial (ag_directed (geo_ax G)) co w h ->
  forall ra, ~ in_order (edge_id_cmp ra) (spec_edge_names G).
Proof.
  intros A D s G co w h AX NS ra. unfold small_axial in NS.
  assert (CO : co = 0 \/ co = 1) by (destruct AX; auto using co_r_01, co_q_01).
  destruct (Z_le_gt_dec 2 w) as [W|W].
  - (* the edges along the rows 1 - co and 2 - co *)
    assert (Hh : 3 <= h + co) by lia. clear NS.
    destruct AX as [k b w h F F'|k b w h F F'|k b w h F F'|k b w h F F'].
    + disorder (co_r b) w h (1 - co_r b) AE 1 (1 - co_r b) (2 - co_r b) AE 1 (2 - co_r b).
    + disorder (co_r b) w h (1 - co_r b) RE 1 (1 - co_r b) (2 - co_r b) RE 1 (2 - co_r b).
    + disorder (co_q b) w h (1 - co_q b) BNE 1 (1 - co_q b) (2 - co_q b) BNE 1 (2 - co_q b).
    + disorder (co_q b) w h (1 - co_q b) QNE 1 (1 - co_q b) (2 - co_q b) QNE 1 (2 - co_q b).
  - (* a single column *)
    assert (W1 : w = 1) by lia. assert (Hh : 3 <= h + co) by lia.
    destruct AX as [k b w h F F'|k b w h F F'|k b w h F F'|k b w h F F']; cbn in NS.
    + destruct b; cbn [co_r] in *.
      * disorder 0 w h 0 ANE 0 1 2 ASE 0 1.
      * disorder 1 w h 1 ASE 0 0 3 ASE 0 2.
    + disorder (co_r b) w h (1 - co_r b) RNW 0 (2 - co_r b) (2 - co_r b) RSE 0 (1 - co_r b).
    + destruct b; cbn [co_q] in *.
      * disorder 0 w h 0 BN 0 1 2 BSE 0 1.
      * disorder 1 w h 1 BSE 0 0 3 BSE 0 2.
    + disorder (co_q b) w h (1 - co_q b) QNW 0 (2 - co_q b) (2 - co_q b) QSE 0 (1 - co_q b).
Qed.

Lemma axial_stored : forall (A D : Type) (s : Shape Cell A D) (G : Geometry A D) co w h,
  AxialBoard s G co w h ->
  Stored s G /\ geo_nodes G = board w h (axial_cell co) /\ (co = 0 \/ co = 1).
Proof.
  intros A D s G co w h []; (split; [apply st_supported; constructor; auto|]);
    (split; [reflexivity|]); auto using co_r_01, co_q_01.
Qed.

Lemma axial_names_order : forall (A D : Type) (s : Shape Cell A D) (G : Geometry A D) co w h,
  AxialBoard s G co w h -> w = 1 -> ag_directed (geo_ax G) = false -> co = 1 -> h <= 3 ->
  2 < h + co -> forall ra rd, Ranked (sh_axis s) ra rd ->
  StronglySorted (fun a b => edge_id_cmp ra a b = Lt) (spec_edge_names G).
Proof.
  intros A D s G co w h AX W DR CO H1 H2 ra rd RK.
  destruct (ranked_index _ _ _ _ _ RK) as [RA _]. clear RK.
  destruct AX as [k b w h F F'|k b w h F F'|k b w h F F'|k b w h F F']; try discriminate DR;
    (destruct b; [discriminate CO|]); subst w; (assert (K : h = 2 \/ h = 3) by lia); clear F F';
    destruct K as [-> | ->];
    match goal with |- StronglySorted _ ?l => let l' := eval vm_compute in l in change l with l' end;
    repeat constructor; unfold edge_id_cmp, rank_cmp; cbn [fst snd]; rewrite coord_cmp_refl, !RA;
    reflexivity.
Qed.

Lemma c102_axial : forall (A D N E : Type) (m : mode) (s : Shape Cell A D) (G : Geometry A D)
  co w h, AxialBoard s G co w h ->
  forall (g : LatticeGraph Cell A D N E) nf ef, Built m s G g nf ef ->
  forall ra rd, Ranked (sh_axis s) ra rd ->
  exists l ids, Drains (edge_references_next m g) (edge_references g) l /\
    map (er_id m s) l = map Ok ids /\
    (in_order (edge_id_cmp ra) ids <-> small_axial (ag_directed (geo_ax G)) co w h).
Proof.
  intros A D N E m s G co w h AX g nf ef HB ra rd RK.
  destruct (axial_stored _ _ _ _ _ _ _ AX) as (STO & HG & CO).
  exists (spec_edge_references G ef), (spec_edge_names G).
  pose proof (c15_drains STO g nf ef HB) as DR.
  split; [exact DR|]. split; [exact (c15_ids STO g nf ef _ HB DR)|]. split.
  - intros HO. unfold small_axial.
    destruct (Z_le_gt_dec w 0); [auto|]. destruct (Z_le_gt_dec (h + co) 2); [auto|].
    right. right.
    destruct (Z.eq_dec w 1); [|exfalso; revert HO; eapply axial_names_disorder; eauto;
      unfold small_axial; lia].
    destruct (ag_directed (geo_ax G)) eqn:DI;
      [exfalso; revert HO; eapply axial_names_disorder; eauto; unfold small_axial; rewrite DI;
       intros [|[|(_ & K & _)]]; [lia|lia|discriminate]|].
    destruct (Z.eq_dec co 1); [|exfalso; revert HO; eapply axial_names_disorder; eauto;
      unfold small_axial; lia].
    destruct (Z_le_gt_dec h 3); [auto|exfalso; revert HO; eapply axial_names_disorder; eauto;
      unfold small_axial; lia].
  - intros SM. apply sorted_in_order; [apply edge_id_cmp_refl|apply edge_id_cmp_gt|].
    destruct (Z_le_gt_dec (h + co) 2) as [L|L]; [|destruct (Z_le_gt_dec w 0) as [L'|L']].
    + apply (names_sorted STO ra rd RK), (nodes_in_order STO g nf ef HB).
      apply (c86_axial STO g nf ef HB w h co HG CO). auto.
    + apply (names_sorted STO ra rd RK), (nodes_in_order STO g nf ef HB).
      apply (c86_axial STO g nf ef HB w h co HG CO). auto.
    + destruct SM as [|[|(S1 & S2 & S3 & S4)]]; [lia|lia|].
      eapply axial_names_order; eauto. lia.
Qed.
