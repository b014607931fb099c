(** * DistProofs: the length of shortest walks. *)

From Verif Require Import Machine Store Axes Shapes Lattice Spec Spec4 Basics AxisProofs
  GeoProofs ShapeProofs StoreProofs Main1.
From Coq Require Import ZifyBool ZifyNat.
Ltac Zify.zify_post_hook ::= Z.div_mod_to_equations.

(** A distance that each step changes by at most one, and some step decreases. *)
Record metric {A D} (G : Geometry A D) (dist : Cell -> Cell -> Z) : Prop := {
  mt_zero : forall a, dist a a = 0;
  mt_pos : forall a b, 0 <= dist a b;
  mt_same : forall a b, In a (geo_nodes G) -> In b (geo_nodes G) -> dist a b = 0 -> a = b;
  mt_lip : forall a d a' b, In a (geo_nodes G) -> In b (geo_nodes G) ->
    geo_step G a d = Some a' -> dist a b <= dist a' b + 1;
  mt_desc : forall a b, In a (geo_nodes G) -> In b (geo_nodes G) -> 0 < dist a b ->
    exists d a', geo_step G a d = Some a' /\ dist a' b <= dist a b - 1 }.
Arguments mt_zero {A D G dist}.
Arguments mt_pos {A D G dist}.
Arguments mt_same {A D G dist}.
Arguments mt_lip {A D G dist}.
Arguments mt_desc {A D G dist}.

Section Shortest.
  Context {A D N E : Type} {m : mode} {s : Shape Cell A D} {G : Geometry A D}
    (SUP : Supported s G) (g : LatticeGraph Cell A D N E) (nf : Cell -> N) (ef : Cell -> A -> E)
    (HB : Built m s G g nf ef) (dist : Cell -> Cell -> Z) (MT : metric G dist).

  Let STO := st_supported _ _ _ _ SUP.
  Let RG := supported_regular _ _ _ _ SUP.

  Lemma neighbours_iff : forall a l b, In a (geo_nodes G) ->
    Drains (neighbors_next m g a) (neighbors g a) l ->
    In b l <-> exists d, geo_step G a d = Some b.
  Proof using SUP HB.
    intros a l b Ha Hl.
    rewrite (Drains_det _ _ _ _ Hl (proj1 (c09 STO g nf ef a Outgoing HB Ha))).
    apply (in_spec_neighbors STO).
  Qed.

  Lemma walk_bound : forall a k b, Walk m g a k b -> In a (geo_nodes G) -> In b (geo_nodes G) ->
    dist a b <= Z.of_nat k.
  Proof using SUP HB MT.
    intros a k b W. induction W as [c|a b c n l Hl Hb W IH]; intros Ha Hc.
    - rewrite (mt_zero MT). lia.
    - apply (neighbours_iff a l b Ha Hl) in Hb. destruct Hb as (d & Hd).
      assert (Hb : In b (geo_nodes G)) by (eapply (rg_in RG); eauto).
      pose proof (mt_lip MT a d b c Ha Hc Hd). specialize (IH Hb Hc). lia.
  Qed.

  Lemma walk_exists : forall k a b, In a (geo_nodes G) -> In b (geo_nodes G) ->
    dist a b = Z.of_nat k -> Walk m g a k b.
  Proof using SUP HB MT.
    induction k; intros a b Ha Hb Hd.
    - rewrite (mt_same MT a b Ha Hb Hd). apply walk_here.
    - destruct (mt_desc MT a b Ha Hb ltac:(lia)) as (d & a' & Hs & Hd').
      assert (Ha' : In a' (geo_nodes G)) by (eapply (rg_in RG); eauto).
      pose proof (mt_lip MT a d a' b Ha Hb Hs) as Hl.
      destruct (c09 STO g nf ef a Outgoing HB Ha) as [Hdr _].
      apply (walk_step m g a a' b k _ Hdr); [|apply IHk; auto; lia].
      apply (in_spec_neighbors STO). eauto.
  Qed.

  Lemma shortest_dist : forall a b, In a (geo_nodes G) -> In b (geo_nodes G) ->
    shortest m g a b (dist a b).
  Proof using SUP HB MT.
    intros a b Ha Hb. pose proof (mt_pos MT a b). split.
    - exists (Z.to_nat (dist a b)). split; [|lia]. apply walk_exists; auto. lia.
    - intros k W. eapply walk_bound; eauto.
  Qed.
End Shortest.

(** ** Square boards *)

Lemma square_metric : forall A (ax : AxisGeo A DirectedSquareAxis) w h,
  ag_vec ax = square_vec ->
  metric (square_geometry ax w h) taxicab.
Proof.
  intros A ax w h Hv. pose proof (square_inj _ _ ax w h) as PL. constructor.
  - intros [x y]. unfold taxicab. cbn [fst snd]. lia.
  - intros [x y] [x' y']. unfold taxicab. cbn [fst snd]. lia.
  - intros [x y] [x' y'] _ _ H. unfold taxicab in H. cbn [fst snd] in H. apply pair_eq; lia.
  - intros [x y] d [x' y'] [bx by'] _ _ H. apply (geo_step_place PL) in H.
    apply same_place_zero in H. cbn [geo_ax square_geometry rect_geometry] in H. rewrite Hv in H.
    unfold vadd in H. cbn [fst snd] in H. apply pair_inv in H. unfold taxicab. cbn [fst snd].
    destruct d; cbn [square_vec fst snd] in H; lia.
  - intros [x y] [bx by'] Ha Hb H. unfold taxicab in H. cbn [fst snd] in H.
    apply in_rect in Ha. apply in_rect in Hb.
    assert (Hstep : forall d t, ag_vec ax d = t -> 0 <= x + fst t < w -> 0 <= y + snd t < h ->
       geo_step (square_geometry ax w h) (x, y) d = Some (x + fst t, y + snd t)).
    { intros d t Ht H1 H2. apply (geo_step_some PL); [apply in_rect; cbn [fst snd]; auto|].
      cbn [geo_ax square_geometry rect_geometry]. rewrite Ht. apply same_place_refl. }
    rewrite Hv in Hstep. unfold taxicab.
    destruct (Z.lt_trichotomy x bx) as [Hx|[Hx|Hx]];
      [ exists DX | destruct (Z.lt_trichotomy y by') as [Hy|[Hy|Hy]];
        [exists DY| lia |exists DRY] | exists DRX];
      (eexists; split; [apply (Hstep _ _ eq_refl); cbn [square_vec fst snd]; lia|]);
      cbn [square_vec fst snd]; lia.
Qed.

Lemma diagonal_metric : forall A (ax : AxisGeo A DirectedSquareDiagonalAxis) w h,
  ag_vec ax = diagonal_vec ->
  metric (square_geometry ax w h) chessboard.
Proof.
  intros A ax w h Hv. pose proof (square_inj _ _ ax w h) as PL. constructor.
  - intros [x y]. unfold chessboard. cbn [fst snd]. lia.
  - intros [x y] [x' y']. unfold chessboard. cbn [fst snd]. lia.
  - intros [x y] [x' y'] _ _ H. unfold chessboard in H. cbn [fst snd] in H. apply pair_eq; lia.
  - intros [x y] d [x' y'] [bx by'] _ _ H. apply (geo_step_place PL) in H.
    apply same_place_zero in H. cbn [geo_ax square_geometry rect_geometry] in H. rewrite Hv in H.
    unfold vadd in H. cbn [fst snd] in H. apply pair_inv in H. unfold chessboard. cbn [fst snd].
    destruct d; cbn [diagonal_vec fst snd] in H; lia.
  - intros [x y] [bx by'] Ha Hb H. unfold chessboard in H. cbn [fst snd] in H.
    apply in_rect in Ha. apply in_rect in Hb.
    assert (Hstep : forall d t, ag_vec ax d = t -> 0 <= x + fst t < w -> 0 <= y + snd t < h ->
       geo_step (square_geometry ax w h) (x, y) d = Some (x + fst t, y + snd t)).
    { intros d t Ht H1 H2. apply (geo_step_some PL); [apply in_rect; cbn [fst snd]; auto|].
      cbn [geo_ax square_geometry rect_geometry]. rewrite Ht. apply same_place_refl. }
    rewrite Hv in Hstep. unfold chessboard.
    destruct (Z.lt_trichotomy x bx) as [Hx|[Hx|Hx]];
      destruct (Z.lt_trichotomy y by') as [Hy|[Hy|Hy]];
      [exists DNE|exists DE|exists DSE|exists DN|lia|exists DS|exists DNW|exists DW|exists DSW];
      (eexists; split; [apply (Hstep _ _ eq_refl); cbn [diagonal_vec fst snd]; lia|]);
      cbn [diagonal_vec fst snd]; lia.
Qed.

(** ** Hexagonal boards *)

(** All hexagonal boards, looped or not, in the same picture: the x-th cell of row y lies at
    (2x + (y + co) mod 2, y). *)

Definition hexd (dx dy : Z) : Z := Z.max (Z.abs dy) ((Z.abs dx + Z.abs dy) / 2).

Definition unit_hex (dx dy : Z) : Prop :=
  (dy = 0 /\ (dx = 2 \/ dx = -2)) \/ ((dy = 1 \/ dy = -1) /\ (dx = 1 \/ dx = -1)).

Lemma hexd_lip : forall dx dy ux uy, unit_hex ux uy -> hexd dx dy <= hexd (dx - ux) (dy - uy) + 1.
Proof. intros dx dy ux uy H. unfold unit_hex, hexd in *. lia. Qed.

Lemma hexd_mono : forall dx dx' dy, Z.abs dx <= Z.abs dx' -> hexd dx dy <= hexd dx' dy.
Proof. intros dx dx' dy H. unfold hexd. lia. Qed.

(** The distance on a board that repeats after [p] units. *)
Definition hexl (p dx dy : Z) : Z :=
  Z.min (hexd dx dy) (Z.min (hexd (dx + p) dy) (hexd (dx - p) dy)).

Lemma hexl_min : forall p dx dy k, Z.abs dx < p -> hexl p dx dy <= hexd (dx + k * p) dy.
Proof.
  intros p dx dy k H. unfold hexl.
  assert (k = 0 \/ k = 1 \/ k = -1 \/ 2 <= Z.abs k) as [->|[->|[->|Hk]]] by lia.
  - replace (dx + 0 * p) with dx by lia. lia.
  - replace (dx + 1 * p) with (dx + p) by lia. lia.
  - replace (dx + -1 * p) with (dx - p) by lia. lia.
  - pose proof (hexd_mono dx (dx + k * p) dy ltac:(nia)). lia.
Qed.

Lemma hexl_at : forall p dx dy, exists k, hexl p dx dy = hexd (dx + k * p) dy.
Proof.
  intros p dx dy. unfold hexl.
  destruct (Z.min_spec (hexd (dx + p) dy) (hexd (dx - p) dy)) as [[_ E1]|[_ E1]]; rewrite E1;
  match goal with |- context [Z.min ?a ?b] => destruct (Z.min_spec a b) as [[_ E2]|[_ E2]] end;
  rewrite E2;
  first [ (exists 0; f_equal; lia) | (exists 1; f_equal; lia) | (exists (-1); f_equal; lia)].
Qed.

Section Hex.
  Context {A D : Type} (G : Geometry A D) (w h co p : Z) (cell : Z -> Z -> Cell)
    (chart : Cell -> Z * Z)
    (Hp : p = 0 \/ p = 2 * w)
    (Hn : geo_nodes G = board w h cell)
    (Hc : forall x y, chart (cell x y) = (2 * x + (y + co) mod 2, y))
    (Hfwd : forall a d b, geo_step G a d = Some b -> In b (geo_nodes G) /\
       exists k ux, fst (chart b) = fst (chart a) + ux + k * p /\
         unit_hex ux (snd (chart b) - snd (chart a)))
    (Hbwd : forall a b k ux, In a (geo_nodes G) -> In b (geo_nodes G) ->
       fst (chart b) = fst (chart a) + ux + k * p ->
       unit_hex ux (snd (chart b) - snd (chart a)) ->
       exists d, geo_step G a d = Some b).

  Definition hexm (a b : Cell) : Z :=
    if p =? 0 then hexd (fst (chart a) - fst (chart b)) (snd (chart a) - snd (chart b))
    else hexl p (fst (chart a) - fst (chart b)) (snd (chart a) - snd (chart b)).

  Lemma hexm_min : forall a b k, In a (geo_nodes G) -> In b (geo_nodes G) ->
    hexm a b <= hexd (fst (chart a) - fst (chart b) + k * p) (snd (chart a) - snd (chart b)).
  Proof using Hp Hn Hc.
    clear Hfwd Hbwd. intros a b k Ha Hb. unfold hexm. destruct (p =? 0) eqn:E.
    - replace (k * p) with 0 by nia. rewrite Z.add_0_r. lia.
    - apply hexl_min. rewrite Hn in Ha, Hb. apply in_board in Ha. apply in_board in Hb.
      destruct Ha as (x & y & Hx & Hy & ->). destruct Hb as (x' & y' & Hx' & Hy' & ->).
      rewrite !Hc. cbn [fst snd]. lia.
  Qed.

  Lemma hexm_at : forall a b, exists k,
    hexm a b = hexd (fst (chart a) - fst (chart b) + k * p) (snd (chart a) - snd (chart b)).
  Proof using.
    clear. intros a b. unfold hexm. destruct (p =? 0) eqn:E.
    - exists 0. f_equal. lia.
    - apply hexl_at.
  Qed.

  Lemma hex_metric : metric G hexm.
  Proof using Hp Hn Hc Hfwd Hbwd.
    assert (Hpos : forall a b, 0 <= hexm a b).
    { intros a b. destruct (hexm_at a b) as (k & ->). unfold hexd. lia. }
    constructor; auto.
    - intros a. unfold hexm, hexl. rewrite !Z.sub_diag. unfold hexd. destruct (p =? 0); lia.
    - intros a b Ha Hb H. destruct (hexm_at a b) as (k & E). rewrite E in H.
      rewrite Hn in Ha, Hb. apply in_board in Ha. apply in_board in Hb.
      destruct Ha as (x & y & Hx & Hy & ->). destruct Hb as (x' & y' & Hx' & Hy' & ->).
      rewrite !Hc in H. cbn [fst snd] in H. unfold hexd in H.
      assert (y = y') by lia. subst y'. replace x' with x; auto.
      assert (2 * x - 2 * x' + k * p = 0) by lia.
      destruct Hp as [->| ->]; [lia|]. assert (k = 0) by nia. subst k. lia.
    - intros a d a' b Ha Hb H. destruct (Hfwd _ _ _ H) as (Ha' & k & ux & E & U).
      destruct (hexm_at a' b) as (j & Ej). rewrite Ej.
      pose proof (hexm_min a b (j + k) Ha Hb) as H1.
      pose proof (hexd_lip (fst (chart a) - fst (chart b) + (j + k) * p)
        (snd (chart a) - snd (chart b)) (- ux) (- (snd (chart a') - snd (chart a)))) as H2.
      assert (U' : unit_hex (- ux) (- (snd (chart a') - snd (chart a))))
        by (unfold unit_hex in *; lia).
      specialize (H2 U').
      replace (fst (chart a) - fst (chart b) + (j + k) * p - - ux)
        with (fst (chart a') - fst (chart b) + j * p) in H2 by lia.
      replace (snd (chart a) - snd (chart b) - - (snd (chart a') - snd (chart a)))
        with (snd (chart a') - snd (chart b)) in H2 by lia. lia.
    - intros a b Ha Hb H. destruct (hexm_at a b) as (j & Ej).
      pose proof Ha as Ha0. pose proof Hb as Hb0.
      rewrite Hn in Ha, Hb. apply in_board in Ha. apply in_board in Hb.
      destruct Ha as (x & y & Hx & Hy & ->). destruct Hb as (x' & y' & Hx' & Hy' & ->).
      rewrite !Hc in Ej. cbn [fst snd] in Ej.
      (* the step in the plane, to (X, Y) *)
      assert (Hgo : exists X Y,
        unit_hex (X - (2 * x + (y + co) mod 2)) (Y - y) /\ 0 <= Y < h /\
        (X - (Y + co) mod 2) mod 2 = 0 /\
        (p = 0 -> 0 <= X - (Y + co) mod 2 <= 2 * (w - 1)) /\
        hexd (X - (2 * x' + (y' + co) mod 2) + j * p) (Y - y')
        <= hexd (2 * x + (y + co) mod 2 - (2 * x' + (y' + co) mod 2) + j * p) (y - y') - 1).
      { set (dx := 2 * x + (y + co) mod 2 - (2 * x' + (y' + co) mod 2) + j * p) in *.
        assert (Hpar : (dx - (y - y')) mod 2 = 0).
        { unfold dx. destruct Hp as [-> | ->]; [lia|].
          replace (j * (2 * w)) with (2 * (j * w)) by lia. generalize (j * w). intros. lia. }
        assert (Hd0 : 0 < hexd dx (y - y')) by lia.
        assert (Hj : p = 0 -> dx = 2 * x + (y + co) mod 2 - (2 * x' + (y' + co) mod 2)).
        { intros ->. unfold dx. lia. }
        destruct (Z.lt_trichotomy y y') as [Ey|[Ey|Ey]].
        - destruct (Z.lt_trichotomy dx 0) as [Ex|[Ex|Ex]].
          + exists (2 * x + (y + co) mod 2 + 1), (y + 1).
            replace (2 * x + (y + co) mod 2 + 1 - (2 * x' + (y' + co) mod 2) + j * p)
              with (dx + 1) by (unfold dx; lia). clearbody dx. unfold unit_hex, hexd in *.
            repeat split; lia.
          + exists (2 * x + (y + 1 + co) mod 2), (y + 1).
            replace (2 * x + (y + 1 + co) mod 2 - (2 * x' + (y' + co) mod 2) + j * p)
              with (dx + ((y + 1 + co) mod 2 - (y + co) mod 2)) by (unfold dx; lia).
            clearbody dx. unfold unit_hex, hexd in *. repeat split; lia.
          + exists (2 * x + (y + co) mod 2 - 1), (y + 1).
            replace (2 * x + (y + co) mod 2 - 1 - (2 * x' + (y' + co) mod 2) + j * p)
              with (dx - 1) by (unfold dx; lia). clearbody dx. unfold unit_hex, hexd in *.
            repeat split; lia.
        - destruct (Z.lt_trichotomy dx 0) as [Ex|[Ex|Ex]].
          + exists (2 * x + (y + co) mod 2 + 2), y.
            replace (2 * x + (y + co) mod 2 + 2 - (2 * x' + (y' + co) mod 2) + j * p)
              with (dx + 2) by (unfold dx; lia). clearbody dx. unfold unit_hex, hexd in *.
            repeat split; lia.
          + exfalso. clearbody dx. unfold hexd in Hd0. lia.
          + exists (2 * x + (y + co) mod 2 - 2), y.
            replace (2 * x + (y + co) mod 2 - 2 - (2 * x' + (y' + co) mod 2) + j * p)
              with (dx - 2) by (unfold dx; lia). clearbody dx. unfold unit_hex, hexd in *.
            repeat split; lia.
        - destruct (Z.lt_trichotomy dx 0) as [Ex|[Ex|Ex]].
          + exists (2 * x + (y + co) mod 2 + 1), (y - 1).
            replace (2 * x + (y + co) mod 2 + 1 - (2 * x' + (y' + co) mod 2) + j * p)
              with (dx + 1) by (unfold dx; lia). clearbody dx. unfold unit_hex, hexd in *.
            repeat split; lia.
          + exists (2 * x + (y - 1 + co) mod 2), (y - 1).
            replace (2 * x + (y - 1 + co) mod 2 - (2 * x' + (y' + co) mod 2) + j * p)
              with (dx + ((y - 1 + co) mod 2 - (y + co) mod 2)) by (unfold dx; lia).
            clearbody dx. unfold unit_hex, hexd in *. repeat split; lia.
          + exists (2 * x + (y + co) mod 2 - 1), (y - 1).
            replace (2 * x + (y + co) mod 2 - 1 - (2 * x' + (y' + co) mod 2) + j * p)
              with (dx - 1) by (unfold dx; lia). clearbody dx. unfold unit_hex, hexd in *.
            repeat split; lia. }
      destruct Hgo as (X & Y & U & HY & Hpar & Hin & Hdec).
      (* the board cell there *)
      assert (Hcell : exists x0 k, 0 <= x0 < w /\ 2 * x0 + (Y + co) mod 2 = X + k * p).
      { destruct Hp as [-> | Hp2].
        - exists ((X - (Y + co) mod 2) / 2), 0. specialize (Hin eq_refl). lia.
        - set (t := (X - (Y + co) mod 2) / 2). assert (Ht : X = 2 * t + (Y + co) mod 2) by lia.
          exists (t mod w), (- (t / w)). split; [apply Z.mod_pos_bound; lia|].
          pose proof (Z.div_mod t w ltac:(lia)). rewrite Hp2, Ht. nia. }
      destruct Hcell as (x0 & k & Hx0 & Ek).
      assert (Hin0 : In (cell x0 Y) (geo_nodes G))
        by (rewrite Hn; apply in_board; exists x0, Y; auto).
      destruct (Hbwd (cell x y) (cell x0 Y) k (X - (2 * x + (y + co) mod 2)) Ha0 Hin0) as (d & Hd).
      { rewrite !Hc. cbn [fst snd]. lia. }
      { rewrite !Hc. cbn [fst snd]. auto. }
      exists d, (cell x0 Y). split; auto.
      pose proof (hexm_min (cell x0 Y) (cell x' y') (j - k) Hin0 Hb0) as Hm.
      rewrite !Hc in Hm. cbn [fst snd] in Hm.
      replace (2 * x0 + (Y + co) mod 2 - (2 * x' + (y' + co) mod 2) + (j - k) * p)
        with (X - (2 * x' + (y' + co) mod 2) + j * p) in Hm by lia. lia.
  Qed.
End Hex.

Lemma metric_ext : forall A D (G : Geometry A D) d d', metric G d ->
  (forall a b, d' a b = d a b) -> metric G d'.
Proof.
  intros A D G d d' [H0 H1 H2 H3 H4] E. constructor; intros; rewrite ?E in *; eauto.
  destruct (H4 a b) as (x & a' & Hs & Hd); auto. exists x, a'. rewrite E. auto.
Qed.

Lemma placed_fwd : forall A D (G : Geometry A D) pos px py a d b,
  placed G pos (px, py) -> geo_step G a d = Some b ->
  In b (geo_nodes G) /\ exists k,
    fst (pos a) + fst (ag_vec (geo_ax G) d) = fst (pos b) + k * px /\
    snd (pos a) + snd (ag_vec (geo_ax G) d) = snd (pos b) + k * py.
Proof.
  intros A D G pos px py a d b PL H. split; [eapply (placed_in PL); eauto|].
  apply (geo_step_place PL) in H. apply same_place_iff in H. cbn [fst snd] in H.
  unfold vadd in H. destruct H as [[_ H]|(_ & k & H1 & H2)].
  - exists 0. rewrite <- H. cbn [fst snd]. lia.
  - exists k. auto.
Qed.

Lemma placed_bwd : forall A D (G : Geometry A D) pos px py a d b k,
  placed G pos (px, py) -> (px = 0 -> py = 0) -> In b (geo_nodes G) ->
  fst (pos a) + fst (ag_vec (geo_ax G) d) = fst (pos b) + k * px ->
  snd (pos a) + snd (ag_vec (geo_ax G) d) = snd (pos b) + k * py ->
  geo_step G a d = Some b.
Proof.
  intros A D G pos px py a d b k PL Hpy Hb H1 H2. apply (geo_step_some PL); auto.
  apply same_place_iff. cbn [fst snd]. unfold vadd. cbn [fst snd].
  destruct (Z.eq_dec px 0) as [->|Hne].
  - left. split; auto. rewrite (Hpy eq_refl) in H2. rewrite H1, H2.
    destruct (pos b) as [x y]. cbn [fst snd]. apply pair_eq; lia.
  - right. split; eauto.
Qed.

Lemma hexr_unit : forall d, unit_hex (fst (hexr_vec d)) (snd (hexr_vec d)).
Proof. intros []; unfold unit_hex; cbn [hexr_vec fst snd]; lia. Qed.
Lemma unit_hexr : forall ux uy, unit_hex ux uy -> exists d, hexr_vec d = (ux, uy).
Proof.
  intros ux uy [[-> [-> | ->]]|[[-> | ->] [-> | ->]]];
    [exists RE|exists RW|exists RNE|exists RNW|exists RSE|exists RSW]; reflexivity.
Qed.

(** Flat-top directions in the picture of rows. *)
Definition tilt (v : Vec) : Vec := (fst v + (fst v + snd v) / 2, (snd v - fst v) / 2).
Lemma hexq_unit : forall d, unit_hex (fst (tilt (hexq_vec d))) (snd (tilt (hexq_vec d))).
Proof. intros []; unfold unit_hex, tilt; cbn [hexq_vec fst snd]; lia. Qed.
Lemma unit_hexq : forall ux uy, unit_hex ux uy -> exists d,
  tilt (hexq_vec d) = (ux, uy) /\ (fst (hexq_vec d) + snd (hexq_vec d)) mod 2 = 0.
Proof.
  intros ux uy [[-> [-> | ->]]|[[-> | ->] [-> | ->]]];
    [exists QNE|exists QSW|exists QN|exists QNW|exists QSE|exists QS]; split; reflexivity.
Qed.
Lemma hexq_even : forall d, (fst (hexq_vec d) + snd (hexq_vec d)) mod 2 = 0.
Proof. intros []; reflexivity. Qed.

Lemma rows_metric : forall A (ax : AxisGeo A AxisDR) b w h p,
  ag_vec ax = hexr_vec -> (p = 0 \/ p = 2 * w) ->
  placed (rect_geometry ax w h (offset_r_pos b) (p, 0)) (offset_r_pos b) (p, 0) ->
  metric (rect_geometry ax w h (offset_r_pos b) (p, 0)) (hexm p (offset_r_pos b)).
Proof.
  intros A ax b w h p Hv Hp PL.
  apply (hex_metric _ w h (co_r b) p (fun x y => (x, y)) (offset_r_pos b) Hp).
  - reflexivity.
  - intros x y. unfold offset_r_pos, co_r. destruct b; apply pair_eq; cbn [fst snd]; lia.
  - intros a d a' H. destruct (placed_fwd _ _ _ _ _ _ _ _ _ PL H) as (Hin & k & H1 & H2).
    split; auto. cbn [geo_ax rect_geometry] in H1, H2. rewrite Hv in H1, H2.
    exists (- k), (fst (hexr_vec d)). split; [lia|].
    replace (snd (offset_r_pos b a') - snd (offset_r_pos b a)) with (snd (hexr_vec d)) by lia.
    apply hexr_unit.
  - intros a a' k ux Ha Ha' H U. destruct (unit_hexr _ _ U) as (d & Hd). exists d.
    apply (placed_bwd _ _ _ _ _ _ _ _ _ (- k) PL); auto;
      cbn [geo_ax rect_geometry]; rewrite Hv, Hd; cbn [fst snd]; lia.
Qed.

Definition axial_chart (co : Z) (c : Cell) : Z * Z := (2 * fst c + snd c + co, snd c).

Lemma axial_chart_cell : forall co x y, (co = 0 \/ co = 1) ->
  axial_chart co (axial_cell co x y) = (2 * x + (y + co) mod 2, y).
Proof. intros co x y H. unfold axial_chart, axial_cell. cbn [fst snd]. apply pair_eq; lia. Qed.

Lemma axial_r_metric : forall A (ax : AxisGeo A AxisDR) k b w h p,
  ag_vec ax = hexr_vec -> (p = 0 \/ p = 2 * w) ->
  placed (axial_geometry ax k (co_r b) w h axial_r_pos (p, 0)) axial_r_pos (p, 0) ->
  metric (axial_geometry ax k (co_r b) w h axial_r_pos (p, 0)) (hexm p (axial_chart (co_r b))).
Proof.
  intros A ax k b w h p Hv Hp PL.
  apply (hex_metric _ w h (co_r b) p (axial_cell (co_r b)) (axial_chart (co_r b)) Hp).
  - reflexivity.
  - intros x y. apply axial_chart_cell. destruct b; auto.
  - intros a d a' H. destruct (placed_fwd _ _ _ _ _ _ _ _ _ PL H) as (Hin & j & H1 & H2).
    split; auto. cbn [geo_ax axial_geometry] in H1, H2. rewrite Hv in H1, H2.
    unfold axial_r_pos in H1, H2. cbn [fst snd] in H1, H2.
    exists (- j), (fst (hexr_vec d)). unfold axial_chart. cbn [fst snd]. split; [lia|].
    replace (snd a' - snd a) with (snd (hexr_vec d)) by lia. apply hexr_unit.
  - intros a a' j ux Ha Ha' H U. destruct (unit_hexr _ _ U) as (d & Hd). exists d.
    unfold axial_chart in H, Hd. cbn [fst snd] in H, Hd.
    apply (placed_bwd _ _ _ _ _ _ _ _ _ (- j) PL); auto;
      cbn [geo_ax axial_geometry]; rewrite Hv, Hd; unfold axial_r_pos; cbn [fst snd]; lia.
Qed.

Lemma axial_q_metric : forall A (ax : AxisGeo A AxisDQ) k b w h p,
  ag_vec ax = hexq_vec -> (p = 0 \/ p = w) ->
  placed (axial_geometry ax k (co_q b) w h axial_q_pos (p, p)) axial_q_pos (p, p) ->
  metric (axial_geometry ax k (co_q b) w h axial_q_pos (p, p))
    (hexm (2 * p) (axial_chart (co_q b))).
Proof.
  intros A ax k b w h p Hv Hp PL.
  apply (hex_metric _ w h (co_q b) (2 * p) (axial_cell (co_q b)) (axial_chart (co_q b))).
  - lia.
  - reflexivity.
  - intros x y. apply axial_chart_cell. destruct b; auto.
  - intros a d a' H. destruct (placed_fwd _ _ _ _ _ _ _ _ _ PL H) as (Hin & j & H1 & H2).
    split; auto. cbn [geo_ax axial_geometry] in H1, H2. rewrite Hv in H1, H2.
    unfold axial_q_pos in H1, H2. cbn [fst snd] in H1, H2. pose proof (hexq_even d) as He.
    pose proof (hexq_unit d) as U. unfold tilt in U. cbn [fst snd] in U.
    exists (- j), (fst (hexq_vec d) + (fst (hexq_vec d) + snd (hexq_vec d)) / 2).
    unfold axial_chart. cbn [fst snd]. split; [lia|].
    replace (snd a' - snd a) with ((snd (hexq_vec d) - fst (hexq_vec d)) / 2) by lia. exact U.
  - intros a a' j ux Ha Ha' H U. destruct (unit_hexq _ _ U) as (d & Hd & He). exists d.
    unfold axial_chart in H, Hd. cbn [fst snd] in H, Hd. unfold tilt in Hd.
    apply pair_inv in Hd. destruct Hd as [Hd1 Hd2].
    apply (placed_bwd _ _ _ _ _ _ _ _ _ (- j) PL); auto;
      cbn [geo_ax axial_geometry]; rewrite Hv; unfold axial_q_pos; cbn [fst snd]; lia.
Qed.

Lemma rows_plain : forall pos a b, hex_rows (pos a) (pos b) = hexm 0 pos a b.
Proof. intros pos a b. reflexivity. Qed.
Lemma rows_around : forall w pos a b,
  around hex_rows (2 * w, 0) (pos a) (pos b) = hexm (2 * w) pos a b.
Proof.
  intros w pos a b. destruct (pos a) as [x y] eqn:Ea, (pos b) as [x' y'] eqn:Eb.
  unfold around, hexm, hexl. rewrite Ea, Eb. unfold vadd. cbn [fst snd].
  change (Z.min (hexd (x - x') (y - y'))
            (Z.min (hexd (x - (x' + 2 * w)) (y - (y' + 0)))
               (hexd (x + 2 * w - x') (y + 0 - y')))
          = if 2 * w =? 0 then hexd (x - x') (y - y')
            else Z.min (hexd (x - x') (y - y'))
              (Z.min (hexd (x - x' + 2 * w) (y - y')) (hexd (x - x' - 2 * w) (y - y')))).
  replace (x - (x' + 2 * w)) with (x - x' - 2 * w) by lia.
  replace (x + 2 * w - x') with (x - x' + 2 * w) by lia.
  replace (y - (y' + 0)) with (y - y') by lia. replace (y + 0 - y') with (y - y') by lia.
  destruct (2 * w =? 0) eqn:E.
  - replace (2 * w) with 0 by lia. rewrite Z.add_0_r, Z.sub_0_r, !Z.min_id. reflexivity.
  - rewrite (Z.min_comm (hexd (_ - 2 * w) _)). reflexivity.
Qed.
Lemma axial_hexd : forall dr dq,
  Z.max (Z.abs (dr + dq)) (Z.max (Z.abs dr) (Z.abs dq)) = hexd (2 * dr + dq) dq.
Proof. intros. unfold hexd. lia. Qed.
Lemma hex_axial_hexd : forall a b,
  hex_axial a b = hexd (2 * (fst a - fst b) + (snd a - snd b)) (snd a - snd b).
Proof. intros. apply axial_hexd. Qed.

Lemma axial_plain : forall co a b, hex_axial a b = hexm 0 (axial_chart co) a b.
Proof.
  intros co a b. rewrite hex_axial_hexd. unfold hexm, axial_chart. cbn [fst snd Z.eqb].
  f_equal. lia.
Qed.
Lemma axial_around : forall w co a b,
  around hex_axial (w, 0) a b = hexm (2 * w) (axial_chart co) a b.
Proof.
  intros w co a b. unfold around. rewrite !hex_axial_hexd. unfold hexm, hexl, axial_chart, vadd.
  cbn [fst snd].
  replace (2 * fst a + snd a + co - (2 * fst b + snd b + co))
    with (2 * (fst a - fst b) + (snd a - snd b)) by lia.
  replace (2 * (fst a - (fst b + w)) + (snd a - (snd b + 0)))
    with (2 * (fst a - fst b) + (snd a - snd b) - 2 * w) by lia.
  replace (2 * (fst a + w - fst b) + (snd a + 0 - snd b))
    with (2 * (fst a - fst b) + (snd a - snd b) + 2 * w) by lia.
  replace (snd a - (snd b + 0)) with (snd a - snd b) by lia.
  replace (snd a + 0 - snd b) with (snd a - snd b) by lia.
  destruct (2 * w =? 0) eqn:E.
  - replace (2 * w) with 0 by lia. rewrite Z.add_0_r, Z.sub_0_r, !Z.min_id. reflexivity.
  - rewrite (Z.min_comm (hexd (_ - 2 * w) _)). reflexivity.
Qed.

Lemma distance_metric : forall A D (s : Shape Cell A D) G dist,
  Distance s G dist -> metric G dist.
Proof.
  intros A D s G dist H. destruct H.
  - apply square_metric. reflexivity.
  - apply square_metric. reflexivity.
  - apply diagonal_metric. reflexivity.
  - apply diagonal_metric. reflexivity.
  - eapply metric_ext; [apply rows_metric; [reflexivity|auto|apply offset_r_inj]|].
    intros. apply rows_plain.
  - eapply metric_ext; [apply rows_metric; [reflexivity|auto|apply offset_r_inj]|].
    intros. apply rows_plain.
  - eapply metric_ext; [apply rows_metric; [reflexivity|auto|apply offset_r_loop_inj]|].
    intros. apply rows_around.
  - eapply metric_ext; [apply axial_r_metric; [reflexivity|auto|apply axial_r_inj]|].
    intros. apply axial_plain.
  - eapply metric_ext; [apply axial_r_metric; [reflexivity|auto|apply axial_r_inj]|].
    intros. apply axial_plain.
  - eapply metric_ext; [apply axial_q_metric; [reflexivity|auto|apply axial_q_inj]|].
    intros. apply axial_plain.
  - eapply metric_ext; [apply axial_q_metric; [reflexivity|auto|apply axial_q_inj]|].
    intros. apply axial_plain.
  - eapply metric_ext; [apply axial_r_metric; [reflexivity|auto|apply axial_r_loop_inj]|].
    intros. apply axial_around.
  - eapply metric_ext; [apply axial_r_metric; [reflexivity|auto|apply axial_r_loop_inj]|].
    intros. apply axial_around.
  - eapply metric_ext; [apply axial_q_metric; [reflexivity|auto|apply axial_q_loop_inj]|].
    intros. apply axial_around.
  - eapply metric_ext; [apply axial_q_metric; [reflexivity|auto|apply axial_q_loop_inj]|].
    intros. apply axial_around.
Qed.

Lemma c63 : forall (A D N E : Type) (m : mode) (s : Shape Cell A D) (G : Geometry A D) dist,
  Supported s G -> Distance s G dist ->
  forall (g : LatticeGraph Cell A D N E) nf ef, Built m s G g nf ef ->
  forall a b, In a (geo_nodes G) -> In b (geo_nodes G) -> shortest m g a b (dist a b).
Proof.
  intros A D N E m s G dist SUP HD g nf ef HB a b Ha Hb.
  exact (shortest_dist SUP g nf ef HB dist (distance_metric _ _ _ _ _ HD) a b Ha Hb).
Qed.

(** Every lattice has its distance. *)
Lemma c63_every : forall (A D : Type) (s : Shape Cell A D) (G : Geometry A D),
  Supported s G -> exists dist, Distance s G dist.
Proof. intros A D s G []; eexists; constructor; auto. Qed.
